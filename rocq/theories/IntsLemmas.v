From Verif Require Import Base Ints.
Open Scope Z_scope.

Lemma pow2_pos w : 0 <= w -> 0 < 2 ^ w.
Proof. intros. apply Z.pow_pos_nonneg; lia. Qed.
Lemma pow2_split w : 0 < w -> 2 ^ w = 2 * 2 ^ (w - 1).
Proof. intros. replace w with (1 + (w - 1)) at 1 by lia. rewrite Z.pow_add_r by lia. reflexivity. Qed.
Lemma pow2_le a b : 0 <= a <= b -> 2 ^ a <= 2 ^ b.
Proof. intros. apply Z.pow_le_mono_r; lia. Qed.

Lemma cast_U w x : cast (Uint w) x = x mod 2 ^ w.
Proof. reflexivity. Qed.

Lemma cast_in_range t x : 0 < width t -> in_range t (cast t x).
Proof.
  intros Hw. unfold in_range, cast, tmin, tmax.
  pose proof (pow2_split (width t) Hw). pose proof (pow2_pos (width t - 1) ltac:(lia)).
  pose proof (Z.mod_pos_bound x (2 ^ width t) ltac:(lia)).
  destruct (signed t); cbn [andb]; [|lia].
  destruct (Z.leb_spec (2 ^ (width t - 1)) (x mod 2 ^ width t)); lia.
Qed.

Lemma cast_id t x : 0 < width t -> in_range t x -> cast t x = x.
Proof.
  intros Hw. unfold in_range, cast, tmin, tmax.
  pose proof (pow2_split (width t) Hw). pose proof (pow2_pos (width t - 1) ltac:(lia)).
  destruct (signed t); cbn [andb]; intros Hx.
  - destruct (Z_lt_le_dec x 0).
    + replace (x mod 2 ^ width t) with (x + 2 ^ width t).
      * destruct (Z.leb_spec (2 ^ (width t - 1)) (x + 2 ^ width t)); lia.
      * apply (Zmod_unique x (2 ^ width t) (-1)); lia.
    + rewrite Z.mod_small by lia.
      destruct (Z.leb_spec (2 ^ (width t - 1)) x); lia.
  - apply Z.mod_small; lia.
Qed.

Lemma in_rangeb_spec t x : in_rangeb t x = true <-> in_range t x.
Proof. unfold in_rangeb, in_range. rewrite andb_true_iff, !Z.leb_le. tauto. Qed.

Lemma promoted_ok w iw x :
  w < iw -> - 2 ^ (iw - 1) <= x <= 2 ^ (iw - 1) - 1 -> promoted w iw x = Some (x mod 2 ^ w).
Proof.
  intros Hw Hx. unfold promoted. destruct (Z.ltb_spec w iw); [|lia].
  assert (in_rangeb (Sint iw) x = true) as -> by (apply in_rangeb_spec; exact Hx). reflexivity.
Qed.
Lemma promoted_wide w iw x : iw <= w -> promoted w iw x = Some (x mod 2 ^ w).
Proof. intros. unfold promoted. destruct (Z.ltb_spec w iw); [lia|reflexivity]. Qed.
