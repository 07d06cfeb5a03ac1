(** Proofs about counting_iterator. *)
From Verif Require Import Base BaseLemmas CountingModel CountingSpec.
Open Scope Z_scope.

Lemma pow_pos' n : 0 <= n -> 0 < 2 ^ n.
Proof. intros H. apply Z.pow_pos_nonneg; lia. Qed.
Lemma pow_half n : 0 < n -> 2 ^ n = 2 * 2 ^ (n - 1).
Proof. intros H. replace n with (Z.succ (n - 1)) at 1 by lia. apply Z.pow_succ_r. lia. Qed.
Lemma hi_lo t : 0 < bits t -> hi t - lo t + 1 = 2 ^ bits t.
Proof. intros H. pose proof (pow_half (bits t) H). unfold hi, lo. destruct (is_signed t); lia. Qed.
Lemma conv_small t z : 0 < bits t -> value t z -> conv t z = z.
Proof. intros H (H1 & H2). pose proof (hi_lo t H). unfold conv. rewrite Z.mod_small by lia. lia. Qed.
Lemma conv_value t z : 0 < bits t -> value t (conv t z).
Proof.
  intros H. pose proof (hi_lo t H). pose proof (Z.mod_pos_bound (z - lo t) (2 ^ bits t) (pow_pos' (bits t) ltac:(lia))). unfold value, conv. lia.
Qed.
Lemma conv_eqm t z : 0 < bits t -> exists k, conv t z = z + k * 2 ^ bits t.
Proof.
  intros H. exists (- ((z - lo t) / 2 ^ bits t)). unfold conv. pose proof (Z.div_mod (z - lo t) (2 ^ bits t) ltac:(pose proof (pow_pos' (bits t)); lia)). lia.
Qed.
Lemma conv_unique t z v k : 0 < bits t -> value t v -> v = z + k * 2 ^ bits t -> conv t z = v.
Proof.
  intros H Hv ->. unfold conv. destruct Hv as (H1 & H2). pose proof (hi_lo t H).
  assert (E : (z - lo t) mod 2 ^ bits t = (z + k * 2 ^ bits t - lo t) mod 2 ^ bits t).
  { replace (z + k * 2 ^ bits t - lo t) with (z - lo t + k * 2 ^ bits t) by lia. rewrite Z.mod_add; [reflexivity|]. pose proof (pow_pos' (bits t)); lia. }
  rewrite E, Z.mod_small by lia. lia.
Qed.

Section Laws.
Variable iw : Z.
Variable t : ity.
Hypothesis G : good_type iw t.

Lemma bits_pos : 0 < bits t.
Proof. exact (proj1 G). Qed.
(** Values of the type, and one step beyond for narrow types, are values of the promoted type. *)
Lemma promoted_bits : 0 < bits (promoted iw t).
Proof. destruct G. unfold promoted. destruct (bits t <? iw); cbn [bits]; lia. Qed.
Lemma promoted_value i : value t i -> value (promoted iw t) i.
Proof.
  destruct G as (G1 & G2). intros (H1 & H2). unfold promoted. destruct (Z.ltb_spec (bits t) iw) as [Hb|Hb]; [|split; assumption].
  unfold value, lo, hi in *. cbn [bits is_signed].
  assert (2 ^ bits t <= 2 ^ (iw - 1)) by (apply Z.pow_le_mono_r; lia).
  assert (2 ^ (bits t - 1) <= 2 ^ bits t) by (apply Z.pow_le_mono_r; lia). pose proof (pow_pos' (bits t) ltac:(lia)).
  destruct (is_signed t); lia.
Qed.
Lemma arith_small z : value t z -> arith (promoted iw t) z = Some z.
Proof.
  intros H. apply promoted_value in H as (H1 & H2). unfold arith. destruct (is_signed (promoted iw t)) eqn:E.
  - destruct (Z.leb_spec (lo (promoted iw t)) z); [|lia]. destruct (Z.leb_spec z (hi (promoted iw t))); [|lia]. reflexivity.
  - rewrite conv_small; [reflexivity|apply promoted_bits|split; assumption].
Qed.
Lemma inc_ok i : value t (i + 1) -> inc iw t i = Some (i + 1).
Proof. intros H. unfold inc. rewrite arith_small by exact H. rewrite conv_small; [reflexivity|exact bits_pos|exact H]. Qed.
Lemma dec_ok i : value t (i - 1) -> dec iw t i = Some (i - 1).
Proof. intros H. unfold dec. rewrite arith_small by exact H. rewrite conv_small; [reflexivity|exact bits_pos|exact H]. Qed.
Theorem incs_ok n : forall i, value t i -> value t (i + Z.of_nat n) -> incs iw t n i = Some (i + Z.of_nat n).
Proof.
  induction n as [|n IH]; intros i H1 H2; cbn [incs]; [f_equal; lia|]. unfold value in *. rewrite inc_ok by (unfold value; lia).
  rewrite IH by lia. f_equal. lia.
Qed.
Theorem decs_ok n : forall i, value t i -> value t (i - Z.of_nat n) -> decs iw t n i = Some (i - Z.of_nat n).
Proof.
  induction n as [|n IH]; intros i H1 H2; cbn [decs]; [f_equal; lia|]. unfold value in *. rewrite dec_ok by (unfold value; lia).
  rewrite IH by lia. f_equal. lia.
Qed.
(** Adding an offset that stays in range (given as a difference, which for an unsigned type is
    converted to an unsigned one). *)
Lemma arith_conv_plus i d : value t (i + d) -> value (promoted iw t) d \/ is_signed (promoted iw t) = false ->
  match arith (promoted iw t) (i + conv (promoted iw t) d) with Some r => Some (conv t r) | None => None end = Some (i + d).
Proof.
  intros H Hd. destruct (is_signed (promoted iw t)) eqn:E.
  - destruct Hd as [Hd|Hd]; [|discriminate]. rewrite conv_small; [|apply promoted_bits|exact Hd]. rewrite arith_small by exact H.
    rewrite conv_small; [reflexivity|exact bits_pos|exact H].
  - unfold arith. rewrite E. assert (Hp : promoted iw t = t).
    { unfold promoted in *. destruct (bits t <? iw); [discriminate|reflexivity]. }
    rewrite Hp. destruct (conv_eqm t d bits_pos) as (k & Ek). rewrite Ek.
    rewrite (conv_unique t (i + (d + k * 2 ^ bits t)) (i + d) (-k)); [|exact bits_pos|exact H|lia]. rewrite conv_small; [reflexivity|exact bits_pos|exact H].
Qed.
Theorem plus_ok i d : value t (i + d) -> value (difference_type iw t) d \/ is_signed (difference_type iw t) = false -> plus iw t i d = Some (i + d).
Proof. exact (arith_conv_plus i d). Qed.
Theorem minus_ok i d : value t (i - d) -> value (difference_type iw t) d \/ is_signed (difference_type iw t) = false -> minus iw t i d = Some (i - d).
Proof.
  intros H Hd. unfold minus, difference_type in *. destruct (is_signed (promoted iw t)) eqn:E.
  - destruct Hd as [Hd|Hd]; [|discriminate]. rewrite conv_small; [|apply promoted_bits|exact Hd]. rewrite arith_small by exact H.
    rewrite conv_small; [reflexivity|exact bits_pos|exact H].
  - unfold arith. rewrite E. assert (Hp : promoted iw t = t).
    { unfold promoted in *. destruct (bits t <? iw); [discriminate|reflexivity]. }
    rewrite Hp. destruct (conv_eqm t d bits_pos) as (k & Ek). rewrite Ek.
    rewrite (conv_unique t (i - (d + k * 2 ^ bits t)) (i - d) k); [|exact bits_pos|exact H|lia]. rewrite conv_small; [reflexivity|exact bits_pos|exact H].
Qed.
(** The difference is exact whenever it is representable. *)
Theorem diff_ok x y : value (difference_type iw t) (x - y) -> diff iw t x y = Some (x - y).
Proof.
  intros (H1 & H2). unfold diff, arith, difference_type in *. destruct (is_signed (promoted iw t)).
  - destruct (Z.leb_spec (lo (promoted iw t)) (x - y)); [|lia]. destruct (Z.leb_spec (x - y) (hi (promoted iw t))); [|lia]. reflexivity.
  - rewrite conv_small; [reflexivity|apply promoted_bits|split; assumption].
Qed.
(** Going back by a difference: y + (x - y) = x whenever the difference is defined. *)
Theorem plus_diff x y d : value t x -> value t y -> diff iw t x y = Some d -> plus iw t y d = Some x.
Proof.
  intros Hx Hy Hd. unfold diff, arith in Hd. unfold plus. destruct (is_signed (promoted iw t)) eqn:E.
  - destruct ((lo (promoted iw t) <=? x - y) && (x - y <=? hi (promoted iw t))) eqn:E1; [|discriminate].
    assert (d = x - y) by congruence. subst d. rewrite arith_conv_plus.
    + f_equal. lia.
    + replace (y + (x - y)) with x by lia. exact Hx.
    + left. unfold value. lia.
  - assert (Hp : promoted iw t = t). { unfold promoted in *. destruct (bits t <? iw); [discriminate|reflexivity]. }
    assert (d = conv (promoted iw t) (x - y)) by congruence. subst d. rewrite Hp in *. unfold difference_type. rewrite Hp.
    rewrite (conv_small t (conv t (x - y)) bits_pos (conv_value t (x - y) bits_pos)). unfold arith. rewrite E.
    destruct (conv_eqm t (x - y) bits_pos) as (k & Ek). rewrite Ek.
    rewrite (conv_unique t (y + (x - y + k * 2 ^ bits t)) x (-k)); [|exact bits_pos|exact Hx|lia]. rewrite conv_small; [reflexivity|exact bits_pos|exact Hx].
Qed.
(** A loop from a to b visits a, a+1, ..., b-1. *)
Theorem visit_ok n : forall k a, (n <= k)%nat -> value t a -> value t (a + Z.of_nat n) -> visit iw t k a (a + Z.of_nat n) = Some (upto a n).
Proof.
  induction n as [|n IH]; intros k a Hk H1 H2.
  - replace (a + Z.of_nat 0) with a by lia. destruct k; cbn [visit]; unfold eq_it; rewrite Z.eqb_refl; reflexivity.
  - destruct k as [|k]; [lia|]. cbn [visit]. unfold eq_it. destruct (Z.eqb_spec a (a + Z.of_nat (S n))); [lia|].
    unfold value in *. rewrite inc_ok by (unfold value; lia). replace (a + Z.of_nat (S n)) with (a + 1 + Z.of_nat n) by lia. rewrite IH by lia.
    f_equal. unfold upto. cbn [seq map]. f_equal; [lia|]. rewrite <- seq_shift, map_map. apply map_ext. intros j. lia.
Qed.
Theorem less_incs x n : value t x -> value t (x + Z.of_nat n) -> (less x (x + Z.of_nat n) = true <-> (0 < n)%nat).
Proof. intros _ _. unfold less. rewrite Z.ltb_lt. lia. Qed.
(** For an unsigned type as wide as int or wider no difference is negative. *)
Theorem diff_unsigned x y d : is_signed t = false -> iw <= bits t -> value t x -> value t y -> x < y -> diff iw t x y = Some d -> 0 < d.
Proof.
  intros Hs Hb Hx Hy Hl Hd. assert (Hp : promoted iw t = t). { unfold promoted. destruct (Z.ltb_spec (bits t) iw); [lia|reflexivity]. }
  unfold diff, arith in Hd. rewrite Hp, Hs in Hd. assert (d = conv t (x - y)) by congruence. subst d.
  rewrite (conv_unique t (x - y) (x - y + 2 ^ bits t) 1); [|exact bits_pos| |lia].
  - pose proof (hi_lo t bits_pos). unfold value in *. unfold lo, hi in *. rewrite Hs in *. lia.
  - pose proof (hi_lo t bits_pos). unfold value in *. unfold lo, hi in *. rewrite Hs in *. lia.
Qed.
End Laws.
