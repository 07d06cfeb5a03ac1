From Verif Require Import Base Ints IntsLemmas RolloverModel RolloverSpec.
Open Scope Z_scope.

Lemma small_bound w iw : 0 < w -> w + 2 <= iw -> 2 * 2 ^ w <= 2 ^ (iw - 1).
Proof.
  intros. replace (2 * 2 ^ w) with (2 ^ (w + 1)) by (rewrite Z.pow_add_r by lia; lia).
  apply pow2_le; lia.
Qed.

Lemma promoted_lin w iw x : widths_ok w iw -> - 2 ^ w < x < 2 * 2 ^ w ->
  promoted w iw x = Some (x mod 2 ^ w).
Proof.
  intros (Hw & [H|H]) Hx; [apply promoted_wide; exact H|].
  pose proof (small_bound w iw Hw H). apply promoted_ok; lia.
Qed.


Lemma promoted_mul w iw a b : widths_ok w iw -> mul_ok w iw -> rv w a -> rv w b ->
  promoted w iw (a * b) = Some ((a * b) mod 2 ^ w).
Proof.
  intros (Hw & _) [H|H] Ha Hb; [apply promoted_wide; exact H|].
  unfold rv in *. apply promoted_ok; [lia|].
  assert (2 ^ w * 2 ^ w <= 2 ^ (iw - 1)).
  { rewrite <- Z.pow_add_r by lia. apply pow2_le; lia. }
  assert (a * b <= (2 ^ w - 1) * (2 ^ w - 1)) by (apply Z.mul_le_mono_nonneg; lia).
  pose proof (Z.mul_nonneg_nonneg a b). nia.
Qed.

Lemma rollover_ops w iw a b u : widths_ok w iw -> rv w a -> rv w b ->
  r_make w u = u mod 2 ^ w /\
  r_neg w iw a = Some ((- a) mod 2 ^ w) /\
  r_preinc w iw a = Some ((a + 1) mod 2 ^ w, (a + 1) mod 2 ^ w) /\
  r_postinc w iw a = Some ((a + 1) mod 2 ^ w, a) /\
  r_predec w iw a = Some ((a - 1) mod 2 ^ w, (a - 1) mod 2 ^ w) /\
  r_postdec w iw a = Some ((a - 1) mod 2 ^ w, a) /\
  r_add w iw a b = Some ((a + b) mod 2 ^ w) /\
  r_sub w iw a b = Some ((a - b) mod 2 ^ w) /\
  (mul_ok w iw -> r_mul w iw a b = Some ((a * b) mod 2 ^ w)) /\
  (b <> 0 -> r_div w iw a b = Some (a / b) /\ r_mod w iw a b = Some (a mod b)).
Proof.
  intros HW Ha Hb. pose proof HW as (Hw & _).
  pose proof (pow2_pos w ltac:(lia)) as Hp. unfold rv in *.
  assert (HL : forall x, - 2 ^ w < x < 2 * 2 ^ w -> promoted w iw x = Some (x mod 2 ^ w))
    by (intros; apply promoted_lin; assumption).
  unfold r_neg, r_preinc, r_postinc, r_predec, r_postdec, r_add, r_sub.
  assert (2 <= 2 ^ w) by (rewrite (pow2_split w Hw); pose proof (pow2_pos (w - 1) ltac:(lia)); lia).
  repeat (rewrite HL by lia).
  split; [reflexivity|]. do 7 (split; [reflexivity|]). split.
  - intros Hm. apply promoted_mul; assumption.
  - intros Hb0. unfold r_div, r_mod. destruct (Z.eqb_spec b 0); [lia|].
    assert (0 <= a / b < 2 ^ w).
    { split; [apply Z.div_pos; lia|]. apply Z.div_lt_upper_bound; [lia|]. nia. }
    pose proof (Z.mod_pos_bound a b ltac:(lia)).
    rewrite !HL by lia. rewrite !Z.mod_small by lia. split; reflexivity.
Qed.

Lemma r_make_rv w u : 0 < w -> rv w (r_make w u).
Proof. intros. unfold rv, r_make. rewrite cast_U. apply Z.mod_pos_bound. apply pow2_pos. lia. Qed.

Lemma r_eq_congruence w u v : 0 < w ->
  (r_eq (r_make w u) (r_make w v) = true <-> exists k, u - v = k * 2 ^ w).
Proof.
  intros Hw. pose proof (pow2_pos w ltac:(lia)) as Hp. unfold r_eq, r_make. rewrite !cast_U, Z.eqb_eq.
  split.
  - intros E. exists (u / 2 ^ w - v / 2 ^ w).
    pose proof (Z.div_mod u (2 ^ w) ltac:(lia)). pose proof (Z.div_mod v (2 ^ w) ltac:(lia)). nia.
  - intros (k & E). replace u with (v + k * 2 ^ w) by lia. apply Z.mod_add. lia.
Qed.

Lemma mod_congr_opp m a b : 0 < m -> a = b mod m -> (- a) mod m = (- b) mod m.
Proof.
  intros Hm ->. rewrite <- (Z.sub_0_l (b mod m)), <- (Z.sub_0_l b).
  rewrite Zminus_mod_idemp_r. reflexivity.
Qed.

Lemma r_eval_ok w iw env e :
  widths_ok w iw -> (forall n, rv w (env n)) -> (mul_ok w iw \/ mul_free e = true) ->
  r_eval w iw env e = Some (z_eval env e mod 2 ^ w).
Proof.
  intros HW Henv. pose proof HW as (Hw & _). pose proof (pow2_pos w ltac:(lia)) as Hp.
  assert (HB : forall x, rv w (x mod 2 ^ w)) by (intros; apply Z.mod_pos_bound; exact Hp).
  induction e as [n|u|e IH|a IHa b IHb|a IHa b IHb|a IHa b IHb]; intros Hm; cbn [r_eval z_eval].
  - rewrite Z.mod_small by apply Henv. reflexivity.
  - reflexivity.
  - rewrite IH by (cbn in Hm; exact Hm). cbn [bind].
    destruct (rollover_ops w iw _ 0 0 HW (HB (z_eval env e)) ltac:(unfold rv; lia)) as (_ & E & _).
    rewrite E. f_equal. apply mod_congr_opp; [exact Hp|reflexivity].
  - rewrite IHa, IHb by (cbn in Hm; destruct Hm as [Hm|Hm]; [left; exact Hm|right; apply andb_true_iff in Hm; tauto]).
    cbn [bind]. destruct (rollover_ops w iw _ _ 0 HW (HB (z_eval env a)) (HB (z_eval env b)))
      as (_ & _ & _ & _ & _ & _ & E & _). rewrite E. f_equal. symmetry. apply Zplus_mod.
  - rewrite IHa, IHb by (cbn in Hm; destruct Hm as [Hm|Hm]; [left; exact Hm|right; apply andb_true_iff in Hm; tauto]).
    cbn [bind]. destruct (rollover_ops w iw _ _ 0 HW (HB (z_eval env a)) (HB (z_eval env b)))
      as (_ & _ & _ & _ & _ & _ & _ & E & _). rewrite E. f_equal. symmetry. apply Zminus_mod.
  - destruct Hm as [Hm|Hm]; [|discriminate].
    rewrite IHa, IHb by (left; exact Hm). cbn [bind].
    unfold r_mul. rewrite promoted_mul by (auto; apply HB). f_equal. symmetry. apply Zmult_mod.
Qed.

Lemma r_mul_ub w iw a b : 0 < w -> w < iw -> rv w a -> rv w b ->
  (r_mul w iw a b = None <-> 2 ^ (iw - 1) - 1 < a * b).
Proof.
  intros Hw Hiw Ha Hb. unfold rv in *. unfold r_mul, promoted. destruct (Z.ltb_spec w iw); [|lia].
  pose proof (Z.mul_nonneg_nonneg a b ltac:(lia) ltac:(lia)).
  pose proof (pow2_pos (iw - 1) ltac:(lia)).
  destruct (in_rangeb (Sint iw) (a * b)) eqn:E.
  - apply in_rangeb_spec in E. unfold in_range, tmin, tmax in E. cbn in E.
    split; [discriminate|]. intros. lia.
  - split; [|reflexivity]. intros _. destruct (Z_lt_le_dec (2 ^ (iw - 1) - 1) (a * b)); [assumption|].
    exfalso. assert (in_rangeb (Sint iw) (a * b) = true); [|congruence].
    apply in_rangeb_spec. unfold in_range, tmin, tmax. cbn. lia.
Qed.

Lemma cmp_raw w iw a b : widths_ok w iw -> rv w a -> rv w b ->
  r_cmp_less w iw a b = Some (2 ^ (w - 1) <=? (a - b) mod 2 ^ w).
Proof.
  intros HW Ha Hb. unfold r_cmp_less. rewrite promoted_lin by (try assumption; unfold rv in *; lia).
  cbn [option_map]. f_equal. destruct HW as (Hw & _). rewrite (pow2_split w Hw) at 1.
  pose proof (pow2_pos (w - 1) ltac:(lia)).
  replace ((2 * 2 ^ (w - 1) - 1) / 2) with (2 ^ (w - 1) - 1)
    by (apply (Zdiv_unique _ _ _ 1); lia).
  lia.
Qed.

Lemma cmp_steps w iw a b : widths_ok w iw -> rv w a -> rv w b ->
  exists r, r_cmp_less w iw a b = Some r /\
  (r = true <-> exists k, 1 <= k <= 2 ^ (w - 1) /\ a = (b - k) mod 2 ^ w).
Proof.
  intros HW Ha Hb. rewrite cmp_raw by assumption. eexists. split; [reflexivity|].
  pose proof HW as (Hw & _). pose proof (pow2_split w Hw) as Hs.
  pose proof (pow2_pos (w - 1) ltac:(lia)). unfold rv in *. rewrite Z.leb_le. split.
  - intros H1. exists (2 ^ w - (a - b) mod 2 ^ w).
    pose proof (Z.mod_pos_bound (a - b) (2 ^ w) ltac:(lia)). split; [lia|].
    replace (b - (2 ^ w - (a - b) mod 2 ^ w)) with (b + (a - b) mod 2 ^ w + (-1) * 2 ^ w) by lia.
    rewrite Z.mod_add by lia. rewrite Zplus_mod_idemp_r.
    replace (b + (a - b)) with a by lia. symmetry. apply Z.mod_small. lia.
  - intros (k & Hk & E). rewrite E. rewrite Zminus_mod_idemp_l.
    replace (b - k - b) with (2 ^ w - k + (-1) * 2 ^ w) by lia. rewrite Z.mod_add by lia.
    rewrite Z.mod_small by lia. lia.
Qed.

Lemma cmp_window w iw c x y : widths_ok w iw ->
  0 <= x < 2 ^ (w - 1) -> 0 <= y < 2 ^ (w - 1) ->
  r_cmp_less w iw (r_make w (c + x)) (r_make w (c + y)) = Some (x <? y).
Proof.
  intros HW Hx Hy. pose proof HW as (Hw & _). pose proof (pow2_split w Hw) as Hs.
  rewrite cmp_raw by (try assumption; apply r_make_rv; lia). f_equal.
  unfold r_make. rewrite !cast_U, <- Zminus_mod.
  replace (c + x - (c + y)) with (x - y) by lia.
  destruct (Z.ltb_spec x y).
  - replace (x - y) with (2 ^ w - (y - x) + (-1) * 2 ^ w) by lia. rewrite Z.mod_add by lia.
    rewrite Z.mod_small by lia. lia.
  - rewrite Z.mod_small by lia. lia.
Qed.

Lemma cmp_shift w iw a b c : widths_ok w iw -> rv w a -> rv w b ->
  r_cmp_less w iw (r_make w (a + c)) (r_make w (b + c)) = r_cmp_less w iw a b.
Proof.
  intros HW Ha Hb. pose proof HW as (Hw & _).
  rewrite !cmp_raw by (try assumption; apply r_make_rv; lia). f_equal. f_equal.
  unfold r_make. rewrite !cast_U, <- Zminus_mod. f_equal. lia.
Qed.

Lemma cmp_both w iw a b : widths_ok w iw -> rv w a -> rv w b -> 
  exists r1 r2, r_cmp_less w iw a b = Some r1 /\ r_cmp_less w iw b a = Some r2 /\
    (r1 = false /\ r2 = false <-> a = b) /\
    (r1 = true /\ r2 = true <-> (a - b) mod 2 ^ w = 2 ^ (w - 1)).
Proof.
  intros HW Ha Hb. rewrite !cmp_raw by assumption. do 2 eexists. split; [reflexivity|].
  split; [reflexivity|].
  pose proof HW as (Hw & _). pose proof (pow2_split w Hw) as Hs.
  pose proof (pow2_pos (w - 1) ltac:(lia)). unfold rv in *.
  assert (E1 : (a - b) mod 2 ^ w = if a <? b then a - b + 2 ^ w else a - b).
  { destruct (Z.ltb_spec a b); [|apply Z.mod_small; lia].
    replace (a - b) with (a - b + 2 ^ w + (-1) * 2 ^ w) at 1 by lia. rewrite Z.mod_add by lia.
    apply Z.mod_small. lia. }
  assert (E2 : (b - a) mod 2 ^ w = if b <? a then b - a + 2 ^ w else b - a).
  { destruct (Z.ltb_spec b a); [|apply Z.mod_small; lia].
    replace (b - a) with (b - a + 2 ^ w + (-1) * 2 ^ w) at 1 by lia. rewrite Z.mod_add by lia.
    apply Z.mod_small. lia. }
  rewrite E1, E2.
  destruct (Z.ltb_spec a b); destruct (Z.ltb_spec b a); split; lia.
Qed.
