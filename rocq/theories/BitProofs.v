From Verif Require Import Base BaseLemmas BitLemmas BitModel BitSpec.
Open Scope N_scope.


Lemma wrap_id d w x : x < 2 ^ w -> w <= d -> wrap d x = x.
Proof. intros H Hd. unfold wrap. apply N.mod_small. eapply N.lt_le_trans; [exact H|apply npow2_le; exact Hd]. Qed.

Lemma log2_lt_w x w : 0 < x -> x < 2 ^ w -> N.log2 x < w.
Proof. intros H0 H. apply N.log2_lt_pow2; assumption. Qed.

(** ** counting *)
Lemma builtin_clz_ok d w x : x < 2 ^ w -> w <= d -> x <> 0 -> builtin_clz d x = Some (d - 1 - N.log2 x).
Proof.
  intros H Hd Hx. unfold builtin_clz. rewrite (wrap_id d w x H Hd). destruct x; [congruence|reflexivity].
Qed.

Lemma countl_zero_value pl w x : good_platform pl -> w <= llong_w pl -> x < 2 ^ w ->
  countl_zero pl w x = Some (if x =? 0 then w else w - 1 - N.log2 x).
Proof.
  intros (Hi & Hl & Hll) Hw Hx. unfold countl_zero. destruct (N.eqb_spec x 0) as [->|Hx0]; [reflexivity|].
  assert (HL : N.log2 x < w) by (apply log2_lt_w; [lia|exact Hx]).
  destruct (N.eqb_spec w (int_w pl)) as [E|_].
  { rewrite E in *. apply (builtin_clz_ok _ (int_w pl)); auto; lia. }
  destruct (N.eqb_spec w (long_w pl)) as [E|_].
  { rewrite E in *. apply (builtin_clz_ok _ (long_w pl)); auto; lia. }
  destruct (N.eqb_spec w (llong_w pl)) as [E|_].
  { rewrite E in *. apply (builtin_clz_ok _ (llong_w pl)); auto; lia. }
  rewrite (builtin_clz_ok _ w) by assumption. f_equal. lia.
Qed.

Lemma bit_log2 x : x <> 0 -> N.testbit x (N.log2 x) = true.
Proof. intros H. apply N.bit_log2. exact H. Qed.

Lemma countl_zero_ok pl w x : good_platform pl -> w <= llong_w pl -> x < 2 ^ w ->
  exists k, countl_zero pl w x = Some k /\ leading w false x k.
Proof.
  intros Hp Hw Hx. rewrite countl_zero_value by assumption. eexists. split; [reflexivity|].
  destruct (N.eqb_spec x 0) as [->|Hx0].
  - split; [lia|]. split; [intros; apply N.bits_0|lia].
  - assert (HL : N.log2 x < w) by (apply log2_lt_w; [lia|exact Hx]).
    split; [lia|]. split.
    + intros i Hi _. apply N.bits_above_log2. lia.
    + intros _. replace (w - (w - 1 - N.log2 x) - 1) with (N.log2 x) by lia. apply bit_log2. exact Hx0.
Qed.

Lemma ctz_pos_low p i : i < ctz_pos p -> N.testbit (Npos p) i = false.
Proof.
  revert i. induction p as [p IH|p IH|]; cbn [ctz_pos]; intros i Hi; try lia.
  change (N.pos p~0) with (2 * N.pos p). destruct i as [|i] using N.peano_ind; [apply N.testbit_even_0|].
  rewrite N.testbit_even_succ by lia. apply IH. lia.
Qed.
Lemma ctz_pos_at p : N.testbit (Npos p) (ctz_pos p) = true.
Proof.
  induction p as [p IH|p IH|]; cbn [ctz_pos]; try reflexivity.
  change (N.pos p~0) with (2 * N.pos p). rewrite N.testbit_even_succ by lia. exact IH.
Qed.

Lemma trailing_unique w b x k1 k2 : trailing w b x k1 -> trailing w b x k2 -> k1 = k2.
Proof.
  intros (A1 & B1 & C1) (A2 & B2 & C2). destruct (N.lt_trichotomy k1 k2) as [H|[H|H]]; [|exact H|].
  - rewrite B2 in C1 by exact H. destruct b; discriminate C1; lia.
  - rewrite B1 in C2 by exact H. destruct b; discriminate C2; lia.
Qed.

Lemma builtin_ctz_ok d w x : x < 2 ^ w -> w <= d -> x <> 0 ->
  exists k, builtin_ctz d x = Some k /\ trailing w false x k.
Proof.
  intros H Hd Hx. unfold builtin_ctz. rewrite (wrap_id d w x H Hd). destruct x as [|p]; [congruence|].
  eexists. split; [reflexivity|]. split; [|split].
  - destruct (N.le_gt_cases (ctz_pos p) w) as [Hc|Hc]; [exact Hc|].
    pose proof (ctz_pos_at p) as E. rewrite (testbit_high _ w) in E by (assumption || lia). discriminate.
  - intros i Hi. apply ctz_pos_low. exact Hi.
  - intros _. apply ctz_pos_at.
Qed.

Lemma countr_zero_ok pl w x : good_platform pl -> w <= llong_w pl -> x < 2 ^ w ->
  exists k, countr_zero pl w x = Some k /\ trailing w false x k.
Proof.
  intros (Hi & Hl & Hll) Hw Hx. unfold countr_zero. destruct (N.eqb_spec x 0) as [->|Hx0].
  - exists w. split; [reflexivity|]. split; [lia|]. split; [intros; apply N.bits_0|lia].
  - destruct (N.eqb_spec w (int_w pl)) as [E|_].
    { rewrite E in *. apply builtin_ctz_ok; auto; lia. }
    destruct (N.eqb_spec w (long_w pl)) as [E|_].
    { rewrite E in *. apply builtin_ctz_ok; auto; lia. }
    apply builtin_ctz_ok; auto; lia.
Qed.

Lemma tnot_bit w x i : i < w -> N.testbit (tnot w x) i = negb (N.testbit x i).
Proof. intros H. unfold tnot. rewrite testbit_lnot. destruct (N.ltb_spec i w); [|lia]. destruct (N.testbit x i); reflexivity. Qed.

Lemma countl_one_ok pl w x : good_platform pl -> w <= llong_w pl -> x < 2 ^ w ->
  exists k, countl_one pl w x = Some k /\ leading w true x k.
Proof.
  intros Hp Hw Hx. destruct (countl_zero_ok pl w (tnot w x) Hp Hw (lnot_lt _ _ Hx)) as (k & E & A & B & C).
  exists k. split; [exact E|]. split; [exact A|]. split.
  - intros i H1 H2. specialize (B i H1 H2). rewrite tnot_bit in B by exact H2.
    destruct (N.testbit x i); [reflexivity|discriminate].
  - intros Hk. specialize (C Hk). rewrite tnot_bit in C by lia.
    destruct (N.testbit x (w - k - 1)); [discriminate|reflexivity].
Qed.
Lemma countr_one_ok pl w x : good_platform pl -> w <= llong_w pl -> x < 2 ^ w ->
  exists k, countr_one pl w x = Some k /\ trailing w true x k.
Proof.
  intros Hp Hw Hx. destruct (countr_zero_ok pl w (tnot w x) Hp Hw (lnot_lt _ _ Hx)) as (k & E & A & B & C).
  exists k. split; [exact E|]. split; [exact A|]. split.
  - intros i H1. specialize (B i H1). rewrite tnot_bit in B by lia.
    destruct (N.testbit x i); [reflexivity|discriminate].
  - intros Hk. specialize (C Hk). rewrite tnot_bit in C by lia.
    destruct (N.testbit x k); [discriminate|reflexivity].
Qed.

Lemma ones_below_succ w x : ones_below (N.succ w) x = (if N.testbit x 0 then 1 else 0) + ones_below w (N.div2 x).
Proof.
  unfold ones_below. rewrite N2Nat.inj_succ. cbn [seq filter].
  replace (filter (fun i => N.testbit x (N.of_nat i)) (seq 1 (N.to_nat w)))
    with (map S (filter (fun i => N.testbit (N.div2 x) (N.of_nat i)) (seq 0 (N.to_nat w)))).
  - change (N.of_nat 0) with 0. destruct (N.testbit x 0); rewrite ?len_cons; unfold len; rewrite map_length; lia.
  - rewrite <- seq_shift. induction (seq 0 (N.to_nat w)) as [|a l IH]; [reflexivity|].
    cbn [map filter]. rewrite <- IH. rewrite N.div2_spec, N.shiftr_spec'.
    replace (N.of_nat a + 1) with (N.of_nat (S a)) by lia. destruct (N.testbit x (N.of_nat (S a))); reflexivity.
Qed.
Lemma ones_below_0 w : ones_below w 0 = 0.
Proof.
  unfold ones_below. induction (seq 0 (N.to_nat w)) as [|a l IH]; [reflexivity|].
  cbn [filter]. rewrite N.bits_0. exact IH.
Qed.
Lemma pop_pos_ok w : forall p, Npos p < 2 ^ w -> pop_pos p = ones_below w (Npos p).
Proof.
  induction w as [|w IH] using N.peano_ind; intros p H.
  - change (2 ^ 0) with 1 in H. lia.
  - rewrite ones_below_succ. rewrite N.pow_succ_r' in H. destruct p as [p|p|]; cbn [pop_pos N.testbit Pos.testbit N.div2].
    + rewrite <- IH by lia. lia.
    + rewrite <- IH by lia. lia.
    + rewrite ones_below_0. reflexivity.
Qed.
Lemma builtin_popcount_ok d w x : x < 2 ^ w -> w <= d -> builtin_popcount d x = ones_below w x.
Proof.
  intros H Hd. unfold builtin_popcount. rewrite (wrap_id d w x H Hd). destruct x as [|p].
  - symmetry. apply ones_below_0.
  - apply pop_pos_ok. exact H.
Qed.
Lemma popcount_ok pl w x : good_platform pl -> w <= llong_w pl -> x < 2 ^ w ->
  popcount pl w x = ones_below w x.
Proof.
  intros (Hi & Hl & Hll) Hw Hx. unfold popcount.
  destruct (N.leb_spec w (int_w pl)); [apply builtin_popcount_ok; assumption|].
  destruct (N.leb_spec w (long_w pl)); apply builtin_popcount_ok; assumption.
Qed.

(** ** rotation *)
Lemma rotl_impl_ok pl w x s : 0 < s -> s < w -> x < 2 ^ w ->
  exists y, rotl_impl pl w x s = Some y /\ y < 2 ^ w /\
  forall i, i < w -> N.testbit y i = N.testbit x (if s <=? i then i - s else w + i - s).
Proof.
  intros Hs Hsw Hx. unfold rotl_impl, shl, shr, digits_minus, promoted_w.
  destruct (N.ltb_spec s (N.max w (int_w pl))); [|lia].
  destruct (N.leb_spec s w); [|lia].
  destruct (N.ltb_spec (w - s) (N.max w (int_w pl))); [|lia].
  eexists. split; [reflexivity|]. split; [apply mod_pow2_lt|]. intros i Hi.
  unfold wrap. rewrite testbit_mod, N.lor_spec, testbit_mod, testbit_shl, testbit_shr.
  destruct (N.ltb_spec i w); [|lia]. destruct (N.ltb_spec i (N.max w (int_w pl))); [|lia]. cbn [andb].
  destruct (N.leb_spec s i); cbn [andb orb].
  - rewrite (testbit_high x w (i + (w - s))) by (assumption || lia). apply orb_false_r.
  - f_equal. lia.
Qed.
Lemma rotr_impl_ok pl w x s : 0 < s -> s < w -> x < 2 ^ w ->
  exists y, rotr_impl pl w x s = Some y /\ y < 2 ^ w /\
  forall i, i < w -> N.testbit y i = N.testbit x (if i + s <? w then i + s else i + s - w).
Proof.
  intros Hs Hsw Hx. unfold rotr_impl, shl, shr, digits_minus, promoted_w.
  destruct (N.ltb_spec s (N.max w (int_w pl))); [|lia].
  destruct (N.leb_spec s w); [|lia].
  destruct (N.ltb_spec (w - s) (N.max w (int_w pl))); [|lia].
  eexists. split; [reflexivity|]. split; [apply mod_pow2_lt|]. intros i Hi.
  unfold wrap. rewrite testbit_mod, N.lor_spec, testbit_mod, testbit_shl, testbit_shr.
  destruct (N.ltb_spec i w); [|lia]. destruct (N.ltb_spec i (N.max w (int_w pl))); [|lia]. cbn [andb].
  destruct (N.ltb_spec (i + s) w).
  - destruct (N.leb_spec (w - s) i); [lia|]. apply orb_false_r.
  - rewrite (testbit_high x w (i + s)) by (assumption || lia).
    destruct (N.leb_spec (w - s) i); [|lia]. cbn [andb orb]. f_equal. lia.
Qed.

Lemma to_unsigned_small w s : (0 <= s < Z.of_N (2 ^ w))%Z -> to_unsigned w s = Z.to_N s.
Proof.
  intros H. unfold to_unsigned. f_equal. apply Z.mod_small. rewrite N2Z.inj_pow in H. exact H.
Qed.
Lemma w_lt_pow2 w : w < 2 ^ w.
Proof. apply N.pow_gt_lin_r. reflexivity. Qed.

Lemma rot_left_index w i s : (0 < s)%Z -> (s < Z.of_N w)%Z -> i < w ->
  Z.to_N ((Z.of_N i - s) mod Z.of_N w) = if Z.to_N s <=? i then i - Z.to_N s else w + i - Z.to_N s.
Proof.
  intros H1 H2 Hi. destruct (N.leb_spec (Z.to_N s) i).
  - rewrite Z.mod_small by lia. lia.
  - rewrite <- (Z.mod_add _ 1) by lia. rewrite Z.mod_small by lia. lia.
Qed.
Lemma rot_right_index w i s : (0 < s)%Z -> (s < Z.of_N w)%Z -> i < w ->
  Z.to_N ((Z.of_N i + s) mod Z.of_N w) = if i + Z.to_N s <? w then i + Z.to_N s else i + Z.to_N s - w.
Proof.
  intros H1 H2 Hi. destruct (N.ltb_spec (i + Z.to_N s) w).
  - rewrite Z.mod_small by lia. lia.
  - rewrite <- (Z.mod_add _ (-1)) by lia. rewrite Z.mod_small by lia. lia.
Qed.

Lemma rotated_0 w x : x < 2 ^ w -> rotated_left w x 0 x.
Proof.
  intros H. split; [exact H|]. intros i Hi. rewrite Z.sub_0_r, Z.mod_small by lia. rewrite N2Z.id. reflexivity.
Qed.

Lemma rotl_ok pl w x s : (Z.abs s < Z.of_N w)%Z -> x < 2 ^ w ->
  (- 2 ^ (Z.of_N (int_w pl) - 1) < s)%Z ->
  exists y, rotl pl w x s = Some y /\ rotated_left w x s y.
Proof.
  intros Hs Hx Hmin. unfold rotl. pose proof (w_lt_pow2 w). destruct (Z.eqb_spec s 0) as [->|Hs0].
  - exists x. split; [reflexivity|]. apply rotated_0. exact Hx.
  - destruct (Z.ltb_spec s 0).
    + unfold neg_int. destruct (Z.eqb_spec s (- 2 ^ (Z.of_N (int_w pl) - 1))); [lia|].
      rewrite to_unsigned_small by lia.
      destruct (rotr_impl_ok pl w x (Z.to_N (- s))) as (y & E & Hy & B); try lia.
      exists y. split; [exact E|]. split; [exact Hy|]. intros i Hi. rewrite (B i Hi).
      rewrite <- rot_right_index by lia. do 3 f_equal; lia.
    + rewrite to_unsigned_small by lia.
      destruct (rotl_impl_ok pl w x (Z.to_N s)) as (y & E & Hy & B); try lia.
      exists y. split; [exact E|]. split; [exact Hy|]. intros i Hi. rewrite (B i Hi).
      rewrite <- rot_left_index by lia. reflexivity.
Qed.
Lemma rotr_ok pl w x s : (Z.abs s < Z.of_N w)%Z -> x < 2 ^ w ->
  (- 2 ^ (Z.of_N (int_w pl) - 1) < s)%Z ->
  exists y, rotr pl w x s = Some y /\ rotated_left w x (- s) y.
Proof.
  intros Hs Hx Hmin. unfold rotr. pose proof (w_lt_pow2 w). destruct (Z.eqb_spec s 0) as [->|Hs0].
  - exists x. split; [reflexivity|]. apply rotated_0. exact Hx.
  - destruct (Z.ltb_spec s 0).
    + unfold neg_int. destruct (Z.eqb_spec s (- 2 ^ (Z.of_N (int_w pl) - 1))); [lia|].
      rewrite to_unsigned_small by lia.
      destruct (rotl_impl_ok pl w x (Z.to_N (- s))) as (y & E & Hy & B); try lia.
      exists y. split; [exact E|]. split; [exact Hy|]. intros i Hi. rewrite (B i Hi).
      rewrite <- rot_left_index by lia. reflexivity.
    + rewrite to_unsigned_small by lia.
      destruct (rotr_impl_ok pl w x (Z.to_N s)) as (y & E & Hy & B); try lia.
      exists y. split; [exact E|]. split; [exact Hy|]. intros i Hi. rewrite (B i Hi).
      rewrite <- rot_right_index by lia. do 3 f_equal; lia.
Qed.

(** Rotating by the width or more is undefined for types at least as wide as int. *)
Lemma rotl_overlong pl w x s : int_w pl <= w -> (Z.of_N w <= s < Z.of_N (2 ^ w))%Z ->
  0 < w -> rotl pl w x s = None /\ rotr pl w x s = None.
Proof.
  intros Hi Hs Hw. unfold rotl, rotr. destruct (Z.eqb_spec s 0); [lia|]. destruct (Z.ltb_spec s 0); [lia|].
  rewrite to_unsigned_small by lia. unfold rotl_impl, rotr_impl, shl, shr, promoted_w.
  destruct (N.ltb_spec (Z.to_N s) (N.max w (int_w pl))); [lia|]. split; reflexivity.
Qed.

(** ** powers of two *)
Lemma has_single_bit_ok x : has_single_bit x = true <-> exists k, x = 2 ^ k.
Proof.
  unfold has_single_bit. rewrite andb_true_iff, negb_true_iff, N.eqb_neq, N.eqb_eq. split.
  - intros (Hx & Hl). exists (N.log2 x).
    pose proof (N.log2_spec x ltac:(lia)) as (H1 & H2). set (k := N.log2 x) in *.
    destruct (N.eq_dec x (2 ^ k)) as [E|E]; [exact E|exfalso].
    assert (Hb1 : N.testbit x k = true) by (apply bit_log2; exact Hx).
    assert (Hb2 : N.testbit (x - 1) k = true).
    { assert (N.log2 (x - 1) = k).
      { apply N.log2_unique; lia. }
      rewrite <- H. apply bit_log2. pose proof (npow2_pos k). lia. }
    assert (Hb : N.testbit (N.land x (x - 1)) k = true) by (rewrite N.land_spec, Hb1, Hb2; reflexivity).
    rewrite Hl, N.bits_0 in Hb. discriminate.
  - intros (k & ->). split; [apply npow2_nz|].
    replace (2 ^ k - 1) with (N.ones k) by (rewrite N.ones_equiv; lia).
    apply N.bits_inj. intros i. rewrite N.land_spec, testbit_pow2, testbit_ones, N.bits_0.
    destruct (N.eqb_spec i k), (N.ltb_spec i k); try reflexivity; lia.
Qed.

Lemma bit_width_value pl w x : good_platform pl -> w <= llong_w pl -> x < 2 ^ w ->
  bit_width pl w x = Some (N.size x).
Proof.
  intros Hp Hw Hx. unfold bit_width. rewrite countl_zero_value by assumption. f_equal.
  destruct (N.eqb_spec x 0) as [->|Hx0]; [cbn; lia|].
  assert (HL : N.log2 x < w) by (apply log2_lt_w; [lia|exact Hx]).
  rewrite N.size_log2 by exact Hx0. lia.
Qed.
Lemma bit_width_ok pl w x : good_platform pl -> w <= llong_w pl -> x < 2 ^ w ->
  exists k, bit_width pl w x = Some k /\ x < 2 ^ k /\ forall j, x < 2 ^ j -> k <= j.
Proof.
  intros Hp Hw Hx. rewrite bit_width_value by assumption. eexists. split; [reflexivity|].
  split; [apply N.size_gt|]. intros j Hj. destruct (N.eq_dec x 0) as [->|Hx0]; [cbn; lia|].
  rewrite N.size_log2 by exact Hx0. assert (N.log2 x < j) by (apply log2_lt_w; [lia|exact Hj]). lia.
Qed.

Lemma shl_one d k : k < d -> shl d 1 k = Some (2 ^ k).
Proof.
  intros H. unfold shl. destruct (N.ltb_spec k d); [|lia]. rewrite N.shiftl_1_l. f_equal.
  unfold wrap. apply N.mod_small. apply npow2_lt. exact H.
Qed.
Lemma pow2_lt_inv a b : 2 ^ a < 2 ^ b -> a < b.
Proof. intros H. apply (N.pow_lt_mono_r_iff 2); [reflexivity|exact H]. Qed.
Lemma pow2_le_inv a b : 2 ^ a <= 2 ^ b -> a <= b.
Proof. intros H. apply (N.pow_le_mono_r_iff 2); [reflexivity|exact H]. Qed.

Lemma bit_floor_ok pl w x : good_platform pl -> w <= llong_w pl -> x < 2 ^ w -> 0 < x ->
  x < 2 ^ int_w pl -> exists y, bit_floor pl w x = Some y /\ greatest_pow2_le x y.
Proof.
  intros Hp Hw Hx H0 Hi. unfold bit_floor. destruct (N.eqb_spec x 0); [lia|].
  rewrite bit_width_value by assumption. rewrite N.size_log2 by lia.
  replace (N.succ (N.log2 x) - 1) with (N.log2 x) by lia.
  rewrite shl_one by (apply log2_lt_w; assumption). eexists. split; [reflexivity|].
  pose proof (N.log2_spec x H0) as (A & B). unfold wrap. rewrite N.mod_small.
  2:{ apply npow2_lt. apply log2_lt_w; assumption. }
  split; [eauto|]. split; [exact A|]. intros k Hk. apply npow2_le.
  assert (2 ^ k < 2 ^ N.succ (N.log2 x)) by lia. apply pow2_lt_inv in H. lia.
Qed.
Lemma bit_floor_overflow pl w x : good_platform pl -> w <= llong_w pl -> x < 2 ^ w ->
  2 ^ int_w pl <= x -> bit_floor pl w x = None.
Proof.
  intros Hp Hw Hx Hi. pose proof (npow2_pos (int_w pl)). unfold bit_floor. destruct (N.eqb_spec x 0); [lia|].
  rewrite bit_width_value by assumption. rewrite N.size_log2 by lia.
  replace (N.succ (N.log2 x) - 1) with (N.log2 x) by lia. unfold shl.
  destruct (N.ltb_spec (N.log2 x) (int_w pl)) as [Hl|]; [exfalso|reflexivity].
  pose proof (N.log2_spec x ltac:(lia)) as (A & B). assert (2 ^ N.succ (N.log2 x) <= 2 ^ int_w pl) by (apply npow2_le; lia). lia.
Qed.

Lemma size_pred_le x k : 1 < x -> x <= 2 ^ k -> N.size (x - 1) <= k.
Proof.
  intros H1 H2. rewrite N.size_log2 by lia. assert (N.log2 (x - 1) < k) by (apply log2_lt_w; lia). lia.
Qed.
Lemma bit_ceil_ok pl w x : good_platform pl -> 0 < w -> w <= llong_w pl ->
  x <= 2 ^ (w - 1) -> x <= 2 ^ (int_w pl - 1) ->
  exists y, bit_ceil pl w x = Some y /\ least_pow2_ge x y.
Proof.
  intros Hp H0 Hw Hx Hi. unfold bit_ceil. pose proof Hp as (Hi0 & Hl1 & Hl2). destruct (N.leb_spec x 1).
  - exists 1. split; [reflexivity|]. split; [exists 0; reflexivity|]. split; [exact H|].
    intros k _. pose proof (npow2_pos k). lia.
  - assert (Hpw : promoted_w pl w <= llong_w pl) by (unfold promoted_w; lia).
    assert (Hlt : 2 ^ (w - 1) < 2 ^ w) by (apply npow2_lt; lia).
    assert (Hle : 2 ^ w <= 2 ^ promoted_w pl w) by (apply npow2_le; unfold promoted_w; lia).
    rewrite bit_width_value by (assumption || lia).
    pose proof (size_pred_le x _ H Hx). pose proof (size_pred_le x _ H Hi).
    rewrite shl_one by lia. eexists. split; [reflexivity|]. unfold wrap. rewrite N.mod_small by (apply npow2_lt; lia).
    split; [eauto|]. split.
    + pose proof (N.size_gt (x - 1)). lia.
    + intros k Hk. apply npow2_le. apply size_pred_le; assumption.
Qed.
Lemma bit_ceil_overflow pl w x : good_platform pl -> w <= llong_w pl -> x < 2 ^ w ->
  2 ^ (int_w pl - 1) < x -> bit_ceil pl w x = None.
Proof.
  intros Hp Hw Hx Hi. unfold bit_ceil. pose proof Hp as (Hi0 & Hl1 & Hl2). pose proof (npow2_pos (int_w pl - 1)).
  destruct (N.leb_spec x 1); [lia|].
  assert (Hpw : promoted_w pl w <= llong_w pl) by (unfold promoted_w; lia).
  assert (Hle : 2 ^ w <= 2 ^ promoted_w pl w) by (apply npow2_le; unfold promoted_w; lia).
  rewrite bit_width_value by (assumption || lia). rewrite N.size_log2 by lia. unfold shl.
  destruct (N.ltb_spec (N.succ (N.log2 (x - 1))) (int_w pl)) as [Hl|]; [exfalso|reflexivity].
  pose proof (N.log2_spec (x - 1) ltac:(lia)) as (A & B). assert (2 ^ N.succ (N.log2 (x - 1)) <= 2 ^ (int_w pl - 1)) by (apply npow2_le; lia). lia.
Qed.

Lemma rot_int_min pl w x : 0 < int_w pl ->
  rotl pl w x (- 2 ^ (Z.of_N (int_w pl) - 1)) = None /\ rotr pl w x (- 2 ^ (Z.of_N (int_w pl) - 1)) = None.
Proof.
  intros H. assert (P : (0 < 2 ^ (Z.of_N (int_w pl) - 1))%Z) by (apply Z.pow_pos_nonneg; lia).
  unfold rotl, rotr, neg_int. revert P. generalize (2 ^ (Z.of_N (int_w pl) - 1))%Z. intros p P.
  destruct (Z.eqb_spec (- p) 0); [lia|]. destruct (Z.ltb_spec (- p) 0); [|lia]. rewrite Z.eqb_refl. split; reflexivity.
Qed.
