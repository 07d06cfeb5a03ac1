(** saturate_cast on floating-point types: proofs. *)
From Coq Require Import QArith Qround Qabs Qpower Lqa Lia Psatz.
From Verif Require Import Base Ints SaturateModel FloatSatModel FloatSatSpec FloatSatProofs.
Open Scope Z_scope.

Lemma sat_integers Fr To x :
  saturate_cast (I Fr) (I To) (VI x) = option_map VI (SaturateModel.saturate_cast Fr To x).
Proof.
  unfold saturate_cast, SaturateModel.saturate_cast. cbn [sizeof].
  destruct (width To <? width Fr).
  - cbn [num_min num_max convert]. unfold clamp, SaturateModel.clamp. cbn [is_nan orb less].
    destruct (cast Fr (tmax To) <? cast Fr (tmin To)); [reflexivity|].
    destruct (x <? cast Fr (tmin To)); [reflexivity|].
    destruct (cast Fr (tmax To) <? x); reflexivity.
  - destruct (width Fr =? width To); [|reflexivity].
    cbn [is_unsigned is_signed exceeds_max num_max less negative].
    destruct (negb (signed Fr) && signed To && (tmax To <? x)); [reflexivity|].
    destruct (signed Fr && negb (signed To) && (x <? 0)); reflexivity.
Qed.

Lemma in_rangeb_spec t z : in_rangeb t z = true <-> in_range t z.
Proof. unfold in_rangeb, in_range. rewrite andb_true_iff, !Z.leb_le. reflexivity. Qed.
Lemma in_rangeb_false t z : in_rangeb t z = false <-> ~ in_range t z.
Proof. rewrite <- in_rangeb_spec. destruct (in_rangeb t z); split; congruence || (intro H; now contradiction H). Qed.

Lemma limits t : 0 < width t -> tmin t <= 0 <= tmax t /\ Z.abs (tmin t) <= 2 ^ width t /\ Z.abs (tmax t) <= 2 ^ width t.
Proof.
  intro H. unfold tmin, tmax.
  assert (2 ^ width t = 2 * 2 ^ (width t - 1)).
  { replace (width t) with (1 + (width t - 1)) at 1 by lia. rewrite Z.pow_add_r by lia. lia. }
  assert (0 < 2 ^ (width t - 1)) by (apply Z.pow_pos_nonneg; lia).
  destruct (signed t); lia.
Qed.

Section ToInt.
Variables (f : fmt) (t : ity).
Hypothesis Hf : format f.
Hypothesis Hw : 0 < width t.

Lemma trunc_int m e z : (qval m e == inject_Z z)%Q -> trunc m e = z.
Proof. intro H. rewrite trunc_spec, (qtrunc_comp _ _ H). apply qtrunc_Z. Qed.

Lemma sat_narrow_int x :
  width t <= prec f -> width t < fsize f -> x <> NaN ->
  saturate_cast (F f) (I t) (VF x) = Some (VI (saturated t x)).
Proof.
  intros Hp Hs Hx. unfold saturate_cast. cbn [sizeof].
  replace (width t <? fsize f) with true by (symmetry; apply Z.ltb_lt; lia).
  destruct (limits t Hw) as (Hl0 & Hl1 & Hl2).
  assert (Hpow : 2 ^ width t <= 2 ^ prec f) by (apply Z.pow_le_mono_r; lia).
  cbn [num_min num_max convert].
  destruct (int_exact f Hf (tmin t) ltac:(lia)) as (lm & le & -> & _ & Hlo).
  destruct (int_exact f Hf (tmax t) ltac:(lia)) as (hm & he & -> & _ & Hhi).
  assert (Hlh : (qval lm le <= qval hm he)%Q) by (rewrite Hlo, Hhi, <- Zle_Qle; lia).
  assert (Hlt : trunc lm le = tmin t) by now apply trunc_int.
  assert (Hht : trunc hm he = tmax t) by now apply trunc_int.
  assert (Rl : in_rangeb t (tmin t) = true) by (apply in_rangeb_spec; unfold in_range; lia).
  assert (Rh : in_rangeb t (tmax t) = true) by (apply in_rangeb_spec; unfold in_range; lia).
  unfold clamp. replace (is_nan (VF x)) with false by (destruct x; try reflexivity; contradiction).
  cbn [is_nan orb less]. rewrite (proj2 (flt_fin_f hm he lm le) Hlh).
  destruct x as [m e | neg |]; [| | contradiction].
  - cbn [saturated]. destruct (flt (Fin m e) (Fin lm le)) eqn:E1.
    + apply flt_fin in E1. cbn [convert]. rewrite Hlt, Rl. do 2 f_equal.
      assert (qtrunc (qval m e) <= tmin t) by (apply qtrunc_upper; rewrite <- Hlo; lra). lia.
    + apply flt_fin_f in E1. destruct (flt (Fin hm he) (Fin m e)) eqn:E2.
      * apply flt_fin in E2. cbn [convert]. rewrite Hht, Rh. do 2 f_equal.
        assert (tmax t <= qtrunc (qval m e)) by (apply qtrunc_lower; rewrite <- Hhi; lra). lia.
      * apply flt_fin_f in E2. cbn [convert]. rewrite trunc_spec.
        assert (tmin t <= qtrunc (qval m e)) by (apply qtrunc_lower; rewrite <- Hlo; lra).
        assert (qtrunc (qval m e) <= tmax t) by (apply qtrunc_upper; rewrite <- Hhi; lra).
        replace (in_rangeb t (qtrunc (qval m e))) with true
          by (symmetry; apply in_rangeb_spec; unfold in_range; lia).
        do 2 f_equal. lia.
  - destruct neg; cbn [flt saturated negb convert]; [now rewrite Hlt, Rl | now rewrite Hht, Rh].
Qed.

(** Same size or wider. *)
Lemma sat_wide_int x :
  fsize f <= width t ->
  saturate_cast (F f) (I t) (VF x) =
    if (fsize f =? width t) && negb (signed t) && flt x (Fin 0 0) then Some (VI 0)
    else convert (F f) (I t) (VF x).
Proof.
  intro Hs. unfold saturate_cast. cbn [sizeof is_unsigned is_signed negative andb].
  replace (width t <? fsize f) with false by (symmetry; apply Z.ltb_ge; lia).
  destruct (fsize f =? width t); [|reflexivity]. cbn [andb]. reflexivity.
Qed.

Lemma qval_zero e : (qval 0 e == 0)%Q.
Proof. unfold qval. ring. Qed.

Lemma flt_zero x : flt x (Fin 0 0) = true <-> below x 0.
Proof.
  destruct x as [m e | neg |]; cbn [below].
  - rewrite flt_fin, qval_zero. reflexivity.
  - cbn [flt]. reflexivity.
  - cbn [flt]. split; [discriminate | contradiction].
Qed.

Lemma sat_wide_int_ok x :
  fsize f <= width t ->
  ~ overflows t x \/ (signed t = false /\ fsize f = width t /\ below x 0) ->
  saturate_cast (F f) (I t) (VF x) = Some (VI (saturated t x)).
Proof.
  intros Hs H. rewrite sat_wide_int by assumption.
  destruct (limits t Hw) as (Hl0 & _).
  destruct ((fsize f =? width t) && negb (signed t) && flt x (Fin 0 0)) eqn:E.
  - apply andb_true_iff in E as [E E3]. apply andb_true_iff in E as [_ E2].
    apply flt_zero in E3. apply negb_true_iff in E2.
    assert (Hm : tmin t = 0) by (unfold tmin; now rewrite E2).
    destruct x as [m e | neg |]; cbn [below] in E3; cbn [saturated].
    + do 2 f_equal. assert (qtrunc (qval m e) <= 0) by (apply qtrunc_upper; change (inject_Z 0) with 0%Q; lra). lia.
    + subst neg. now rewrite Hm.
    + contradiction.
  - destruct H as [H | (H1 & H2 & H3)].
    + destruct x as [m e | neg |]; cbn [overflows] in H; [| now contradiction H | now contradiction H].
      cbn [convert saturated]. rewrite trunc_spec. destruct (in_rangeb t (qtrunc (qval m e))) eqn:Er.
      * apply in_rangeb_spec in Er. unfold in_range in Er. do 2 f_equal. lia.
      * apply in_rangeb_false in Er. contradiction.
    + apply flt_zero in H3. rewrite H1, H3, H2, Z.eqb_refl in E. discriminate.
Qed.

Lemma sat_wide_int_ub x :
  fsize f <= width t ->
  overflows t x -> ~ (signed t = false /\ fsize f = width t /\ below x 0) ->
  saturate_cast (F f) (I t) (VF x) = None.
Proof.
  intros Hs H Hn. rewrite sat_wide_int by assumption.
  destruct ((fsize f =? width t) && negb (signed t) && flt x (Fin 0 0)) eqn:E.
  - exfalso. apply Hn. apply andb_true_iff in E as [E E3]. apply andb_true_iff in E as [E1 E2].
    apply flt_zero in E3. apply negb_true_iff in E2. apply Z.eqb_eq in E1. tauto.
  - destruct x as [m e | neg |]; cbn [overflows] in H; cbn [convert]; [|reflexivity|reflexivity].
    rewrite trunc_spec. apply in_rangeb_false in H. now rewrite H.
Qed.
End ToInt.

Lemma sat_nan_int f t : saturate_cast (F f) (I t) (VF NaN) = None.
Proof.
  unfold saturate_cast. cbn [sizeof is_unsigned is_signed negative andb flt].
  destruct (width t <? fsize f).
  - cbn [num_min num_max convert]. unfold clamp. reflexivity.
  - rewrite andb_false_r. destruct (fsize f =? width t); reflexivity.
Qed.

(** ** To floating point *)
Lemma pow_succ p : 0 < p -> 2 ^ p = 2 * 2 ^ (p - 1).
Proof. intro. replace p with (1 + (p - 1)) at 1 by lia. rewrite Z.pow_add_r by lia. lia. Qed.

Lemma fmin_q f : format f -> (qval (2 ^ (prec f - 1)) (emin f) == qmin f)%Q.
Proof.
  intros [Hp He]. unfold qmin, emin. rewrite (scaled 1 (2 - emax f) (3 - emax f - prec f)) by lia.
  unfold qval. rewrite Z.mul_1_l. replace (2 - emax f - (3 - emax f - prec f)) with (prec f - 1) by lia.
  reflexivity.
Qed.
Lemma fmax_q f : format f -> (qval (2 ^ prec f - 1) (emax f - prec f) == qmax f)%Q.
Proof.
  intros [Hp He]. unfold qmax. rewrite (scaled 1 (emax f) (emax f - prec f)) by lia.
  unfold qval. rewrite Z.mul_1_l. replace (emax f - (emax f - prec f)) with (prec f) by lia.
  generalize (2 ^ prec f) ((2 # 1) ^ (emax f - prec f))%Q. intros a p. unfold Z.sub.
  rewrite inject_Z_plus. change (inject_Z (-(1))) with (- 1)%Q. change (inject_Z 1) with 1%Q. ring.
Qed.
Lemma fmin_value f : format f -> finite_value f (2 ^ (prec f - 1)) (emin f).
Proof.
  intros [Hp He]. split; [|unfold emin; lia].
  rewrite Z.abs_eq by (apply Z.pow_nonneg; lia). apply Z.pow_lt_mono_r; lia.
Qed.
Lemma fmax_value f : format f -> finite_value f (2 ^ prec f - 1) (emax f - prec f).
Proof.
  intros [Hp He]. assert (0 < 2 ^ prec f) by (apply Z.pow_pos_nonneg; lia).
  split; [lia | unfold emin; lia].
Qed.

Lemma include_value f g m e : format f -> includes f g -> finite_value g m e ->
  exists n h, finite_value f n h /\ (qval m e == qval n h)%Q.
Proof.
  intros [Hp He] [Hi1 Hi2] [Hm Hr].
  set (h := Z.min e (emax f - prec f)). exists (m * 2 ^ (e - h)), h. split.
  - split; [|unfold emin in *; lia].
    rewrite Z.abs_mul, (Z.abs_eq (2 ^ _)) by (apply Z.pow_nonneg; lia).
    apply Z.lt_le_trans with (2 ^ prec g * 2 ^ (e - h)).
    + apply Z.mul_lt_mono_pos_r; [apply Z.pow_pos_nonneg; lia | exact Hm].
    + destruct (Z.le_gt_cases 0 (prec g)).
      * rewrite <- Z.pow_add_r by lia. apply Z.pow_le_mono_r; lia.
      * rewrite (Z.pow_neg_r 2 (prec g)) by lia. rewrite Z.mul_0_l. apply Z.pow_nonneg; lia.
  - rewrite (scaled m e h) by lia. reflexivity.
Qed.

Lemma qmin_le_qmax f : format f -> (0 < qmin f /\ qmin f <= qmax f)%Q.
Proof.
  intro Hf. pose proof Hf as [Hp He]. split.
  - unfold qmin, qval. change (inject_Z 1) with 1%Q. rewrite Qmult_1_l. apply p2_pos.
  - rewrite <- fmin_q, <- fmax_q by assumption. rewrite (qval_le _ _ _ _ (emin f)) by (unfold emin; lia).
    rewrite Z.sub_diag, Z.mul_1_r.
    assert (0 < 2 ^ (emax f - prec f - emin f)) by (apply Z.pow_pos_nonneg; unfold emin; lia).
    pose proof (pow_succ (prec f) ltac:(lia)). assert (0 < 2 ^ (prec f - 1)) by (apply Z.pow_pos_nonneg; lia).
    nia.
Qed.

Lemma qmax_bound f m e : format f -> finite_value f m e -> (Qabs (qval m e) <= qmax f)%Q.
Proof. intros Hf Hv. rewrite <- fmax_q by assumption. now apply (value_below f m e). Qed.

Lemma nearest_comp f p q x : (p == q)%Q -> nearest_float f p x -> nearest_float f q x.
Proof.
  intros H (m & e & H1 & H2 & H3). exists m, e. split; [exact H1|]. split; [exact H2|].
  intros n g Hn. rewrite <- H. now apply H3.
Qed.

Section Narrow.
Variables (f g : fmt).
Hypothesis Hf : format f.
Hypothesis Hg : format g.
Hypothesis Hi : includes f g.
Hypothesis Hs : fsize g < fsize f.

Lemma narrow_unfold x : exists lm le hm he,
  (qval lm le == qmin g)%Q /\ (qval hm he == qmax g)%Q /\
  saturate_cast (F f) (F g) (VF x) =
    match clamp (VF x) (VF (Fin lm le)) (VF (Fin hm he)) with
    | Some c => convert (F f) (F g) c | None => None end.
Proof.
  unfold saturate_cast. cbn [sizeof].
  replace (fsize g <? fsize f) with true by (symmetry; apply Z.ltb_lt; lia).
  cbn [num_min num_max convert fmin fmax].
  destruct (include_value f g _ _ Hf Hi (fmin_value g Hg)) as (n1 & h1 & Hv1 & Hq1).
  destruct (include_value f g _ _ Hf Hi (fmax_value g Hg)) as (n2 & h2 & Hv2 & Hq2).
  destruct (round_exact f Hf _ _ _ _ Hv1 Hq1) as (lm & le & E1 & _ & L).
  destruct (round_exact f Hf _ _ _ _ Hv2 Hq2) as (hm & he & E2 & _ & R).
  exists lm, le, hm, he. rewrite E1, E2. split; [now rewrite L, fmin_q|].
  split; [now rewrite R, fmax_q | reflexivity].
Qed.

Lemma round_to m e n h : finite_value g n h -> (qval m e == qval n h)%Q ->
  exists m' e', round g m e = Fin m' e' /\ finite_value g m' e' /\ (qval m' e' == qval n h)%Q.
Proof.
  intros Hv Hq. destruct (round_exact g Hg m e n h Hv Hq) as (a & b & H1 & H2 & H3).
  exists a, b. split; [exact H1|]. split; [exact H2|]. now rewrite H3.
Qed.

Lemma sat_narrow_float m e : (qmin g <= qval m e)%Q ->
  exists r, saturate_cast (F f) (F g) (VF (Fin m e)) = Some (VF r) /\ nearest_float g (qval m e) r.
Proof.
  intro H. destruct (narrow_unfold (Fin m e)) as (lm & le & hm & he & L & R & ->).
  destruct (qmin_le_qmax g Hg) as [Hpos Hle].
  unfold clamp. cbn [is_nan orb less].
  rewrite (proj2 (flt_fin_f hm he lm le)) by (rewrite L, R; exact Hle).
  rewrite (proj2 (flt_fin_f m e lm le)) by (rewrite L; exact H).
  destruct (flt (Fin hm he) (Fin m e)) eqn:E2.
  - apply flt_fin in E2. rewrite R in E2. cbn [convert].
    destruct (round_to hm he _ _ (fmax_value g Hg)) as (a & b & -> & Hv & Hq); [now rewrite R, fmax_q|].
    eexists. split; [reflexivity|]. exists a, b. split; [reflexivity|]. split; [exact Hv|].
    intros n h Hn. rewrite fmax_q in Hq by assumption. pose proof (qmax_bound g n h Hg Hn) as Hb.
    apply Qabs_Qle_condition in Hb. rewrite !Qabs_pos by lra. lra.
  - apply flt_fin_f in E2. rewrite R in E2. cbn [convert]. eexists. split; [reflexivity|].
    apply round_nearest; [exact Hg|]. unfold below_max. rewrite fmax_q by assumption.
    rewrite Qabs_pos by lra. exact E2.
Qed.

Lemma sat_narrow_inf :
  exists r, saturate_cast (F f) (F g) (VF (Inf false)) = Some (VF r) /\ is_number r (qmax g).
Proof.
  destruct (narrow_unfold (Inf false)) as (lm & le & hm & he & L & R & ->).
  destruct (qmin_le_qmax g Hg) as [Hpos Hle].
  unfold clamp. cbn [is_nan orb less].
  rewrite (proj2 (flt_fin_f hm he lm le)) by (rewrite L, R; exact Hle).
  cbn [flt negb convert].
  destruct (round_to hm he _ _ (fmax_value g Hg)) as (a & b & -> & Hv & Hq); [now rewrite R, fmax_q|].
  eexists. split; [reflexivity|]. cbn [is_number]. now rewrite Hq, fmax_q.
Qed.

Lemma sat_narrow_float_below x : below x (qmin g) ->
  exists r, saturate_cast (F f) (F g) (VF x) = Some (VF r) /\ is_number r (qmin g).
Proof.
  intro H. destruct (narrow_unfold x) as (lm & le & hm & he & L & R & ->).
  destruct (qmin_le_qmax g Hg) as [Hpos Hle].
  assert (Hlt : flt x (Fin lm le) = true).
  { destruct x as [m e | neg |]; cbn [below] in H; [apply flt_fin; now rewrite L | now subst | contradiction]. }
  unfold clamp. replace (is_nan (VF x)) with false by (destruct x; try reflexivity; contradiction).
  cbn [is_nan orb less].
  rewrite (proj2 (flt_fin_f hm he lm le)) by (rewrite L, R; exact Hle).
  rewrite Hlt. cbn [convert].
  destruct (round_to lm le _ _ (fmin_value g Hg)) as (a & b & -> & Hv & Hq); [now rewrite L, fmin_q|].
  eexists. split; [reflexivity|]. cbn [is_number]. now rewrite Hq, fmin_q.
Qed.

Lemma zero_nearer q r : (q <= 0)%Q -> is_number r (qmin g) -> ~ nearest_float g q r.
Proof.
  intros Hq Hr (m & e & -> & Hv & Hn). cbn [is_number] in Hr.
  destruct (qmin_le_qmax g Hg) as [Hpos _].
  assert (Hz : finite_value g 0 (emin g)).
  { destruct Hg. split; [cbn; apply b_pos; split; assumption | unfold emin; lia]. }
  specialize (Hn 0 (emin g) Hz). rewrite qval_zero, Hr in Hn.
  rewrite !Qabs_neg in Hn by lra. lra.
Qed.
End Narrow.

Lemma sat_wide_float f g x : format f -> format g -> includes g f -> fsize f <= fsize g -> value f x ->
  exists r, saturate_cast (F f) (F g) (VF x) = Some (VF r) /\ value g r /\ same_number r x.
Proof.
  intros Hf Hg Hi Hs Hx. unfold saturate_cast. cbn [sizeof is_unsigned andb].
  replace (fsize g <? fsize f) with false by (symmetry; apply Z.ltb_ge; lia).
  assert (Hc : (if fsize f =? fsize g then if is_signed (F f) && false && negative (VF x) then Some (VI 0)
                else convert (F f) (F g) (VF x) else convert (F f) (F g) (VF x)) = convert (F f) (F g) (VF x)).
  { cbn [is_signed andb]. now destruct (fsize f =? fsize g). }
  cbn [is_signed andb] in *. rewrite Hc. destruct x as [m e | neg |]; cbn [convert].
  - destruct (include_value g f m e Hg Hi Hx) as (n & h & Hv & Hq).
    destruct (round_exact g Hg m e n h Hv Hq) as (a & b & -> & H1 & H2).
    eexists. split; [reflexivity|]. split; [exact H1 | exact H2].
  - eexists. repeat split.
  - eexists. repeat split.
Qed.

Section FromInt.
Variables (t : ity) (f : fmt).
Hypothesis Hf : format f.
Hypothesis Hw : 0 < width t.

Lemma int_below z : width t < emax f -> in_range t z -> below_max f z 0.
Proof.
  intros Hwe Hr. pose proof Hf as [Hp He].
  destruct (limits t Hw) as (_ & H1 & H2). unfold in_range in Hr.
  unfold below_max. rewrite qabs_qval, fmax_q by assumption. rewrite qval_0. unfold qmax.
  rewrite (scaled 1 (emax f) 0), (scaled 1 (emax f - prec f) 0) by lia.
  rewrite !Z.sub_0_r, !Z.mul_1_l, !Qpower_0_r, !Qmult_1_r.
  setoid_replace (inject_Z (2 ^ emax f) - inject_Z (2 ^ (emax f - prec f)))%Q
    with (inject_Z (2 ^ emax f - 2 ^ (emax f - prec f))).
  2: { generalize (2 ^ emax f) (2 ^ (emax f - prec f)). intros a c. unfold Z.sub. rewrite inject_Z_plus, inject_Z_opp. reflexivity. }
  rewrite <- Zle_Qle. pose proof (pow_succ (emax f) ltac:(lia)).
  assert (2 ^ width t <= 2 ^ (emax f - 1)) by (apply Z.pow_le_mono_r; lia).
  assert (2 ^ (emax f - prec f) <= 2 ^ (emax f - 1)) by (apply Z.pow_le_mono_r; lia).
  lia.
Qed.

Lemma sat_int_float z : width t <= fsize f -> width t < emax f -> in_range t z ->
  exists r, saturate_cast (I t) (F f) (VI z) = Some (VF r) /\ nearest_float f (inject_Z z) r.
Proof.
  intros Hs Hwe Hr. pose proof (round_nearest f Hf z 0 (int_below z Hwe Hr)) as Hn.
  apply (nearest_comp f _ _ _ (qval_0 z)) in Hn.
  exists (round f z 0). split; [|exact Hn].
  unfold saturate_cast. cbn [sizeof is_signed is_unsigned].
  replace (fsize f <? width t) with false by (symmetry; apply Z.ltb_ge; lia).
  assert (He : exceeds_max (I t) (F f) (VI z) = false).
  { cbn [exceeds_max convert num_max less]. destruct Hn as (m & e & -> & Hv & _).
    apply flt_fin_f. pose proof (value_below f m e Hv) as Hb. unfold below_max in Hb.
    apply Qabs_Qle_condition in Hb. lra. }
  rewrite He, andb_false_r. cbn [andb]. rewrite andb_false_r.
  cbn [andb]. destruct (width t =? fsize f); reflexivity.
Qed.

Lemma sat_int_narrow_float_ub z : fsize f < width t -> width t < emax f ->
  saturate_cast (I t) (F f) (VI z) = None.
Proof.
  intros Hs Hwe. unfold saturate_cast. cbn [sizeof].
  replace (fsize f <? width t) with true by (symmetry; apply Z.ltb_lt; lia).
  cbn [num_min num_max convert fmin fmax].
  destruct (in_rangeb t (trunc (2 ^ (prec f - 1)) (emin f))); [|reflexivity].
  pose proof Hf as [Hp He].
  assert (Hr : in_rangeb t (trunc (2 ^ prec f - 1) (emax f - prec f)) = false).
  { apply in_rangeb_false. unfold in_range. intros [_ H].
    destruct (limits t Hw) as (_ & _ & H2).
    unfold trunc in H. destruct (Z.leb_spec 0 (emax f - prec f)); [|lia].
    rewrite Z.mul_sub_distr_r, <- Z.pow_add_r in H by lia.
    replace (prec f + (emax f - prec f)) with (emax f) in H by lia.
    assert (tmax t < 2 ^ width t).
    { unfold tmax. assert (2 ^ (width t - 1) <= 2 ^ width t) by (apply Z.pow_le_mono_r; lia).
      destruct (signed t); lia. }
    pose proof (pow_succ (emax f) ltac:(lia)).
    assert (2 ^ width t <= 2 ^ (emax f - 1)) by (apply Z.pow_le_mono_r; lia).
    assert (2 ^ (emax f - prec f) <= 2 ^ (emax f - 1)) by (apply Z.pow_le_mono_r; lia).
    lia. }
  now rewrite Hr.
Qed.

Lemma sat_int_half z : fsize f < width t -> emax f < width t -> in_range t z -> z < 0 ->
  exists r, saturate_cast (I t) (F f) (VI z) = Some (VF r) /\ is_number r 0.
Proof.
  intros Hs Hwe Hr Hz. unfold saturate_cast. cbn [sizeof].
  replace (fsize f <? width t) with true by (symmetry; apply Z.ltb_lt; lia).
  cbn [num_min num_max convert fmin fmax]. pose proof Hf as [Hp He].
  destruct (limits t Hw) as (H0 & _ & _).
  assert (T0 : trunc (2 ^ (prec f - 1)) (emin f) = 0).
  { unfold trunc. destruct (Z.leb_spec 0 (emin f)); [unfold emin in *; lia|].
    apply Z.quot_small. split; [apply Z.pow_nonneg; lia|]. apply Z.pow_lt_mono_r; unfold emin; lia. }
  rewrite T0.
  replace (in_rangeb t 0) with true by (symmetry; apply in_rangeb_spec; unfold in_range; lia).
  set (hi := trunc (2 ^ prec f - 1) (emax f - prec f)).
  assert (Hhi : 0 <= hi < 2 ^ emax f).
  { unfold hi, trunc. destruct (Z.leb_spec 0 (emax f - prec f)); [|lia].
    rewrite Z.mul_sub_distr_r, <- Z.pow_add_r by lia.
    replace (prec f + (emax f - prec f)) with (emax f) by lia.
    assert (0 < 2 ^ (emax f - prec f)) by (apply Z.pow_pos_nonneg; lia).
    assert (2 ^ (emax f - prec f) <= 2 ^ emax f) by (apply Z.pow_le_mono_r; lia). lia. }
  assert (Hm : 2 ^ emax f <= tmax t + 1).
  { unfold tmax. assert (2 ^ emax f <= 2 ^ (width t - 1)) by (apply Z.pow_le_mono_r; lia).
    pose proof (pow_succ (width t) ltac:(lia)). destruct (signed t); lia. }
  replace (in_rangeb t hi) with true by (symmetry; apply in_rangeb_spec; unfold in_range; lia).
  unfold clamp. cbn [is_nan orb less].
  replace (hi <? 0) with false by (symmetry; apply Z.ltb_ge; lia).
  replace (z <? 0) with true by (symmetry; apply Z.ltb_lt; lia).
  cbn [convert]. eexists. split; [reflexivity|]. change (round f 0 0) with (Fin 0 (emin f)).
  cbn [is_number]. apply qval_zero.
Qed.
End FromInt.
