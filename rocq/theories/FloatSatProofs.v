(** Comparison, truncation and rounding of the floating-point model, related to the
    rationals. *)
From Coq Require Import QArith Qround Qabs Qpower Lqa Lia Psatz.
From Verif Require Import Base Ints FloatSatModel FloatSatSpec.
Open Scope Z_scope.

Lemma two_nz : ~ ((2 # 1) == 0)%Q.
Proof. intro H. discriminate H. Qed.

Lemma p2_pos e : (0 < (2 # 1) ^ e)%Q.
Proof. apply Qpower_0_lt. reflexivity. Qed.

Lemma scaled m e g : g <= e -> (qval m e == inject_Z (m * 2 ^ (e - g)) * (2 # 1) ^ g)%Q.
Proof.
  intro H. unfold qval. rewrite inject_Z_mult, Zpower_Qpower by lia.
  change (inject_Z 2) with (2 # 1)%Q.
  rewrite <- Qmult_assoc, <- Qpower_plus by apply two_nz.
  replace (e - g + g) with e by lia. reflexivity.
Qed.

Lemma scale_lt a b g : (inject_Z a * (2 # 1) ^ g < inject_Z b * (2 # 1) ^ g)%Q <-> a < b.
Proof.
  rewrite Qmult_lt_r by apply p2_pos. now rewrite Zlt_Qlt.
Qed.
Lemma scale_le a b g : (inject_Z a * (2 # 1) ^ g <= inject_Z b * (2 # 1) ^ g)%Q <-> a <= b.
Proof.
  rewrite Qmult_le_r by apply p2_pos. now rewrite Zle_Qle.
Qed.

Lemma qval_lt m e n f g : g <= e -> g <= f ->
  ((qval m e < qval n f)%Q <-> m * 2 ^ (e - g) < n * 2 ^ (f - g)).
Proof. intros. rewrite (scaled m e g), (scaled n f g) by lia. apply scale_lt. Qed.
Lemma qval_le m e n f g : g <= e -> g <= f ->
  ((qval m e <= qval n f)%Q <-> m * 2 ^ (e - g) <= n * 2 ^ (f - g)).
Proof. intros. rewrite (scaled m e g), (scaled n f g) by lia. apply scale_le. Qed.

Lemma flt_fin m e n f : flt (Fin m e) (Fin n f) = true <-> (qval m e < qval n f)%Q.
Proof. cbn [flt]. rewrite Z.ltb_lt. symmetry. apply qval_lt; lia. Qed.
Lemma flt_fin_f m e n f : flt (Fin m e) (Fin n f) = false <-> (qval n f <= qval m e)%Q.
Proof. cbn [flt]. rewrite Z.ltb_ge. symmetry. rewrite Z.min_comm. apply qval_le; lia. Qed.

Lemma qval_0 m : (qval m 0 == inject_Z m)%Q.
Proof. unfold qval. rewrite Qpower_0_r, Qmult_1_r. reflexivity. Qed.

Lemma p2_inv e : 0 <= e -> ((2 # 1) ^ (- e) == / inject_Z (2 ^ e))%Q.
Proof. intro. rewrite Qpower_opp, Zpower_Qpower by lia. reflexivity. Qed.

(** ** Truncation *)
Lemma qfloor_unique q z : (inject_Z z <= q)%Q -> (q < inject_Z (z + 1))%Q -> Qfloor q = z.
Proof.
  intros H1 H2. pose proof (Qfloor_le q). pose proof (Qlt_floor q).
  assert (inject_Z z < inject_Z (Qfloor q + 1))%Q by lra.
  assert (inject_Z (Qfloor q) < inject_Z (z + 1))%Q by lra.
  rewrite <- Zlt_Qlt in *. lia.
Qed.

Lemma qtrunc_comp p q : (p == q)%Q -> qtrunc p = qtrunc q.
Proof.
  intro H. unfold qtrunc. destruct (Qlt_le_dec p 0), (Qlt_le_dec q 0).
  - now rewrite H. - exfalso; lra. - exfalso; lra. - now rewrite H.
Qed.

Lemma qtrunc_Z z : qtrunc (inject_Z z) = z.
Proof. unfold qtrunc. destruct (Qlt_le_dec _ _); [apply Qceiling_Z | apply Qfloor_Z]. Qed.

Lemma trunc_spec m e : trunc m e = qtrunc (qval m e).
Proof.
  unfold trunc. destruct (Z.leb_spec 0 e).
  - rewrite (qtrunc_comp _ (inject_Z (m * 2 ^ e))); [now rewrite qtrunc_Z|].
    rewrite (scaled m e 0) by lia. rewrite Z.sub_0_r, Qpower_0_r, Qmult_1_r. reflexivity.
  - set (b := 2 ^ (- e)). assert (Hb : 0 < b) by (apply Z.pow_pos_nonneg; lia).
    assert (Hq : (qval m e == inject_Z m * / inject_Z b)%Q).
    { unfold qval, b. rewrite <- p2_inv by lia. now rewrite Z.opp_involutive. }
    assert (HbQ : (0 < inject_Z b)%Q) by (change 0%Q with (inject_Z 0); now rewrite <- Zlt_Qlt).
    assert (Hmul : (qval m e * inject_Z b == inject_Z m)%Q) by (rewrite Hq; field; lra).
    unfold qtrunc. destruct (Qlt_le_dec (qval m e) 0).
    + (* negative: the ceiling *)
      assert (m < 0).
      { apply (scale_lt m 0 e). unfold qval in q. change (inject_Z 0) with 0%Q. lra. }
      unfold Qceiling. apply Z.opp_inj. rewrite Z.opp_involutive.
      symmetry. apply qfloor_unique.
      * apply Qmult_le_r with (z := inject_Z b); [exact HbQ|].
        setoid_replace (- qval m e * inject_Z b)%Q with (- inject_Z m)%Q by (rewrite <- Hmul; ring).
        rewrite <- inject_Z_opp, <- inject_Z_mult, <- Zle_Qle.
        pose proof (Z.quot_rem' m b). pose proof (Z.rem_bound_neg_pos m b). lia.
      * apply Qmult_lt_r with (z := inject_Z b); [exact HbQ|].
        setoid_replace (- qval m e * inject_Z b)%Q with (- inject_Z m)%Q by (rewrite <- Hmul; ring).
        rewrite <- inject_Z_opp, <- inject_Z_mult, <- Zlt_Qlt.
        pose proof (Z.quot_rem' m b). pose proof (Z.rem_bound_neg_pos m b). lia.
    + assert (0 <= m).
      { apply (scale_le 0 m e). unfold qval in q. change (inject_Z 0) with 0%Q. lra. }
      symmetry. apply qfloor_unique.
      * apply Qmult_le_r with (z := inject_Z b); [exact HbQ|].
        rewrite Hmul, <- inject_Z_mult, <- Zle_Qle.
        pose proof (Z.quot_rem' m b). pose proof (Z.rem_bound_pos m b). lia.
      * apply Qmult_lt_r with (z := inject_Z b); [exact HbQ|].
        rewrite Hmul, <- inject_Z_mult, <- Zlt_Qlt.
        pose proof (Z.quot_rem' m b). pose proof (Z.rem_bound_pos m b). lia.
Qed.

Lemma qtrunc_lower q z : (inject_Z z <= q)%Q -> z <= qtrunc q.
Proof.
  intro H. unfold qtrunc. destruct (Qlt_le_dec q 0).
  - pose proof (Qle_ceiling q). rewrite Zle_Qle. lra.
  - apply Qfloor_resp_le in H. now rewrite Qfloor_Z in H.
Qed.
Lemma qtrunc_upper q z : (q <= inject_Z z)%Q -> qtrunc q <= z.
Proof.
  intro H. unfold qtrunc. destruct (Qlt_le_dec q 0).
  - apply Qceiling_resp_le in H. now rewrite Qceiling_Z in H.
  - pose proof (Qfloor_le q). rewrite Zle_Qle. lra.
Qed.

(** ** Rounding *)
Lemma div_rne_nearest a b k : 0 < b -> Z.abs (a - b * div_rne a b) <= Z.abs (a - b * k).
Proof.
  intro Hb. unfold div_rne. pose proof (Z.div_mod a b). pose proof (Z.mod_pos_bound a b Hb).
  set (q := a / b) in *. set (r := a mod b) in *.
  assert (Ha : a = b * q + r) by lia. rewrite Ha. clearbody q r. clear Ha H a.
  replace (b * q + r - b * k) with (b * (q - k) + r) by ring.
  assert (Hk : q - k <= -1 \/ q - k = 0 \/ 1 <= q - k) by lia.
  assert (Hm : (q - k <= -1 -> b * (q - k) <= - b) /\ (q - k = 0 -> b * (q - k) = 0) /\
               (1 <= q - k -> b <= b * (q - k))) by (split; [nia | split; [intros ->; lia | nia]]).
  generalize dependent (b * (q - k)). intros d Hd.
  repeat match goal with |- context [if ?c then _ else _] => destruct c eqn:? end;
    rewrite ?Z.ltb_lt, ?Z.ltb_ge in *;
    rewrite ?Z.mul_add_distr_l, ?Z.mul_1_r; lia.
Qed.

(** Rounding never crosses an integer bound. *)
Lemma div_rne_bound a b k : 0 < b -> Z.abs a <= b * k -> Z.abs (div_rne a b) <= k.
Proof.
  intros Hb H. unfold div_rne. pose proof (Z.div_mod a b). pose proof (Z.mod_pos_bound a b Hb).
  set (q := a / b) in *. set (r := a mod b) in *.
  assert (Ha : a = b * q + r) by lia. clearbody q r. subst a.
  assert (- k <= q) by nia. assert (q <= k) by nia.
  assert (q = k -> r = 0) by nia.
  repeat match goal with |- context [if ?c then _ else _] => destruct c eqn:? end;
    rewrite ?Z.ltb_lt, ?Z.ltb_ge in *; lia.
Qed.

Section Round.
Variable f : fmt.
Hypothesis Hf : format f.

Let b := 2 ^ prec f.
Lemma b_pos : 0 < 2 ^ prec f.
Proof. apply Z.pow_pos_nonneg; [lia | destruct Hf; lia]. Qed.

Lemma abs_log2 m : m <> 0 -> 2 ^ (Z.log2 (Z.abs m)) <= Z.abs m < 2 ^ (Z.log2 (Z.abs m) + 1).
Proof. intro H. rewrite Z.add_1_r. apply Z.log2_spec. lia. Qed.

Lemma pow_split a c : 0 <= a -> 0 <= c -> 2 ^ (a + c) = 2 ^ a * 2 ^ c.
Proof. intros. apply Z.pow_add_r; lia. Qed.

(** |m| 2^e <= fmax, as an inequality between integers at any scale. *)
Definition below_max m e : Prop := (Qabs (qval m e) <= qval (2 ^ prec f - 1) (emax f - prec f))%Q.

Lemma qabs_qval m e : (Qabs (qval m e) == qval (Z.abs m) e)%Q.
Proof.
  unfold qval. rewrite Qabs_Qmult. rewrite (Qabs_pos ((2 # 1) ^ e)) by (apply Qlt_le_weak, p2_pos).
  reflexivity.
Qed.

Definition e_of m e := Z.max (e + (Z.log2 (Z.abs m) + 1) - prec f) (emin f).
Definition m_of m e :=
  if e_of m e <=? e then m * 2 ^ (e - e_of m e) else div_rne m (2 ^ (e_of m e - e)).

Lemma mantissa_bound m e : Z.abs (m_of m e) <= 2 ^ prec f.
Proof.
  destruct Hf as [Hp He]. unfold m_of. set (e' := e_of m e).
  assert (Hm : Z.abs m < 2 ^ (Z.log2 (Z.abs m) + 1)).
  { destruct (Z.eq_dec m 0) as [-> | Hm]; [reflexivity | now apply abs_log2]. }
  pose proof (Z.log2_nonneg (Z.abs m)).
  assert (He' : e + (Z.log2 (Z.abs m) + 1) - prec f <= e') by (unfold e', e_of; lia).
  destruct (Z.leb_spec e' e).
  - rewrite Z.abs_mul, (Z.abs_eq (2 ^ _)) by (apply Z.pow_nonneg; lia).
    apply Z.le_trans with (2 ^ (Z.log2 (Z.abs m) + 1) * 2 ^ (e - e')).
    + apply Z.mul_le_mono_nonneg_r; [apply Z.pow_nonneg; lia | lia].
    + rewrite <- pow_split by lia. apply Z.pow_le_mono_r; lia.
  - apply div_rne_bound; [apply Z.pow_pos_nonneg; lia|].
    apply Z.lt_le_incl. eapply Z.lt_le_trans; [exact Hm|].
    rewrite <- pow_split by lia. apply Z.pow_le_mono_r; lia.
Qed.

Lemma e_of_bound m e : m <> 0 -> below_max m e -> emin f <= e_of m e <= emax f - prec f.
Proof.
  destruct Hf as [Hp He]. intros Hm H. unfold below_max in H. rewrite qabs_qval in H.
  split; [unfold e_of; lia|].
  pose proof (abs_log2 m Hm) as [Hl _]. pose proof (Z.log2_nonneg (Z.abs m)) as Hl0.
  set (l := Z.log2 (Z.abs m)) in *.
  apply (qval_le _ _ _ _ (Z.min e (emax f - prec f))) in H; [|lia|lia].
  set (g := Z.min e (emax f - prec f)) in *.
  assert (Hlt : 2 ^ (l + (e - g)) < 2 ^ (prec f + (emax f - prec f - g))).
  { rewrite !pow_split by lia. 
    assert (0 < 2 ^ (e - g)) by (apply Z.pow_pos_nonneg; lia).
    assert (0 < 2 ^ (emax f - prec f - g)) by (apply Z.pow_pos_nonneg; lia).
    nia. }
  apply Z.pow_lt_mono_r_iff in Hlt; [|lia|lia].
  unfold e_of. fold l. unfold emin. lia.
Qed.

Definition x_of m e : fval :=
  if Z.abs (m_of m e) =? 2 ^ prec f then Fin (m_of m e / 2) (e_of m e + 1) else Fin (m_of m e) (e_of m e).

Lemma half_pow a : Z.abs a = 2 ^ prec f -> 2 * (a / 2) = a /\ Z.abs (a / 2) = 2 ^ (prec f - 1).
Proof.
  destruct Hf as [Hp He]. intro H.
  assert (H2 : 2 ^ prec f = 2 * 2 ^ (prec f - 1)).
  { replace (prec f) with (1 + (prec f - 1)) at 1 by lia. apply pow_split; lia. }
  assert (0 < 2 ^ (prec f - 1)) by (apply Z.pow_pos_nonneg; lia).
  assert (Ha : a = 2 * 2 ^ (prec f - 1) \/ a = 2 * - 2 ^ (prec f - 1)) by lia.
  generalize dependent (2 ^ (prec f - 1)). intros h _ Hh [-> | ->];
    [replace (2 * h / 2) with h by (symmetry; rewrite Z.mul_comm; apply Z.div_mul; lia)
    | replace (2 * - h / 2) with (- h) by (symmetry; rewrite Z.mul_comm; apply Z.div_mul; lia)]; lia.
Qed.

Lemma at_top m e : m <> 0 -> below_max m e -> e_of m e = emax f - prec f ->
  Z.abs (m_of m e) <= 2 ^ prec f - 1.
Proof.
  destruct Hf as [Hp He]. intros Hm H Htop. unfold below_max in H. rewrite qabs_qval in H.
  rewrite <- Htop in H. unfold m_of. set (e' := e_of m e) in *. destruct (Z.leb_spec e' e).
  - apply (qval_le _ _ _ _ e') in H; [|lia|lia]. rewrite Z.sub_diag, Z.mul_1_r in H.
    now rewrite Z.abs_mul, (Z.abs_eq (2 ^ _)) by (apply Z.pow_nonneg; lia).
  - apply (qval_le _ _ _ _ e) in H; [|lia|lia]. rewrite Z.sub_diag, Z.mul_1_r in H.
    apply div_rne_bound; [apply Z.pow_pos_nonneg; lia | lia].
Qed.

(** The rounded value is within the format. *)
Lemma x_of_value m e : m <> 0 -> below_max m e -> value f (x_of m e).
Proof.
  destruct Hf as [Hp He]. intros Hm H. pose proof (e_of_bound m e Hm H).
  pose proof (mantissa_bound m e). unfold x_of. destruct (Z.eqb_spec (Z.abs (m_of m e)) (2 ^ prec f)).
  - assert (e_of m e <> emax f - prec f).
    { intro Ht. pose proof (at_top m e Hm H Ht). lia. }
    destruct (half_pow _ e0) as [_ Hh]. split; [|lia].
    rewrite Hh. apply Z.pow_lt_mono_r; lia.
  - split; lia.
Qed.

Lemma x_of_qval m e : exists n g, x_of m e = Fin n g /\ (qval n g == qval (m_of m e) (e_of m e))%Q.
Proof.
  unfold x_of. destruct (Z.eqb_spec (Z.abs (m_of m e)) (2 ^ prec f)); eexists _, _; (split; [reflexivity|]); [|reflexivity].
  rewrite (scaled (m_of m e / 2) _ (e_of m e)) by lia.
  replace (e_of m e + 1 - e_of m e) with 1 by lia. destruct (half_pow _ e0) as [H2 _].
  rewrite Z.pow_1_r, Z.mul_comm, H2. reflexivity.
Qed.

(** Every value of the format is at most fmax in magnitude. *)
Lemma value_below m e : finite_value f m e -> below_max m e.
Proof.
  intros [H1 H2]. unfold below_max. rewrite qabs_qval. rewrite (qval_le _ _ _ _ e) by lia.
  rewrite Z.sub_diag, Z.mul_1_r.
  assert (0 < 2 ^ (emax f - prec f - e)) by (apply Z.pow_pos_nonneg; lia). nia.
Qed.

Lemma round_eq m e : m <> 0 -> below_max m e -> round f m e = x_of m e.
Proof.
  intros Hm H. unfold round. destruct (Z.eqb_spec m 0); [contradiction|].
  fold (e_of m e). fold (m_of m e). fold (x_of m e).
  assert (Hv : value f (x_of m e)) by now apply x_of_value.
  assert (Hfl : flt (fmax f) (if Z.abs (m_of m e) =? 2 ^ prec f then Fin (Z.abs (m_of m e) / 2) (e_of m e + 1)
                  else Fin (Z.abs (m_of m e)) (e_of m e)) = false).
  { unfold fmax. revert Hv. unfold x_of.
    destruct (Z.eqb_spec (Z.abs (m_of m e)) (2 ^ prec f)) as [Heq|_]; intro Hv.
    - apply flt_fin_f. pose proof (value_below _ _ Hv) as Hb. unfold below_max in Hb.
      rewrite qabs_qval in Hb. destruct (half_pow _ Heq) as [H2 Habs].
      assert (Ha : Z.abs (m_of m e) / 2 = Z.abs (m_of m e / 2)).
      { replace (Z.abs (m_of m e)) with (Z.abs (m_of m e / 2) * 2); [apply Z.div_mul; lia | lia]. }
      now rewrite Ha.
    - apply flt_fin_f. pose proof (value_below _ _ Hv) as Hb. unfold below_max in Hb.
      now rewrite qabs_qval in Hb. }
  now rewrite Hfl.
Qed.

Lemma dist_scaled m e n h g : g <= e -> g <= h ->
  (Qabs (qval m e - qval n h) == inject_Z (Z.abs (m * 2 ^ (e - g) - n * 2 ^ (h - g))) * (2 # 1) ^ g)%Q.
Proof.
  intros. rewrite (scaled m e g), (scaled n h g) by lia.
  setoid_replace (inject_Z (m * 2 ^ (e - g)) * (2 # 1) ^ g - inject_Z (n * 2 ^ (h - g)) * (2 # 1) ^ g)%Q
    with (inject_Z (m * 2 ^ (e - g) - n * 2 ^ (h - g)) * (2 # 1) ^ g)%Q.
  - fold (qval (m * 2 ^ (e - g) - n * 2 ^ (h - g)) g). now rewrite qabs_qval.
  - generalize (m * 2 ^ (e - g)) (n * 2 ^ (h - g)). intros a c. unfold Z.sub.
    rewrite inject_Z_plus, inject_Z_opp. ring.
Qed.

Lemma dist_le m e n1 h1 n2 h2 g : g <= e -> g <= h1 -> g <= h2 ->
  Z.abs (m * 2 ^ (e - g) - n1 * 2 ^ (h1 - g)) <= Z.abs (m * 2 ^ (e - g) - n2 * 2 ^ (h2 - g)) ->
  (Qabs (qval m e - qval n1 h1) <= Qabs (qval m e - qval n2 h2))%Q.
Proof.
  intros. rewrite (dist_scaled m e n1 h1 g), (dist_scaled m e n2 h2 g) by lia.
  now apply scale_le.
Qed.

(** The distance to the rounded value is least among the multiples of 2^e'. *)
Lemma m_of_near m e k h : e_of m e <= h ->
  (Qabs (qval m e - qval (m_of m e) (e_of m e)) <= Qabs (qval m e - qval k h))%Q.
Proof.
  intro Hh. unfold m_of. set (e' := e_of m e) in *. destruct (Z.leb_spec e' e).
  - rewrite (scaled m e e') at 1 by lia. fold (qval (m * 2 ^ (e - e')) e').
    setoid_replace (qval (m * 2 ^ (e - e')) e' - qval (m * 2 ^ (e - e')) e')%Q with 0%Q by ring.
    apply Qabs_nonneg.
  - apply dist_le with e; try lia. rewrite Z.sub_diag, Z.pow_0_r, Z.mul_1_r.
    rewrite (Z.mul_comm (div_rne _ _)).
    replace (k * 2 ^ (h - e)) with (2 ^ (e' - e) * (k * 2 ^ (h - e'))).
    + apply div_rne_nearest. apply Z.pow_pos_nonneg; lia.
    + replace (h - e) with ((e' - e) + (h - e')) by lia. rewrite pow_split by lia. ring.
Qed.

Lemma m_of_nearest m e n h : m <> 0 -> finite_value f n h ->
  (Qabs (qval m e - qval (m_of m e) (e_of m e)) <= Qabs (qval m e - qval n h))%Q.
Proof.
  destruct Hf as [Hp He]. intros Hm [Hn Hh]. destruct (Z.le_gt_cases (e_of m e) h) as [H | H]; [now apply m_of_near|].
  (* y has a smaller exponent, so it is smaller than 2^(prec-1) * 2^e' in magnitude *)
  set (e' := e_of m e) in *.
  assert (He' : e' = e + (Z.log2 (Z.abs m) + 1) - prec f) by (unfold e', e_of in *; lia).
  pose proof (abs_log2 m Hm) as [Hl _]. pose proof (Z.log2_nonneg (Z.abs m)) as Hl0.
  set (l := Z.log2 (Z.abs m)) in *.
  set (s := if m <? 0 then -1 else 1).
  apply Qle_trans with (Qabs (qval m e - qval (s * 2 ^ (prec f - 1)) e')); [now apply m_of_near|].
  set (g := Z.min e h).
  apply dist_le with g; try lia.
  replace (s * 2 ^ (prec f - 1) * 2 ^ (e' - g)) with (s * 2 ^ (l + (e - g))).
  2: { rewrite <- Z.mul_assoc, <- pow_split by lia. do 2 f_equal. lia. }
  assert (HB : Z.abs n * 2 ^ (h - g) <= 2 ^ (l + (e - g))).
  { apply Z.le_trans with (2 ^ prec f * 2 ^ (h - g)).
    - apply Z.mul_le_mono_nonneg_r; [apply Z.pow_nonneg; lia | lia].
    - rewrite <- pow_split by lia. apply Z.pow_le_mono_r; lia. }
  assert (HA : 2 ^ (l + (e - g)) <= Z.abs m * 2 ^ (e - g)).
  { rewrite pow_split by lia. apply Z.mul_le_mono_nonneg_r; [apply Z.pow_nonneg; lia | lia]. }
  assert (Hnn : Z.abs (n * 2 ^ (h - g)) <= 2 ^ (l + (e - g))).
  { now rewrite Z.abs_mul, (Z.abs_eq (2 ^ _)) by (apply Z.pow_nonneg; lia). }
  assert (Hmm : 2 ^ (l + (e - g)) <= Z.abs (m * 2 ^ (e - g))).
  { now rewrite Z.abs_mul, (Z.abs_eq (2 ^ _)) by (apply Z.pow_nonneg; lia). }
  assert (Hs : (m < 0 /\ m * 2 ^ (e - g) <= 0 /\ s = -1) \/ (0 <= m /\ 0 <= m * 2 ^ (e - g) /\ s = 1)).
  { assert (0 < 2 ^ (e - g)) by (apply Z.pow_pos_nonneg; lia). unfold s.
    destruct (Z.ltb_spec m 0); [left | right]; repeat split; try lia; nia. }
  generalize dependent (2 ^ (l + (e - g))). intros B HB0 HA0 HnB HmB.
  destruct Hs as [(_ & Hs1 & ->) | (_ & Hs1 & ->)]; lia.
Qed.

(** Rounding gives the nearest value of the format. *)
Lemma round_nearest m e : below_max m e -> nearest_float f (qval m e) (round f m e).
Proof.
  intro H. destruct (Z.eq_dec m 0) as [-> | Hm].
  - exists 0, (emin f). split; [reflexivity|]. split.
    + destruct Hf. split; [cbn; apply b_pos | unfold emin; lia].
    + intros n g _. setoid_replace (qval 0 e - qval 0 (emin f))%Q with 0%Q; [apply Qabs_nonneg|].
      unfold qval. ring.
  - rewrite round_eq by assumption. destruct (x_of_qval m e) as (n & g & Hx & Hq).
    pose proof (x_of_value m e Hm H) as Hv. rewrite Hx in Hv. exists n, g.
    split; [exact Hx|]. split; [exact Hv|]. intros n' g' Hn'. rewrite Hq. now apply m_of_nearest.
Qed.

(** A value of the format is unchanged. *)
Lemma nearest_exact q n g x : finite_value f n g -> (q == qval n g)%Q -> nearest_float f q x ->
  exists m e, x = Fin m e /\ finite_value f m e /\ (qval m e == q)%Q.
Proof.
  intros Hv Hq (m & e & -> & Hm & Hn). exists m, e. split; [reflexivity|]. split; [exact Hm|].
  specialize (Hn n g Hv). setoid_replace (q - qval n g)%Q with 0%Q in Hn by (rewrite Hq; ring).
  change (Qabs 0) with 0%Q in Hn.
  destruct (Qlt_le_dec (q - qval m e) 0).
  - rewrite Qabs_neg in Hn by lra. lra.
  - rewrite Qabs_pos in Hn by lra. lra.
Qed.

Lemma round_exact m e n g : finite_value f n g -> (qval m e == qval n g)%Q ->
  exists m' e', round f m e = Fin m' e' /\ finite_value f m' e' /\ (qval m' e' == qval m e)%Q.
Proof.
  intros Hv Hq. eapply nearest_exact; [exact Hv | exact Hq |]. apply round_nearest.
  unfold below_max. rewrite Hq. now apply value_below.
Qed.

(** An integer of at most [prec] bits is exactly representable. *)
Lemma int_exact z : Z.abs z <= 2 ^ prec f ->
  exists m e, round f z 0 = Fin m e /\ finite_value f m e /\ (qval m e == inject_Z z)%Q.
Proof.
  destruct Hf as [Hp He]. intro H.
  assert (Hex : exists n g, finite_value f n g /\ (qval z 0 == qval n g)%Q).
  { destruct (Z.eq_dec (Z.abs z) (2 ^ prec f)) as [Heq | Hne].
    - destruct (half_pow _ Heq) as [H2 Hh]. exists (z / 2), 1. split.
      + split; [rewrite Hh; apply Z.pow_lt_mono_r; lia | unfold emin; lia].
      + rewrite (scaled (z / 2) 1 0) by lia. cbn [Z.sub Z.opp Z.add].
        rewrite Z.pow_1_r, Z.mul_comm, H2. reflexivity.
    - exists z, 0. split; [split; [lia | unfold emin; lia] | reflexivity]. }
  destruct Hex as (n & g & Hv & Hq). destruct (round_exact z 0 n g Hv Hq) as (m & e & H1 & H2 & H3).
  exists m, e. split; [exact H1|]. split; [exact H2|]. now rewrite H3, qval_0.
Qed.
End Round.
