From Coq Require Import QArith Qround.
From Verif Require Import Base Ints IntsLemmas FloatSatModel FloatSatSpec FloatSatProofs RolloverModel RolloverSpec RolloverProofs RollMixModel RollMixSpec.
Open Scope Z_scope.

Lemma cong_refl w a : congruent w a a.
Proof. exists 0. lia. Qed.
Lemma cong_trans w a b c : congruent w a b -> congruent w b c -> congruent w a c.
Proof. intros [k ->] [l ->]. exists (k + l). lia. Qed.
Lemma cong_mod w w' a : 0 <= w <= w' -> congruent w (a mod 2 ^ w') a.
Proof.
  intros H. pose proof (pow2_pos w' ltac:(lia)). exists (- (a / 2 ^ w') * 2 ^ (w' - w)).
  rewrite <- Z.mul_assoc, <- Z.pow_add_r by lia. replace (w' - w + w) with w' by lia.
  pose proof (Z.div_mod a (2 ^ w')). lia.
Qed.
Lemma cong_cast w t a : 0 <= w <= width t -> congruent w (cast t a) a.
Proof.
  intros H. pose proof (cong_mod w (width t) a H) as M. unfold cast.
  destruct (signed t && (2 ^ (width t - 1) <=? a mod 2 ^ width t)); [|exact M].
  refine (cong_trans _ _ _ _ _ M). exists (- 2 ^ (width t - w)).
  replace (2 ^ width t) with (2 ^ (width t - w) * 2 ^ w); [lia|].
  rewrite <- Z.pow_add_r by lia. f_equal. lia.
Qed.
Lemma cong_add w a b c d : congruent w a c -> congruent w b d -> congruent w (a + b) (c + d).
Proof. intros [k ->] [l ->]. exists (k + l). lia. Qed.
Lemma cong_sub w a b c d : congruent w a c -> congruent w b d -> congruent w (a - b) (c - d).
Proof. intros [k ->] [l ->]. exists (k - l). lia. Qed.
Lemma cong_mul w a b c d : congruent w a c -> congruent w b d -> congruent w (a * b) (c * d).
Proof. intros [k ->] [l ->]. exists (k * d + l * c + k * l * 2 ^ w). ring. Qed.
Lemma cong_opp w a c : congruent w a c -> congruent w (- a) (- c).
Proof. intros [k ->]. exists (- k). ring. Qed.
Lemma cong_eq w a b : 0 < w -> 0 <= a < 2 ^ w -> congruent w a b -> a = b mod 2 ^ w.
Proof. intros H R [k ->]. rewrite <- (Z.mod_small _ _ R). now rewrite Z_mod_plus_full. Qed.

Definition fits (t : ty) (v : Z) : Prop :=
  match t with Roll w _ => 0 <= v < 2 ^ w | _ => True end.

Lemma resolve_roll o a b t : resolve o a b = Is t ->
  exists w id, a = Roll w id /\ b = Roll w id.
Proof.
  unfold resolve. destruct a as [|a i|w i], b as [|b j|w' j]; cbn; try (destruct o; discriminate);
    rewrite ?Z.eqb_refl, ?Nat.eqb_refl; cbn; try discriminate.
  - rewrite (Z.eqb_sym w' w), (Nat.eqb_sym j i).
    destruct ((w =? w') && Nat.eqb i j) eqn:E; cbn; [|discriminate].
    apply Bool.andb_true_iff in E as [E1 E2]. apply Z.eqb_eq in E1. apply Nat.eqb_eq in E2. subst. eauto.
Qed.
Lemma resolve_same o w id : resolve o (Roll w id) (Roll w id) = friend o (Roll w id).
Proof. unfold resolve. cbn. now rewrite Z.eqb_refl, Nat.eqb_refl. Qed.

Lemma friend_roll o c t : friend o c = Is t -> t = c \/ t = Bool.
Proof. destruct o; cbn; intros H; inversion H; auto. Qed.
Lemma type_width P e w id : type_of e = Is (Roll w id) -> widths P e -> P w.
Proof.
  revert w id. induction e as [a i v|w0 i n|w0 i e IH|a i e IH|e IH|e IH|o x IHx y IHy]; cbn; intros w id T W.
  - discriminate.
  - injection T as <- <-. exact W.
  - destruct (type_of e); try discriminate. injection T as <- <-. apply W.
  - destruct (type_of e); try discriminate. destruct (cast_to _ _ _); discriminate.
  - destruct (type_of e) as [[| |]| | |]; discriminate.
  - destruct (type_of e) as [[| |]| | |]; try discriminate. injection T as <- <-. now apply (IH _ _ eq_refl).
  - destruct (type_of x) as [a| | |] eqn:X; try discriminate. destruct (type_of y) as [b| | |] eqn:Y; try discriminate.
    destruct (resolve_roll _ _ _ _ T) as (w1 & i1 & -> & ->). rewrite resolve_same in T.
    apply friend_roll in T as [[= -> ->]|T]; [|discriminate]. now apply (IHx _ _ eq_refl).
Qed.

Lemma bin_type o x y t : type_of (Bin o x y) = Is t ->
  exists w id, type_of x = Is (Roll w id) /\ type_of y = Is (Roll w id) /\ friend o (Roll w id) = Is t.
Proof.
  cbn. destruct (type_of x) as [a| | |] eqn:X; try discriminate. destruct (type_of y) as [b| | |] eqn:Y; try discriminate.
  intros T. destruct (resolve_roll _ _ _ _ T) as (w1 & i1 & -> & ->). rewrite resolve_same in T. eauto.
Qed.

Lemma eval_stands iw env w e z : 0 < w -> (forall w' id n, 0 < w' -> 0 <= env w' id n < 2 ^ w') ->
  stands_for env e z -> forall t, type_of e = Is t ->
  widths (fun w' => w <= w' /\ adds iw w') e ->
  (multiplies e -> widths (multiplies_in iw) e) ->
  exists v, eval iw env e = Some (VI v) /\ congruent w v z /\ fits t v.
Proof.
  intros Hw Henv S. induction S as [t0 id z R|w0 id n|w0 id e z S IH|t0 id e z S IH|e z S IH|e z S IH
    |x y a b S1 IH1 S2 IH2|x y a b S1 IH1 S2 IH2|x y a b S1 IH1 S2 IH2]; intros t T W M.
  - injection T as <-. exists z. split; [reflexivity|]. split; [apply cong_refl|exact Logic.I].
  - injection T as <-. eexists. split; [reflexivity|]. split; [apply cong_refl|]. apply Henv. cbn in W. unfold adds in W. lia.
  - cbn in T, W |- *. destruct (type_of e) as [u| | |] eqn:E; try discriminate. injection T as <-. destruct W as [[W1 W2] W].
    destruct (IH u eq_refl W) as (v & V & C & _).
    { intros Hm. now destruct (M (mu_make _ _ _ Hm)). }
    rewrite V. exists (cast (Uint w0) v). split; [reflexivity|]. split.
    + refine (cong_trans _ _ _ _ _ C). apply cong_cast. cbn. lia.
    + rewrite cast_U. apply Z.mod_pos_bound, pow2_pos. lia.
  - cbn in T, W |- *. destruct (type_of e) as [u| | |] eqn:E; try discriminate. fold (cast_to (I t0) id u) in T.
    destruct (cast_to (I t0) id u) eqn:K; [|discriminate].
    injection T as <-. destruct W as [[W1 W2] W].
    destruct (IH u eq_refl W) as (v & V & C & _).
    { intros Hm. now destruct (M (mu_as _ _ _ Hm)). }
    rewrite V. exists (cast t0 v). split; [reflexivity|]. split; [|exact Logic.I].
    refine (cong_trans _ _ _ _ _ C). apply cong_cast. lia.
  - cbn in T, W |- *. destruct (type_of e) as [u| | |] eqn:E; try discriminate. destruct u as [|a i|w0 i]; try discriminate. injection T as <-.
    destruct (IH _ eq_refl W) as (v & V & C & _); [intros Hm; exact (M (mu_under _ Hm))|]. exists v. split; [exact V|]. now split.
  - cbn in T, W |- *. destruct (type_of e) as [u| | |] eqn:E; try discriminate. destruct u as [|a i|w0 i]; try discriminate. injection T as <-.
    destruct (IH _ eq_refl W) as (v & V & C & F); [intros Hm; exact (M (mu_neg _ Hm))|]. cbn in F.
    destruct (type_width _ e w0 i E W) as [L A].
    destruct (rollover_ops w0 iw v v 0 A F F) as (_ & N & _). rewrite V, N. cbn [option_map].
    eexists. split; [reflexivity|]. split.
    + eapply cong_trans; [apply cong_mod; lia|]. now apply cong_opp.
    + apply Z.mod_pos_bound, pow2_pos. lia.
  - destruct (bin_type _ _ _ _ T) as (w0 & i & X & Y & Q). injection Q as <-. cbn in W |- *. destruct W as [Wx Wy].
    destruct (IH1 _ X Wx) as (v1 & V1 & C1 & F1); [intros Hm; exact (proj1 (M (mu_left _ _ _ Hm)))|].
    destruct (IH2 _ Y Wy) as (v2 & V2 & C2 & F2); [intros Hm; exact (proj2 (M (mu_right _ _ _ Hm)))|]. cbn in F1, F2.
    destruct (type_width _ x w0 i X Wx) as [L A].
    destruct (rollover_ops w0 iw v1 v2 0 A F1 F2) as (_ & _ & _ & _ & _ & _ & N & _). rewrite X, V1, V2. cbn [apply_op]. rewrite N. cbn [option_map].
    eexists. split; [reflexivity|]. split.
    + eapply cong_trans; [apply cong_mod; lia|]. now apply cong_add.
    + apply Z.mod_pos_bound, pow2_pos. lia.
  - destruct (bin_type _ _ _ _ T) as (w0 & i & X & Y & Q). injection Q as <-. cbn in W |- *. destruct W as [Wx Wy].
    destruct (IH1 _ X Wx) as (v1 & V1 & C1 & F1); [intros Hm; exact (proj1 (M (mu_left _ _ _ Hm)))|].
    destruct (IH2 _ Y Wy) as (v2 & V2 & C2 & F2); [intros Hm; exact (proj2 (M (mu_right _ _ _ Hm)))|]. cbn in F1, F2.
    destruct (type_width _ x w0 i X Wx) as [L A].
    destruct (rollover_ops w0 iw v1 v2 0 A F1 F2) as (_ & _ & _ & _ & _ & _ & _ & N & _). rewrite X, V1, V2. cbn [apply_op]. rewrite N. cbn [option_map].
    eexists. split; [reflexivity|]. split.
    + eapply cong_trans; [apply cong_mod; lia|]. now apply cong_sub.
    + apply Z.mod_pos_bound, pow2_pos. lia.
  - destruct (bin_type _ _ _ _ T) as (w0 & i & X & Y & Q). injection Q as <-. pose proof (M (mu_here _ _)) as [Mx My].
    cbn in W |- *. destruct W as [Wx Wy].
    destruct (IH1 _ X Wx (fun _ => Mx)) as (v1 & V1 & C1 & F1).
    destruct (IH2 _ Y Wy (fun _ => My)) as (v2 & V2 & C2 & F2). cbn in F1, F2.
    destruct (type_width _ x w0 i X Wx) as [L A]. pose proof (type_width _ x w0 i X Mx) as K.
    destruct (rollover_ops w0 iw v1 v2 0 A F1 F2) as (_ & _ & _ & _ & _ & _ & _ & _ & N & _). rewrite X, V1, V2. cbn [apply_op]. rewrite (N K). cbn [option_map].
    eexists. split; [reflexivity|]. split.
    + eapply cong_trans; [apply cong_mod; lia|]. now apply cong_mul.
    + apply Z.mod_pos_bound, pow2_pos. lia.
Qed.

Lemma cong_decides w x y a b : 0 < w -> 0 <= x < 2 ^ w -> 0 <= y < 2 ^ w -> congruent w x a -> congruent w y b ->
  (r_eq x y = true <-> congruent w a b).
Proof.
  intros Hw X Y A B. unfold r_eq. rewrite Z.eqb_eq.
  rewrite (cong_eq w x a Hw X A), (cong_eq w y b Hw Y B). split.
  - intros E. exists (a / 2 ^ w - b / 2 ^ w). pose proof (pow2_pos w ltac:(lia)).
    pose proof (Z.div_mod a (2 ^ w)). pose proof (Z.div_mod b (2 ^ w)). lia.
  - intros [k ->]. now rewrite Z_mod_plus_full.
Qed.
