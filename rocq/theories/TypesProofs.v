From Verif Require Import Base TypesModel TypesSpec.
Open Scope ub_scope.

Lemma add_const_const t : wf t = true -> is_reference t = false ->
  is_const (add_const t) = match sh t with Func _ _ _ _ _ _ _ => false | _ => true end.
Proof.
  revert t. fix IH 1. intros [c v s] W R. destruct s; cbn in *; try reflexivity; try discriminate.
  - apply andb_true_iff in W as [W E]. apply andb_true_iff in W as [W W'].
    rewrite (IH t W'); [|now destruct t as [? ? []]]. destruct t as [? ? s]. cbn in *. now destruct s.
  - now destruct c.
Qed.
Lemma is_function t : wf t = true -> is_function_v t = true <-> function_type t.
Proof.
  intros W. unfold is_function_v. destruct (is_reference t) eqn:R.
  - cbn. split; [discriminate|]. intros (r & a & e & fc & fv & q & n & ->). discriminate.
  - rewrite (add_const_const t W R). cbn. destruct t as [c v s].
    split.
    + destruct s; cbn in *; try discriminate. intros _. apply andb_true_iff in W as [Wc Wv].
      destruct c, v; try discriminate. now repeat eexists.
    + now intros (r & a & e & fc & fv & q & n & [= -> -> ->]).
Qed.

Lemma class_iff t : is_class t = true <-> class_type t.
Proof.
  split; [|now intros []]. destruct t as [c v []]; cbn; try discriminate; intros _; constructor.
Qed.
Lemma function_object has_call final t : (forall s, is_class (plain s) = true -> final s = false) ->
  is_function_object_v has_call final t = Some (if is_class t then has_call (sh t) else false).
Proof.
  intros F. unfold is_function_object_v. destruct (is_class t) eqn:C; [|reflexivity].
  replace (sh (remove_cvref t)) with (sh t) by (destruct t as [c v []]; try discriminate; reflexivity).
  now rewrite F by (destruct t as [c v []]; try discriminate; reflexivity).
Qed.
Lemma function_object_final has_call final t : is_class t = true -> final (sh t) = true ->
  is_function_object_v has_call final t = None.
Proof.
  intros C F. unfold is_function_object_v. rewrite C.
  replace (sh (remove_cvref t)) with (sh t) by (destruct t as [c v []]; try discriminate; reflexivity). now rewrite F.
Qed.
Lemma function_object_iff has_call final t : (forall s, class_type (plain s) -> final s = false) ->
  is_function_object_v has_call final t <> None /\
  (is_function_object_v has_call final t = Some true <-> class_type t /\ has_call (sh t) = true).
Proof.
  intros F. rewrite function_object by (intros s; rewrite class_iff; apply F). rewrite <- class_iff.
  destruct (is_class t); cbn; (split; [discriminate|]); [|now split; [discriminate|intros []]].
  destruct (has_call _); cbn; intuition congruence.
Qed.
Lemma callable_iff has_call final t : wf t = true -> (forall s, class_type (plain s) -> final s = false) ->
  is_callable_v has_call final t = Some true <-> function_type t \/ (class_type t /\ has_call (sh t) = true).
Proof.
  intros W F. unfold is_callable_v. rewrite function_object by (intros s; rewrite class_iff; apply F). rewrite <- class_iff. rewrite <- is_function by exact W.
  destruct (is_function_v t) eqn:E1, (is_class t) eqn:E2, (has_call (sh t)); cbn; intuition congruence.
Qed.

Lemma specialization_lref u r template : lref u = Some r ->
  (match r with Ty _ _ (LRef (Ty _ false (TypeInst t _))) => N.eqb t template | _ => false end = true <->
   specialization u template /\ ~ volatile u).
Proof.
  assert (G : forall w, match plain (LRef w) with Ty _ _ (LRef (Ty _ false (TypeInst t _))) => N.eqb t template | _ => false end = true <->
     (exists args, remove_cv w = plain (TypeInst template args)) /\ ~ is_volatile w = true).
  { intros [c v s]. unfold plain. split.
    - destruct v; [discriminate|]. destruct s; try discriminate. intros H. apply N.eqb_eq in H as ->. split; [now eexists|discriminate].
    - intros ([args E] & V). destruct s; cbn in E; try discriminate. injection E as -> ->. cbn in V. destruct v; [now destruct V|]. now rewrite N.eqb_refl. }
  unfold specialization, volatile, remove_cvref, remove_reference. unfold lref.
  destruct u as [c v s]. cbn [sh]. destruct s; cbn [referable qualified_function negb]; try discriminate;
    try (intros [= <-]; apply G).
  destruct (fc || fv || _); cbn; [discriminate|]. intros [= <-]. apply G.
Qed.
Lemma is_specialization u template : lref u <> None ->
  is_specialization_of_v u template = Some true <-> specialization u template /\ ~ volatile u.
Proof.
  intros N. unfold is_specialization_of_v. destruct (lref u) as [r|] eqn:E; [|congruence].
  rewrite <- (specialization_lref u r template E). split; [intros [= H]; exact H|intros H; now rewrite H].
Qed.
Lemma value_specialization_lref u r template : lref u = Some r ->
  (match r with Ty _ _ (LRef (Ty _ false (ValueInst t _))) => N.eqb t template | _ => false end = true <->
   value_specialization u template /\ ~ volatile u).
Proof.
  assert (G : forall w, match plain (LRef w) with Ty _ _ (LRef (Ty _ false (ValueInst t _))) => N.eqb t template | _ => false end = true <->
     (exists args, remove_cv w = plain (ValueInst template args)) /\ ~ is_volatile w = true).
  { intros [c v s]. unfold plain. split.
    - destruct v; [discriminate|]. destruct s; try discriminate. intros H. apply N.eqb_eq in H as ->. split; [now eexists|discriminate].
    - intros ([args E] & V). destruct s; cbn in E; try discriminate. injection E as -> ->. cbn in V. destruct v; [now destruct V|]. now rewrite N.eqb_refl. }
  unfold value_specialization, volatile, remove_cvref, remove_reference. unfold lref.
  destruct u as [c v s]. cbn [sh]. destruct s; cbn [referable qualified_function negb]; try discriminate;
    try (intros [= <-]; apply G).
  destruct (fc || fv || _); cbn; [discriminate|]. intros [= <-]. apply G.
Qed.
Lemma is_value_specialization u template : lref u <> None ->
  is_value_specialization_of_v u template = Some true <-> value_specialization u template /\ ~ volatile u.
Proof.
  intros N. unfold is_value_specialization_of_v. destruct (lref u) as [r|] eqn:E; [|congruence].
  rewrite <- (value_specialization_lref u r template E). split; [intros [= H]; exact H|intros H; now rewrite H].
Qed.
Lemma specialization_total u : lref u <> None <-> (sh u <> Void /\ qualified_function (sh u) = false).
Proof.
  unfold lref. destruct u as [c v s]. cbn [sh]. destruct s; cbn [referable]; try (split; [now intuition|now intros _]); try (split; [now intuition congruence|now intuition congruence]).
  destruct (qualified_function _); cbn; intuition congruence.
Qed.

(** ** function_traits *)
Lemma signature_ok call_op r a t o : callable call_op r a t o -> is_class t = false -> is_reference t = false ->
  signature_traits t = Some {| return_type := r; arg_types := a; obj_t := o |}.
Proof.
  intros H Nc Nr. inversion H as [|c v|C fc fv q o' Hm|t0 m0 o0 Hc]; subst; try reflexivity; try (now destruct c, v).
  { cbn. inversion Hm as [c v s|C' c' v' o1 Hm1|C' c' v' o1 Hm1]; subst; try inversion Hm1; reflexivity. }
  exfalso. apply class_iff in Hc. destruct t as [c v []]; cbn in *; discriminate.
Qed.
Lemma traits_ok call_op r a t o : callable call_op r a t o ->
  function_traits call_op t = Some {| return_type := r; arg_types := a; obj_t := o |}.
Proof.
  intros H. destruct (is_class t || is_reference t) eqn:E.
  - inversion H as [|c v|C fc fv q o' Hm|t0 m0 o0 Hc Hm Hcall Nc Nr]; subst; try discriminate.
    apply class_iff in Hc. rewrite <- class_iff in Nc. apply not_true_is_false in Nc.
    assert (N : signature_traits t = None) by (destruct t as [c v []]; cbn in *; try discriminate; now destruct c, v).
    unfold function_traits. rewrite N, Hc, Hm. now apply (signature_ok call_op).
  - apply orb_false_iff in E as [Ec Er]. unfold function_traits. now rewrite (signature_ok call_op r a t o H Ec Er).
Qed.
Lemma decay_storable t : wf t = true -> storable (decay t).
Proof.
  intros W. assert (G : wf (remove_reference t) = true /\ is_reference (remove_reference t) = false).
  { destruct t as [c v s]; destruct s; cbn [remove_reference sh]; try (now split).
    all: cbn in W; apply andb_true_iff in W as [W1 W2]; split; [exact W2|].
    all: apply andb_true_iff in W1 as [_ W1]; destruct t as [? ? []]; cbn in *; congruence. }
  unfold decay. destruct (remove_reference t) as [c v s]. destruct G as [W' R]. clear W t.
  destruct s; cbn [sh] in *; try discriminate; try (now repeat split).
  cbn in W'. destruct c, v; try discriminate. cbn [referable].
  destruct (qualified_function _) eqn:E; cbn [negb]; repeat split. exact E.
Qed.

Lemma not_reference_r t : is_reference t = false -> remove_reference t = t.
Proof. destruct t as [c v []]; try reflexivity; discriminate. Qed.
Lemma decay_decays t : wf t = true -> decays t (decay t).
Proof.
  assert (G : forall t, wf t = true -> is_reference t = false -> decays t (match sh t with
    | Array _ e => plain (Ptr e) | Func _ _ _ _ _ _ _ => if referable (sh t) then plain (Ptr t) else t | _ => remove_cv t end)).
  { intros [c v s] W R. destruct s; cbn [sh]; try discriminate; try (now constructor).
    cbn in W. destruct c, v; try discriminate. cbn [referable].
    destruct (qualified_function _) eqn:E; cbn [negb]; cbn in E.
    - constructor. destruct fc, fv, q; auto; try discriminate; right; right; discriminate.
    - destruct fc, fv, q; try discriminate. constructor. }
  intros W. unfold decay. destruct (is_reference t) eqn:R.
  - destruct t as [c v s]. destruct s; try discriminate; cbn in W;
      apply andb_true_iff in W as [W1 W2]; apply andb_true_iff in W1 as [Wc W1]; destruct c, v; try discriminate;
      cbn [remove_reference sh]; constructor; try (now apply G; [|destruct t as [? ? []]; cbn in *; congruence]); destruct t as [? ? []]; cbn in *; congruence.
  - replace (remove_reference t) with t by (destruct t as [? ? []]; cbn in *; congruence). now apply G.
Qed.
Lemma decays_fun t u : wf t = true -> decays t u -> u = decay t.
Proof.
  intros W D. induction D as [c v n e|r a e n|r a e fc fv q n H|c v s H|t u R D IH|t u R D IH]; try reflexivity.
  - unfold decay. cbn [remove_reference sh plain referable].
    replace (qualified_function _) with true; [reflexivity|]. cbn. destruct H as [->|[->|H]]; [reflexivity|now rewrite orb_true_r|].
    destruct q; [congruence| |]; now rewrite orb_true_r.
  - destruct s; try contradiction; reflexivity.
  - cbn in W. apply andb_true_iff in W as [_ W]. rewrite (IH W). unfold decay. cbn [remove_reference sh plain].
    now rewrite (not_reference_r t R).
  - cbn in W. apply andb_true_iff in W as [_ W]. rewrite (IH W). unfold decay. cbn [remove_reference sh plain].
    now rewrite (not_reference_r t R).
Qed.
Lemma decays_args l : forallb wf l = true -> Forall2 decays l (map decay l).
Proof.
  induction l as [|t l IH]; cbn; [constructor|]. intros W. apply andb_true_iff in W as [W1 W2].
  constructor; [now apply decay_decays|now apply IH].
Qed.

(** ** shrink, expand *)
Lemma expand_shrink t : expand_t (shrink_t t) = Some (match call_type t with Some r => r | None => shrink_t t end).
Proof. unfold expand_t, shrink_t, unwrap, plain. destruct (call_type t); reflexivity. Qed.

(** ** get and structured bindings *)
Lemma lref_some t : is_reference t = false -> referable (sh t) = true -> lref t = Some (plain (LRef t)).
Proof. intros R H. unfold lref. destruct t as [c v s]. cbn [sh] in *. destruct s; try discriminate; try reflexivity. now rewrite H. Qed.
Lemma lref_gives t r : lref t = Some r <->
  (referable (sh t) = true /\ r = plain (LRef t)) \/ (exists c v u, (t = Ty c v (LRef u) \/ t = Ty c v (RRef u)) /\ r = plain (LRef u)).
Proof.
  unfold lref. destruct t as [c v s]. cbn [sh].
  destruct s; cbn [referable]; try (destruct (qualified_function _); cbn [negb]);
    (split; [intros H; first [discriminate | injection H as <-]; eauto 9
            | intros [[H ->]|(c' & v' & u & [E|E] & ->)]; first [discriminate | reflexivity | injection E as _ _ <-; reflexivity]]).
Qed.
Lemma rref_gives t r : rref t = Some r <->
  (referable (sh t) = true /\ r = plain (RRef t)) \/ (exists c v u, t = Ty c v (LRef u) /\ r = plain (LRef u)) \/ (exists c v u, t = Ty c v (RRef u) /\ r = plain (RRef u)).
Proof.
  unfold rref. destruct t as [c v s]. cbn [sh].
  destruct s; cbn [referable]; try (destruct (qualified_function _); cbn [negb]);
    (split; [intros H; first [discriminate | injection H as <-]; eauto 9
            | intros [[H ->]|[(c' & v' & u & E & ->)|(c' & v' & u & E & ->)]]; first [discriminate | reflexivity | injection E as _ _ <-; reflexivity]]).
Qed.
Lemma rref_some t : is_reference t = false -> referable (sh t) = true -> rref t = Some (plain (RRef t)).
Proof. intros R H. unfold rref. destruct t as [c v s]. cbn [sh] in *. destruct s; try discriminate; try reflexivity. now rewrite H. Qed.
Lemma add_const_ref t : is_reference (add_const t) = is_reference t.
Proof. destruct t as [c v []]; reflexivity. Qed.
Lemma add_const_referable t : referable (sh (add_const t)) = referable (sh t).
Proof. destruct t as [c v []]; reflexivity. Qed.
Lemma add_const_lref t c v u : add_const t = Ty c v (LRef u) <-> t = Ty c v (LRef u).
Proof. destruct t as [c' v' s]. destruct s; cbn; split; intros H; try discriminate; exact H. Qed.
Lemma add_const_rref t c v u : add_const t = Ty c v (RRef u) <-> t = Ty c v (RRef u).
Proof. destruct t as [c' v' s]. destruct s; cbn; split; intros H; try discriminate; exact H. Qed.
Lemma std_get_gives k t r : std_get k t = Some r <-> std_gives k t r.
Proof.
  assert (NL : ~ rvalue L) by (intros [H|H]; discriminate). assert (NC : ~ rvalue CL) by (intros [H|H]; discriminate).
  assert (YR : rvalue R) by now left. assert (YC : rvalue CR) by now right.
  assert (CLL : ~ const_tuple L) by (intros [H|H]; discriminate). assert (CRR : ~ const_tuple R) by (intros [H|H]; discriminate).
  assert (YL : const_tuple CL) by now left. assert (YQ : const_tuple CR) by now right.
  destruct k; cbn [std_get]; rewrite ?lref_gives, ?rref_gives, ?add_const_referable; split.
  - intros [[H ->]|(c & v & u & [->| ->] & ->)]; constructor; assumption.
  - intros H. inversion H; subst; try contradiction; [left|right|right]; eauto 9.
  - intros [[H ->]|(c & v & u & [E|E] & ->)]; [apply g_const; assumption|rewrite add_const_lref in E; subst; constructor; assumption|rewrite add_const_rref in E; subst; constructor; assumption].
  - intros H. inversion H; subst; try contradiction; [left|right|right]; eauto 9; exists c, v, u; rewrite add_const_lref, add_const_rref; auto.
  - intros [[H ->]|[(c & v & u & -> & ->)|(c & v & u & -> & ->)]]; constructor; assumption.
  - intros H. inversion H; subst; try contradiction; [left|right; left|right; right]; eauto 9.
  - intros [[H ->]|[(c & v & u & E & ->)|(c & v & u & E & ->)]]; [apply g_const_rvalue; assumption|rewrite add_const_lref in E; subst; constructor; assumption|rewrite add_const_rref in E; subst; constructor; assumption].
  - intros H. inversion H; subst; try contradiction; [left|right; left|right; right]; eauto 9; exists c, v, u; rewrite ?add_const_lref, ?add_const_rref; auto.
Qed.
Lemma not_reference t : is_reference t = false -> remove_reference t = t.
Proof. destruct t as [c v []]; try reflexivity; discriminate. Qed.
Lemma remove_cv_const t : is_const (remove_cv t) = false.
Proof. revert t. fix IH 1. intros [c v s]. destruct s; cbn; try reflexivity. apply IH. Qed.
Lemma remove_cv_volatile t : is_volatile (remove_cv t) = false.
Proof. revert t. fix IH 1. intros [c v s]. destruct s; cbn; try reflexivity. apply IH. Qed.
Lemma add_const_volatile t : is_volatile (add_const t) = is_volatile t.
Proof. revert t. fix IH 1. intros [c v s]. destruct s; cbn; try reflexivity. apply IH. Qed.
Lemma implb_refl b : implb b b = true.
Proof. now destruct b. Qed.

Lemma binding_unqualified ts f sc i t : nth_error ts i = Some t -> unqualified t ->
  let r := Some (if form_const f sc then add_const t else t) in
  stdx_binding ts f sc i = r /\ std_binding ts f sc i = r.
Proof.
  intros E (R & Cv & F). cbv zeta. unfold stdx_binding, std_binding, binding, std_tuple_element, std_element. rewrite E.
  rewrite (rref_some t R F). unfold remove_cvref. cbn [remove_reference sh plain]. rewrite Cv.
  set (e := if form_const f sc then add_const t else t).
  assert (Re : is_reference e = false) by (unfold e; destruct (form_const f sc); [rewrite add_const_ref|]; exact R).
  assert (Fe : referable (sh e) = true) by (unfold e; destruct (form_const f sc); [rewrite add_const_referable|]; exact F).
  rewrite (not_reference e Re).
  assert (B : forall x, x = plain (LRef e) \/ x = plain (RRef e) -> binds e x = Some true).
  { intros x [->| ->]; unfold binds; cbn [sh plain]; now rewrite !implb_refl. }
  assert (Gx : exists x y, get_type (form_category f sc) t = Some x /\ std_get (form_category f sc) t = Some y /\
     (x = plain (LRef e) \/ x = plain (RRef e)) /\ (y = plain (LRef e) \/ y = plain (RRef e))).
  { unfold e in *. destruct f, sc; cbn [form_category form_const get_type std_get] in *;
      rewrite ?(lref_some _ Re Fe), ?(rref_some _ Re Fe); do 2 eexists; repeat split; auto. }
  destruct Gx as (x & y & Ex & Ey & Hx & Hy). rewrite Ex, Ey, (B x Hx), (B y Hy). now split.
Qed.
(** Elements that are const, or references to const. *)
Lemma binding_const ts f sc i t : nth_error ts i = Some t -> wf t = true -> sh t <> Void -> qualified_function (sh t) = false ->
  is_const (remove_reference t) = true -> form_const f sc = false ->
  stdx_binding ts f sc i = None /\ std_binding ts f sc i = Some t.
Proof.
  intros E W Nv Nq C Fc. unfold stdx_binding, std_binding, binding, std_tuple_element, std_element. rewrite E, Fc.
  assert (H : exists u, remove_reference t = u /\ (exists x, rref t = Some x /\ (x = plain (LRef u) \/ x = plain (RRef u))) /\
     exists y, get_type (form_category f sc) t = Some y /\ std_get (form_category f sc) t = Some y /\ (y = plain (LRef u) \/ y = plain (RRef u))).
  { exists (remove_reference t). split; [reflexivity|].
    destruct (is_reference t) eqn:R.
    - assert (HL : exists y, lref t = Some y /\ (y = plain (LRef (remove_reference t)) \/ y = plain (RRef (remove_reference t)))).
      { destruct t as [c v []]; try discriminate; eexists; split; try reflexivity; cbn; auto. }
      assert (HR : exists y, rref t = Some y /\ (y = plain (LRef (remove_reference t)) \/ y = plain (RRef (remove_reference t)))).
      { destruct t as [c v []]; try discriminate; eexists; split; try reflexivity; cbn; auto. }
      split; [exact HR|]. destruct HL as (y1 & E1 & H1), HR as (y2 & E2 & H2).
      destruct f, sc; cbn in Fc |- *; try discriminate; rewrite ?E1, ?E2; eexists; repeat split; eauto.
    - assert (F : referable (sh t) = true).
      { destruct t as [c v s]. cbn [sh] in *. destruct s; try discriminate; try reflexivity; [congruence|]. cbn [referable]. now rewrite Nq. }
      rewrite (not_reference t R), (rref_some t R F). split; [eexists; split; [reflexivity|now right]|].
      destruct f, sc; cbn in Fc |- *; try discriminate; rewrite ?(lref_some t R F), ?(rref_some t R F); eexists; repeat split; auto. }
  destruct H as (u & Hu & (x & Ex & Hx) & (y & Ey & Ey' & Hy)). rewrite Ex, Ey, Ey'. rewrite Hu in C.
  assert (Rx : remove_cvref x = remove_cv u) by (destruct Hx as [->| ->]; reflexivity). rewrite Rx.
  assert (Bu : forall e, binds e y = Some (implb (is_const u) (is_const e) && implb (is_volatile u) (is_volatile e))).
  { intros e. destruct Hy as [->| ->]; reflexivity. }
  rewrite !Bu. split.
  - rewrite C. cbn [implb]. replace (is_const (remove_reference (remove_cv u))) with false; [reflexivity|].
    assert (Nr : is_reference u = false).
    { rewrite <- Hu. clear - W. destruct t as [c v s]; destruct s; try reflexivity; cbn in *.
      all: apply andb_true_iff in W as [W _]; apply andb_true_iff in W as [_ W]; destruct t as [? ? []]; cbn in *; congruence. }
    rewrite not_reference; [now rewrite remove_cv_const|]. destruct u as [? ? []]; cbn in *; congruence.
  - rewrite Hu, !implb_refl. reflexivity.
Qed.
(** References to types without qualifiers. *)
Lemma binding_reference ts f sc i t u : nth_error ts i = Some t -> t = plain (LRef u) \/ t = plain (RRef u) -> unqualified u ->
  stdx_binding ts f sc i = Some (if form_const f sc then add_const u else u) /\ std_binding ts f sc i = Some t.
Proof.
  intros E Ht (R & Cv & F). unfold stdx_binding, std_binding, binding, std_tuple_element, std_element. rewrite E.
  assert (Ac : add_const t = t) by (destruct Ht as [->| ->]; reflexivity).
  assert (Hx : exists x, rref t = Some x /\ remove_cvref x = u) by (destruct Ht as [->| ->]; eexists; split; try reflexivity; exact Cv).
  destruct Hx as (x & -> & ->). rewrite Ac. replace (if form_const f sc then t else t) with t by now destruct (form_const f sc).
  assert (Hg : forall k, exists y z, get_type k t = Some y /\ std_get k t = Some z /\ (y = plain (LRef u) \/ y = plain (RRef u)) /\ (z = plain (LRef u) \/ z = plain (RRef u))).
  { intros k. unfold get_type, std_get. rewrite Ac. destruct Ht as [->| ->], k; do 2 eexists; repeat split; auto. }
  destruct (Hg (form_category f sc)) as (y & z & -> & -> & Hy & Hz).
  assert (Nc : is_const u = false) by (rewrite <- Cv; apply remove_cv_const).
  assert (Nv : is_volatile u = false) by (rewrite <- Cv; apply remove_cv_volatile).
  assert (B : forall e w, w = plain (LRef u) \/ w = plain (RRef u) -> binds e w = Some true).
  { intros e w [->| ->]; unfold binds; cbn [sh plain]; now rewrite Nc, Nv. }
  rewrite (B _ y Hy), (B _ z Hz). now split.
Qed.

Lemma names_const_iff f sc : form_const f sc = true <-> names_const f sc.
Proof. unfold names_const. destruct f, sc; cbn; intuition congruence. Qed.
Lemma names_const_if f sc {A} (x y : A) : (names_const f sc -> (if form_const f sc then x else y) = x) /\
  (~ names_const f sc -> (if form_const f sc then x else y) = y).
Proof. rewrite <- names_const_iff. destruct (form_const f sc); split; congruence. Qed.
