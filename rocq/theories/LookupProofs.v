(** Proofs about calls by unqualified name. *)
From Verif Require Import Base LookupModel LookupSpec.

Lemma ty_ind' (P : ty -> Prop) :
  P Builtin -> (forall t, P t -> P (Pointer t)) -> (forall t, P t -> P (Ref t)) ->
  (forall n u, P u -> P (Enum n u)) -> (forall n args, Forall P args -> P (Class n args)) -> forall t, P t.
Proof.
  intros HB HP HR HE HC. fix IH 1. intros [|t|t|n u|n args].
  - exact HB.
  - apply HP, IH.
  - apply HR, IH.
  - apply HE, IH.
  - apply HC. induction args as [|a r IHr]; constructor; [apply IH|exact IHr].
Qed.

Lemma associated_std t : existsb is_std (associated t) = true <-> from_std t.
Proof.
  induction t as [|t IH|t IH|n u IH|n args IH] using ty_ind'; cbn [associated].
  - split; [discriminate|intros H; inversion H].
  - rewrite IH. split; [intros H; constructor; exact H|intros H; inversion H; assumption].
  - rewrite IH. split; [intros H; constructor; exact H|intros H; inversion H; assumption].
  - split.
    + destruct n; cbn; try discriminate. intros _. constructor.
    + intros H. inversion H. reflexivity.
  - cbn [existsb]. split.
    + rewrite Bool.orb_true_iff. intros [H|H].
      * destruct n; cbn in H; try discriminate H. constructor.
      * apply existsb_exists in H as (m & H1 & H2). apply in_flat_map in H1 as (a & H3 & H4).
        apply (argument_of_std n args a H3). rewrite Forall_forall in IH. apply (IH a H3).
        apply existsb_exists. exists m. split; assumption.
    + intros H. apply Bool.orb_true_iff. inversion H as [ | | | |n' args' a H1 H2]; subst.
      * left. reflexivity.
      * right. rewrite Forall_forall in IH. apply (IH a H1) in H2.
        apply existsb_exists in H2 as (m & H3 & H4). apply existsb_exists. exists m. split; [|exact H4].
        apply in_flat_map. exists a. split; assumption.
Qed.
Lemma found_iff args : found args = true <-> exists a, In a args /\ from_std a.
Proof.
  unfold found. rewrite existsb_exists.
  split; intros (a & H1 & H2); exists a; (split; [exact H1|apply associated_std; exact H2]).
Qed.
Lemma found_not args : (forall a, In a args -> ~ from_std a) -> found args = false.
Proof.
  intros H. destruct (found args) eqn:E; [|reflexivity]. apply found_iff in E as (a & H1 & H2).
  destruct (H a H1 H2).
Qed.

Lemma builtin_not_std : ~ from_std Builtin.
Proof. intros H. inversion H. Qed.

Lemma for_each_ours c it op extra :
  (c = Forward \/ extra <> [] \/ (~ from_std it /\ ~ from_std op)) ->
  for_each_butlastn c it op extra = Some (Class Stdx (op :: it :: extra)).
Proof.
  intros H. destruct c; [reflexivity|]. cbn [for_each_butlastn]. unfold for_each_n.
  destruct extra as [|x r].
  - destruct H as [H|[H|(H1 & H2)]]; [discriminate|congruence|].
    rewrite found_not; [reflexivity|]. intros a [<-|[<-|[<-|[]]]]; [exact H1|exact builtin_not_std|exact H2].
  - unfold resolve. cbn [is_nil]. rewrite Bool.andb_false_r. reflexivity.
Qed.
Lemma for_each_theirs it op : from_std it \/ from_std op ->
  for_each_butlastn RandomAccess it op [] = Some it.
Proof.
  intros H. cbn [for_each_butlastn]. unfold for_each_n.
  replace (found [it; Builtin; op]) with true; [reflexivity|]. symmetry. apply found_iff.
  destruct H as [H|H]; [exists it|exists op]; cbn; tauto.
Qed.
Lemma imf_ours c it iop mop fop : (c = Forward \/ (~ from_std it /\ ~ from_std mop)) ->
  initial_medial_final c it iop mop fop = Some (Class Stdx [iop; mop; fop]).
Proof.
  intros H. unfold initial_medial_final. rewrite for_each_ours; [reflexivity|]. tauto.
Qed.

Lemma make_tuple_ok args : (forall a, In a args -> ~ from_std a) -> make_tuple args = Some (Class Stdx (map decay args)).
Proof. intros H. unfold make_tuple. rewrite found_not by exact H. reflexivity. Qed.
Lemma make_tuple_no args a : In a args -> from_std a -> make_tuple args = None.
Proof.
  intros H1 H2. unfold make_tuple. replace (found args) with true; [reflexivity|].
  symmetry. apply found_iff. exists a. tauto.
Qed.
Lemma forward_ok args : (forall a, In a args -> ~ from_std a) ->
  forward_as_tuple args = Some (Class Stdx (map (fun t => Ref (decay t)) args)).
Proof. intros H. unfold forward_as_tuple. rewrite found_not by exact H. reflexivity. Qed.
Lemma forward_no args a : In a args -> from_std a -> forward_as_tuple args = None.
Proof.
  intros H1 H2. unfold forward_as_tuple. replace (found args) with true; [reflexivity|].
  symmetry. apply found_iff. exists a. tauto.
Qed.

Lemma from_std_ref t : from_std (Ref t) <-> from_std t.
Proof. split; intros H; [inversion H; assumption|constructor; exact H]. Qed.
Lemma from_std_value t : from_std (value_type t) <-> from_std t.
Proof. destruct t; cbn [value_type]; try reflexivity. symmetry. apply from_std_ref. Qed.
Lemma from_std_reference t : from_std (reference_type t) <-> from_std t.
Proof. unfold reference_type. rewrite from_std_ref. apply from_std_value. Qed.

Lemma tuple_cat_ok l : tuple_cat (map (Class Stdx) l) = Some (Class Stdx (concat l)).
Proof.
  induction l as [|a l IH]; [reflexivity|]. cbn [map tuple_cat elements]. rewrite IH. reflexivity.
Qed.
Lemma each_ok {A B} (f : A -> option B) g l : (forall x, In x l -> f x = Some (g x)) -> each f l = Some (map g l).
Proof.
  induction l as [|x l IH]; intros H; [reflexivity|]. cbn [each map].
  rewrite (H x) by (left; reflexivity). rewrite IH; [reflexivity|]. intros y Hy. apply H. right. exact Hy.
Qed.
Lemma each_no {A B} (f : A -> option B) l x : In x l -> f x = None -> each f l = None.
Proof.
  induction l as [|y l IH]; intros H N; [destruct H|]. cbn [each]. destruct H as [->|H]; [rewrite N; reflexivity|].
  destruct (f y); [|reflexivity]. rewrite (IH H N). reflexivity.
Qed.

(** Both ways to make a tuple of one element. *)
Section Product.
Variable one : list ty -> option ty.
Variable part : ty -> ty.
Hypothesis one_ok : forall e, ~ from_std e -> one [e] = Some (Class Stdx [part e]).
Hypothesis one_no : forall e, from_std e -> one [e] = None.
Hypothesis part_std : forall e, from_std (part e) <-> from_std e.

Definition whole (ts : list (list ty)) : ty := tuple_of_tuples (combinations (map (map part) ts)).
Lemma part_combinations r : combinations (map (map part) r) = map (map part) (combinations r).
Proof.
  induction r as [|t r IH]; [reflexivity|]. cbn [map combinations]. rewrite IH. clear IH.
  induction t as [|e t IHt]; [reflexivity|]. cbn [map flat_map]. rewrite IHt, map_app, !map_map. reflexivity.
Qed.
Lemma in_combinations r c e : In c (combinations r) -> In e c -> exists t, In t r /\ In e t.
Proof.
  revert c. induction r as [|t r IH]; intros c Hc He.
  - destruct Hc as [<-|[]]. destruct He.
  - cbn [combinations] in Hc. apply in_flat_map in Hc as (x & Hx & Hc). apply in_map_iff in Hc as (c' & <- & Hc).
    destruct He as [<-|He]; [exists t; split; [left; reflexivity|exact Hx]|].
    destruct (IH c' Hc He) as (u & H1 & H2). exists u. split; [right; exact H1|exact H2].
Qed.
Lemma combinations_nil r : combinations r = [] <-> existsb (fun u : list ty => match u with [] => true | _ => false end) r = true.
Proof.
  induction r as [|t r IH]; [split; discriminate|]. cbn [combinations existsb].
  destruct t as [|e t]; [cbn; tauto|]. cbn [orb]. rewrite <- IH. split.
  - cbn [flat_map]. intros H. apply app_eq_nil in H as (H & _). apply map_eq_nil in H. exact H.
  - intros ->. induction t; [reflexivity|assumption].
Qed.

Lemma used_combinations r : combinations r <> [] -> forall e t, In t r -> In e t -> In e (used r).
Proof.
  induction r as [|t r IH]; intros N e u Hu He; [destruct Hu|]. cbn [used].
  assert (N' : combinations r <> []).
  { intros E. apply N. cbn [combinations]. rewrite E. clear. induction t; [reflexivity|assumption]. }
  apply in_or_app. destruct Hu as [->|Hu].
  - left. destruct (existsb _ r) eqn:E; [|exact He]. apply combinations_nil in E. contradiction.
  - right. apply (IH N' e u Hu He).
Qed.

Lemma prepend_ok l e : (l <> [] -> ~ from_std e) -> (forall c x, In c l -> In x c -> ~ from_std x) ->
  prepend one (map (Class Stdx) l) e = Some (Class Stdx (map (fun c => Class Stdx (part e :: c)) l)).
Proof.
  intros He Hl. unfold prepend.
  replace (each (fun sub => match one [e] with Some h => tuple_cat [h; sub] | None => None end) (map (Class Stdx) l))
    with (Some (map (fun c => Class Stdx (part e :: c)) l)).
  - rewrite make_tuple_ok.
    + rewrite map_map. reflexivity.
    + intros a Ha F. apply in_map_iff in Ha as (c & <- & Hc).
      inversion F as [ | | | |n args x H1 H2]; subst. destruct H1 as [<-|H1].
      * apply (proj1 (part_std e)) in H2. revert H2. apply He. intros E. rewrite E in Hc. destruct Hc.
      * exact (Hl c x Hc H1 H2).
  - destruct l as [|c0 l']; [reflexivity|]. rewrite one_ok by (apply He; discriminate).
    symmetry. rewrite (each_ok _ (fun sub => match sub with Class Stdx c => Class Stdx (part e :: c) | _ => Builtin end)).
    + rewrite map_map. reflexivity.
    + intros x Hx. apply in_map_iff in Hx as (c & <- & _). cbn [tuple_cat elements app]. rewrite app_nil_r. reflexivity.
Qed.

Lemma product_ok ts : (forall e, In e (used ts) -> ~ from_std e) -> product one ts = Some (whole ts).
Proof.
  induction ts as [|t r IH]; intros H.
  - cbn [product]. rewrite make_tuple_ok; [reflexivity|].
    intros a [<-|[]] F. inversion F as [ | | | |n args x H1 H2]; subst. destruct H1.
  - cbn [used] in H. cbn [product]. rewrite IH by (intros e He; apply H, in_or_app; right; exact He).
    unfold whole, tuple_of_tuples. cbn [elements].
    rewrite (each_ok _ (fun e => Class Stdx (map (fun c => Class Stdx (part e :: c)) (combinations (map (map part) r))))).
    + rewrite (map_map (fun e => map (fun c => Class Stdx (part e :: c)) (combinations (map (map part) r))) (Class Stdx)) || idtac.
      rewrite <- (map_map (fun e => map (fun c => Class Stdx (part e :: c)) (combinations (map (map part) r))) (Class Stdx)).
      rewrite tuple_cat_ok. f_equal. f_equal. cbn [map combinations].
      clear. induction t as [|e t IHt]; [reflexivity|]. cbn [map concat flat_map]. rewrite IHt, map_app, map_map. reflexivity.
    + intros e He. apply prepend_ok.
      * intros N F. apply (H e); [|exact F]. apply in_or_app. left.
        destruct (existsb _ r) eqn:E; [|exact He]. apply combinations_nil in E.
        rewrite part_combinations, E in N. destruct (N eq_refl).
      * intros c x Hc Hx F. rewrite part_combinations in Hc. apply in_map_iff in Hc as (c' & <- & Hc).
        apply in_map_iff in Hx as (x' & <- & Hx). apply (proj1 (part_std x')) in F.
        destruct (in_combinations r c' x' Hc Hx) as (u & H1 & H2).
        apply (H x'); [|exact F]. apply in_or_app. right. apply (used_combinations r) with (t := u); [|exact H1|exact H2].
        intros E. rewrite E in Hc. destruct Hc.
Qed.
Lemma from_std_dec t : from_std t \/ ~ from_std t.
Proof.
  destruct (existsb is_std (associated t)) eqn:E.
  - left. apply associated_std. exact E.
  - right. intros F. apply associated_std in F. congruence.
Qed.
Lemma all_or_one l : (forall e, In e l -> ~ from_std e) \/ exists e, In e l /\ from_std e.
Proof.
  induction l as [|x l [IH|(e & H1 & H2)]].
  - left. intros e [].
  - destruct (from_std_dec x) as [F|F]; [right; exists x; split; [left; reflexivity|exact F]|].
    left. intros e [<-|He]; [exact F|exact (IH e He)].
  - right. exists e. split; [right; exact H1|exact H2].
Qed.
Lemma product_no ts : forall e, In e (used ts) -> from_std e -> product one ts = None.
Proof.
  induction ts as [|t r IH]; intros e H F; [destruct H|]. cbn [product].
  destruct (all_or_one (used r)) as [A|(e' & H1 & H2)].
  - rewrite (product_ok r A). unfold whole, tuple_of_tuples. cbn [elements].
    cbn [used] in H. apply in_app_or in H as [H|H]; [|destruct (A e H F)].
    destruct (existsb (fun u : list ty => match u with [] => true | _ => false end) r) eqn:E; [destruct H|].
    rewrite (each_no _ t e H); [reflexivity|]. unfold prepend. rewrite part_combinations.
    destruct (combinations r) as [|c l] eqn:C; [apply combinations_nil in C; congruence|].
    cbn [map each]. rewrite one_no by exact F. reflexivity.
  - rewrite (IH e' H1 H2). reflexivity.
Qed.
End Product.

Lemma copy_one_ok e : ~ from_std e -> make_tuple [e] = Some (Class Stdx [value_type e]).
Proof. intros H. rewrite make_tuple_ok; [reflexivity|]. intros a [<-|[]]. exact H. Qed.
Lemma copy_one_no e : from_std e -> make_tuple [e] = None.
Proof. apply make_tuple_no. left. reflexivity. Qed.
Lemma forward_one_ok e : ~ from_std e -> forward_as_tuple [e] = Some (Class Stdx [reference_type e]).
Proof. intros H. rewrite forward_ok; [reflexivity|]. intros a [<-|[]]. exact H. Qed.
Lemma forward_one_no e : from_std e -> forward_as_tuple [e] = None.
Proof. apply forward_no. left. reflexivity. Qed.

Lemma used_all ts : (forall t, In t ts -> t <> []) -> used ts = concat ts.
Proof.
  induction ts as [|t r IH]; intros H; [reflexivity|]. cbn [used concat].
  rewrite IH by (intros u Hu; apply H; right; exact Hu).
  destruct (existsb (fun u : list ty => match u with [] => true | _ => false end) r) eqn:E; [|reflexivity].
  apply existsb_exists in E as (u & H1 & H2). destruct u; [|discriminate H2].
  destruct (H [] (or_intror H1) eq_refl).
Qed.
Lemma used_some ts e : In e (used ts) -> exists t, In t ts /\ In e t.
Proof.
  induction ts as [|t r IH]; intros H; [destruct H|]. cbn [used] in H. apply in_app_or in H as [H|H].
  - exists t. split; [left; reflexivity|]. destruct (existsb _ r); [destruct H|exact H].
  - destruct (IH H) as (u & H1 & H2). exists u. split; [right; exact H1|exact H2].
Qed.
