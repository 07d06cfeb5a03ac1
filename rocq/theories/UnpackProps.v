(** C110: transform and and_then unpack tuples. *)
From Coq Require Import List Bool Arith Lia.
From Verif Require Import UnpackModel UnpackSpec.
Import ListNotations.

Local Ltac cases :=
  unfold transforms_to, continues_to, does_not_compile, callable, not_callable, transform, and_then, unwrap_result, unwrap_invoke,
    unwrap_invoker, of_types, apply, apply_parts in *.

(** A function that takes the elements of a tuple, as they are passed and also as rvalues, is called with
    them: for tuples of all three kinds and of every size.  Through transform, the result must have a
    tombstone; through and_then, it must be possible to make one from nothing. *)
Theorem C110_unpacks : forall p f c l ts u,
  (exists u', callable f Rvalue ts u') -> callable f c ts u ->
  (tombstone p u <> None -> transforms_to p f c (Parts l ts) u (with_parts f c)) /\
  (default p u <> None -> continues_to p f c (Parts l ts) u (with_parts f c)).
Proof.
  intros p f c l ts u [u' HR] HC.
  cases. change (takes f (map (pair Rvalue) ts) = Some u') in HR. change (takes f (map (pair c) ts) = Some u) in HC.
  rewrite HR, HC. split.
  - intros HT [v|]; destruct (tombstone p u); try congruence; cbn; [|reflexivity].
    destruct v; reflexivity.
  - intros HD. destruct (default p u) as [d|] eqn:E; [|congruence]. split.
    + intros [n|vs]; reflexivity.
    + exists d. auto.
Qed.
Print Assumptions C110_unpacks.

(** Values of other types are passed as they are. *)
Theorem C110_whole : forall p f c t u,
  plain p t -> takes f [(c, t)] = Some u ->
  (tombstone p u <> None -> transforms_to p f c t u (with_whole f c)) /\
  (default p u <> None -> continues_to p f c t u (with_whole f c)).
Proof.
  intros p f c t u HP HT. cases. destruct HP as [n|n|n E0]; [| |rewrite E0]; cbn; rewrite HT; (split;
    [intros H [v|]; destruct (tombstone p u); try congruence; reflexivity
    |intros H; destruct (default p u) as [d|] eqn:E; [|congruence]; split; [reflexivity|exists d; auto]]).
Qed.
Print Assumptions C110_whole.

(** The free transform takes optionals of one library, at least one, and passes the values as they are;
    its result is an optional of that library, with a value exactly if all have one. *)
Theorem C110_free : forall p f l r,
  takes f (map (fun a => (of_cat a, of_ty a)) l) = Some r ->
  (l <> [] -> Forall (fun a => of_lib a = StdOptional) l ->
     exists x, transform_free p f l = Some (StdOptional, r, x) /\
       (forall y, x = Some y <-> exists vs, Forall2 (fun a v => holds a = Some v) l vs /\ y = run f (combine (map of_cat l) vs))) /\
  (l <> [] -> Forall (fun a => of_lib a = StdxOptional) l -> tombstone p r <> None ->
     exists x, transform_free p f l = Some (StdxOptional, r, x) /\
       (forall y, x = Some y <-> exists vs, Forall2 (fun a v => holds a = Some v) l vs /\ y = run f (combine (map of_cat l) vs))) /\
  (l = [] -> transform_free p f l = None) /\
  (forall a b, In a l -> In b l -> of_lib a = StdOptional -> of_lib b = StdxOptional -> transform_free p f l = None).
Proof.
  intros p f l r HT.
  assert (HV : forall l, match values l with
    | Some ps => exists vs, Forall2 (fun a v => holds a = Some v) l vs /\ ps = combine (map of_cat l) vs
    | None => forall vs, ~ Forall2 (fun a v => holds a = Some v) l vs end).
  { clear. induction l as [|a l IH]; cbn.
    - exists []. split; [constructor|reflexivity].
    - destruct (holds a) as [v|] eqn:E.
      + destruct (values l) as [ps|].
        * destruct IH as (vs & H & ->). exists (v :: vs). split; [constructor; assumption|reflexivity].
        * intros vs H. inversion H; subst. eapply IH; eassumption.
      + intros vs H. inversion H; subst. congruence. }
  assert (HX : forall y, match values l with Some vs => Some (run f vs) | None => None end = Some y <->
     exists vs, Forall2 (fun a v => holds a = Some v) l vs /\ y = run f (combine (map of_cat l) vs)).
  { intros y. specialize (HV l). destruct (values l) as [ps|].
    - destruct HV as (vs & H & ->). split.
      + intros [= <-]. eauto.
      + intros (vs' & H' & ->). assert (vs' = vs) as ->; [|reflexivity].
        clear - H H'. revert vs H vs' H'. induction l; intros vs H vs' H'; inversion H; inversion H'; subst; [reflexivity|].
        f_equal; [congruence|eauto].
    - split; [discriminate|]. intros (vs & H & _). exfalso. exact (HV vs H). }
  unfold transform_free. rewrite HT. repeat split.
  - intros HN HA. assert (convert_optional l = Some StdOptional) as ->.
    { unfold convert_optional. destruct l as [|a l]; [congruence|]. inversion HA; subst. cbn. assert (is_stdx a = false) as -> by (unfold is_stdx; rewrite H1; reflexivity).
      cbn. assert (forallb (fun a => negb (is_stdx a)) l = true) as ->; [|reflexivity].
      apply forallb_forall. intros x Hx. rewrite Forall_forall in H2. unfold is_stdx. rewrite (H2 x Hx). reflexivity. }
    eexists. split; [reflexivity|]. exact HX.
  - intros HN HA HTm. assert (convert_optional l = Some StdxOptional) as ->.
    { unfold convert_optional. destruct l as [|a l]; [congruence|]. inversion HA; subst. cbn. assert (is_stdx a = true) as -> by (unfold is_stdx; rewrite H1; reflexivity).
      cbn. assert (forallb is_stdx l = true) as ->; [|reflexivity].
      apply forallb_forall. intros x Hx. rewrite Forall_forall in H2. unfold is_stdx. rewrite (H2 x Hx). reflexivity. }
    destruct (tombstone p r); [|congruence]. eexists. split; [reflexivity|]. exact HX.
  - intros ->. reflexivity.
  - intros a b Ha Hb Ea Eb. unfold convert_optional.
    assert (forallb is_stdx l = false) as ->.
    { destruct (forallb is_stdx l) eqn:E; [|reflexivity]. rewrite forallb_forall in E. specialize (E a Ha). unfold is_stdx in E. rewrite Ea in E. discriminate. }
    assert (forallb (fun a => negb (is_stdx a)) l = false) as ->; [|reflexivity].
    destruct (forallb (fun a => negb (is_stdx a)) l) eqn:E; [|reflexivity]. rewrite forallb_forall in E. specialize (E b Hb). unfold is_stdx in E. rewrite Eb in E. discriminate.
Qed.
Print Assumptions C110_free.

(** Tuples are not unpacked "if necessary": a function that takes the tuple, and not its elements, cannot
    be given to transform or and_then at all. *)
Theorem C110_takes_tuple_refuted : forall p f c l ts u,
  takes f [(c, Parts l ts)] = Some u -> not_callable f Rvalue ts -> does_not_compile p f c (Parts l ts).
Proof.
  intros p f c l ts u _ HN o. cases. change (takes f (map (pair Rvalue) ts) = None) in HN. rewrite HN. auto.
Qed.
Print Assumptions C110_takes_tuple_refuted.

(** So with a function that takes the elements of an lvalue by reference, and no rvalues. *)
Theorem C110_by_reference_refuted : forall p f l ts u,
  callable f Lvalue ts u -> not_callable f Rvalue ts -> does_not_compile p f Lvalue (Parts l ts).
Proof.
  intros p f l ts u _ HN o. cases. change (takes f (map (pair Rvalue) ts) = None) in HN. rewrite HN. auto.
Qed.
Print Assumptions C110_by_reference_refuted.

(** Before C++23, an optional over another class template of namespace std has neither transform nor
    and_then, for any function. *)
Theorem C110_std_types_refuted : forall p f c n,
  strict p = false -> does_not_compile p f c (StdOther n).
Proof. intros p f c n HS o. cases. rewrite HS. auto. Qed.
Print Assumptions C110_std_types_refuted.

(** std::array has the tuple protocol and [apply], and is not unpacked: a function of the elements does not
    compile, one of the array is called with it. *)
Theorem C110_array_refuted : forall p f c t n u,
  callable f Rvalue (repeat t n) u -> callable f c (repeat t n) u ->
  (takes f [(c, Array t n)] = None -> does_not_compile p f c (Array t n)) /\
  (forall u', takes f [(c, Array t n)] = Some u' -> tombstone p u' <> None ->
     transforms_to p f c (Array t n) u' (with_whole f c)).
Proof.
  intros p f c t n u _ _. cases. cbn. split.
  - intros -> o. auto.
  - intros u' -> HT [v|]; destruct (tombstone p u'); try congruence; reflexivity.
Qed.
Print Assumptions C110_array_refuted.

(** The free transform does not unpack: the example of docs/optional.adoc, with a function of two arguments
    and an optional over a tuple of two, does not compile, for any such function and any kind of tuple. *)
Theorem C110_free_example_refuted : forall p f c l t1 t2 u,
  callable f c [t1; t2] u -> (forall a, takes f [a] = None) ->
  forall k o, transform_free p f [{| of_lib := k; of_cat := c; of_ty := Parts l [t1; t2]; holds := o |}] = None.
Proof. intros p f c l t1 t2 u _ HN k o. unfold transform_free. cbn. rewrite HN. reflexivity. Qed.
Print Assumptions C110_free_example_refuted.

(** The tombstone that an optional was given is not that of the result: transform with a function that
    returns what it is given does not compile for a type that has no tombstone of its own. *)
Theorem C110_own_tombstone_refuted : forall p f c t o,
  tombstone p t = None -> plain p t -> takes f [(c, t)] = Some t -> transform p f c t o = None.
Proof.
  intros p f c t o HT HP HF. cases. destruct HP as [n|n|n E0]; [| |rewrite E0]; cbn; rewrite HF, HT; reflexivity.
Qed.
Print Assumptions C110_own_tombstone_refuted.

(** Non-vacuity: a function that adds two S, taken by const reference; one that takes a pair; one that takes
    S & twice. *)
Local Definition S_ := Simple 1.
Local Definition plat b := {| strict := b; tombstone := fun t => match t with Simple 1 => Some (Atom 0) | _ => None end;
  default := fun t => match t with Simple 1 => Some (Atom 7) | _ => None end |}.
Local Definition add := {| takes := fun l => match l with [(_, Simple 1); (_, Simple 1)] => Some S_ | _ => None end;
  run := fun l => match l with [(_, Atom a); (_, Atom b)] => Atom (a + b) | _ => Atom 0 end |}.
Example adds : transform (plat false) add ConstLvalue (Parts StdTuple [S_; S_]) (Some (Tup [Atom 42; Atom 17])) = Some (S_, Some (Atom 59)).
Proof. reflexivity. Qed.
Example adds_hyps : callable add Rvalue [S_; S_] S_ /\ callable add ConstLvalue [S_; S_] S_ /\ tombstone (plat false) S_ <> None /\ default (plat false) S_ <> None.
Proof. repeat split; discriminate. Qed.
Example example_hyp : forall a, takes add [a] = None.
Proof. intros [c t]. cbn. destruct t as [[|[|n]]| | | |]; reflexivity. Qed.
Local Definition takes_pair := {| takes := fun l => match l with [(_, Parts StdPair _)] => Some S_ | _ => None end; run := fun _ => Atom 3 |}.
Example takes_pair_hyps : takes takes_pair [(ConstLvalue, Parts StdPair [S_; S_])] = Some S_ /\ not_callable takes_pair Rvalue [S_; S_].
Proof. split; reflexivity. Qed.
Local Definition by_ref := {| takes := fun l => match l with [(Lvalue, Simple 1); (Lvalue, Simple 1)] => Some S_ | _ => None end; run := fun _ => Atom 3 |}.
Example by_ref_hyps : callable by_ref Lvalue [S_; S_] S_ /\ not_callable by_ref Rvalue [S_; S_].
Proof. split; reflexivity. Qed.
Example array_hyps : callable add Rvalue (repeat S_ 2) S_ /\ callable add Lvalue (repeat S_ 2) S_ /\ takes add [(Lvalue, Array S_ 2)] = None.
Proof. repeat split. Qed.
Example free_ex : transform_free (plat true) add [{| of_lib := StdOptional; of_cat := Lvalue; of_ty := S_; holds := Some (Atom 1) |};
   {| of_lib := StdOptional; of_cat := Rvalue; of_ty := S_; holds := Some (Atom 2) |}] = Some (StdOptional, S_, Some (Atom 3)).
Proof. reflexivity. Qed.
Local Definition same := {| takes := fun l => match l with [(_, t)] => Some t | _ => None end; run := fun l => match l with [(_, v)] => v | _ => Atom 0 end |}.
Example same_hyps : tombstone (plat true) (Simple 0) = None /\ plain (plat true) (Simple 0) /\ takes same [(Lvalue, Simple 0)] = Some (Simple 0).
Proof. repeat split. constructor. Qed.
Example whole_ex : transform (plat true) same Lvalue S_ (Some (Atom 5)) = Some (S_, Some (Atom 5)).
Proof. reflexivity. Qed.
