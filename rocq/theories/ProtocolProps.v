(** Properties C107 (which types the tuple algorithms take) and C108 (capacities known at compile time). *)
From Coq Require Import Bool NArith List Lia.
From Verif Require Import ProtocolModel ProtocolSpec ProtocolProofs.
Import ListNotations.
Open Scope N_scope.

(** If std::size_t is not unsigned int: has_tuple_protocol holds for exactly the types with elements that
    can be asked for. *)
Theorem C107_protocol : forall tg t, well_formed t -> size_t_is_unsigned_int tg = false ->
  (has_tuple_protocol tg t = Yes <-> exists n, has_elements tg t n).
Proof.
  intros tg t W Nu. pose proof (bare_well_formed _ W) as Wb. unfold has_tuple_protocol. destruct (tuple_size_v (bare t)) as [k n] eqn:E. split.
  - intros H. exists n. exists (bare t). split; [now apply bare_is_bare|]. destruct (is_size_t tg k) eqn:K; [|discriminate]. cbn in H.
    pose proof (elements_protocol tg (bare t) Wb Nu) as P. rewrite E in P. cbn in P. apply P; [exact K|]. destruct (n =? 0) eqn:Z; [left; now apply N.eqb_eq|right; exact H].
  - intros (m & u & B & H). apply (bare_iff _ _ W) in B. subst u. destruct (elements_size _ _ _ H) as [S K]. rewrite E in S, K. cbn in S, K. injection S as ->. rewrite K. cbn.
    destruct (protocol_elements _ _ _ Wb H) as [-> | ->]; [reflexivity|]. now destruct (m =? 0).
Qed.
Print Assumptions C107_protocol.
(** Types without a size do not have it. *)
Theorem C107_others : forall tg t u, well_formed t -> size_t_is_unsigned_int tg = false -> is_bare t u -> sizeless u -> has_tuple_protocol tg t = No.
Proof.
  intros tg t u W Nu B S. apply (bare_iff _ _ W) in B. subst u. unfold has_tuple_protocol. destruct (bare t) as [i|t' n|a1 a2|ts|ts|n|n|t' [e|]|t' e|t' n|t' n|[[k n]|] g e v|t'|t']; cbn in *; try contradiction; rewrite Nu; reflexivity.
Qed.
Print Assumptions C107_others.
(** But asking about a type that has a size and no get does not give No: it does not compile. *)
Theorem C107_no_answer_refuted : forall tg t, well_formed t ->
  (has_tuple_protocol tg t = HardError <-> exists u, is_bare t u /\ getless tg u).
Proof.
  intros tg t W. unfold has_tuple_protocol. split.
  - intros H. exists (bare t). split; [now apply bare_is_bare|]. destruct (tuple_size_v (bare t)) as [k n] eqn:E. destruct (is_size_t tg k) eqn:K; [|discriminate]. cbn in H.
    destruct (n =? 0) eqn:Z; [discriminate|]. apply N.eqb_neq in Z. apply size_t_iff in K. unfold has_get_protocol in H. destruct (get0_of (bare t)) as [g|] eqn:G.
    { destruct (element0_of (bare t)) as [e|]; [|discriminate]. destruct (ty_eqb (bare g) (bare e)); discriminate. }
    destruct (bare t) as [i|t' n'|a1 a2|ts|ts|n'|n'|t' [e|]|t' e|t' n'|t' n'|[[k' n']|] g e v|t'|t']; cbn in E, G; try discriminate; try (injection E as <- <-; now destruct Z); try (destruct ts; [injection E as <- <-; now destruct Z|discriminate]).
    injection E as -> ->. subst g. now exists k, n, e, v.
  - intros (u & B & k & n & e & v & -> & Z & K). apply (bare_iff _ _ W) in B. rewrite <- B. cbn. apply size_t_iff in K. rewrite K. cbn. apply N.eqb_neq in Z. rewrite Z. reflexivity.
Qed.
Print Assumptions C107_no_answer_refuted.

(** The unrolled algorithms take any number of these types and go through as many steps as the shortest
    has elements. *)
Theorem C107_unrolled : forall tg ts m, Forall well_formed ts -> size_t_is_unsigned_int tg = false ->
  (unrolled tg ts = Steps m <-> exists ns, Forall2 (has_elements tg) ts ns /\ smallest ns m).
Proof. exact unrolled_steps. Qed.
Print Assumptions C107_unrolled.
(** The others take the same, unless all are like arrays: also a call with no tuple at all is refused. *)
Theorem C107_guarded : forall tg ts, Forall well_formed ts -> size_t_is_unsigned_int tg = false ->
  (forall m, guarded tg ts = Steps m <-> unrolled tg ts = Steps m /\ Exists (fun t => ~ array_like t) ts) /\
  (guarded tg ts = Refused <-> (exists m, unrolled tg ts = Steps m) /\ Forall array_like ts).
Proof. exact guarded_steps. Qed.
Print Assumptions C107_guarded.
(** If std::size_t is unsigned int, then everything without a size has the protocol, with no elements: the
    algorithms take any such arguments and do nothing with them. *)
Theorem C107_unsigned_refuted : forall tg t ts, size_t_is_unsigned_int tg = true -> Forall well_formed (t :: ts) ->
  Forall (fun t => exists u, is_bare t u /\ sizeless u) (t :: ts) -> Forall (fun t => has_tuple_protocol tg t = Yes) (t :: ts) /\ unrolled tg (t :: ts) = Steps 0.
Proof. exact unsigned_takes_all. Qed.
Print Assumptions C107_unsigned_refuted.
Example C107_nonvacuous :
  let tg := {| size_t_is_unsigned_int := false |} in
  let a := Ref (Const (Tuple [Named 0; Ref (Named 1); Pair (Named 0) (Named 0)])) in let b := Ref (StdArray (Const (Named 0)) 2) in
  Forall well_formed [a; b] /\ guarded tg [a; b] = Steps 2 /\ guarded tg [b; b] = Refused /\ unrolled tg [b; Sequence 5] = Steps 2 /\ guarded tg [Sequence 5] = Refused /\
  unrolled tg [b; Named 0] = NotViable /\ guarded tg [] = Refused.
Proof. cbn. repeat split; auto. repeat constructor. Qed.
(** An atomic_bitset of eight bits (atomic_bitset.hpp:118), and a vector. *)
Example C107_no_answer_example : has_tuple_protocol {| size_t_is_unsigned_int := false |} (User (Some (SizeT, 8)) None None false) = HardError.
Proof. reflexivity. Qed.
Example C107_unsigned_example : guarded {| size_t_is_unsigned_int := true |} [Named 0] = Steps 0 /\ guarded {| size_t_is_unsigned_int := false |} [Named 0] = NotViable.
Proof. split; reflexivity. Qed.

(** ** C108 *)
(** ct_capacity gives the room of the type of its argument, and compiles only if that is known. *)
Theorem C108_capacity : forall t n, well_formed t -> (ct_capacity t = Some n <-> exists u, is_bare t u /\ room u n).
Proof.
  intros t n W. unfold ct_capacity. rewrite (capacity_bare _ _ W). split.
  - intros H. exists (bare t). split; [now apply bare_is_bare|exact H].
  - intros (u & B & H). apply (bare_iff _ _ W) in B. subst u. exact H.
Qed.
Print Assumptions C108_capacity.
(** So does ct_capacity_v of a type, const or not, that is not a reference and not an array of const. *)
Theorem C108_variable : forall t n, well_formed t -> (forall u, t <> Ref u) -> (forall e m, t = CArray e m -> is_bare e e) ->
  (ct_capacity_v t = Some n <-> exists u, is_bare t u /\ room u n).
Proof.
  intros t n W R A. rewrite (capacity_v_bare _ _ W R); [split|].
  - intros H. exists (bare t). split; [now apply bare_is_bare|exact H].
  - intros (u & B & H). apply (bare_iff _ _ W) in B. subst u. exact H.
  - intros e m ->. specialize (A e m eq_refl). cbn in W. apply (bare_iff _ _ (proj1 W)) in A. rewrite A. apply bare_not_const, W.
Qed.
Print Assumptions C108_variable.
(** For an array of const, or of arrays of const, it is ambiguous and does not compile. *)
Inductive of_const : ty -> Prop := of_const_here t : of_const (Const t) | of_const_array t n : of_const t -> of_const (CArray t n).
Theorem C108_const_array_refuted : forall t n, of_const t -> ct_capacity_v (CArray t n) = None /\ (well_formed (CArray t n) -> ct_capacity (CArray t n) = Some n).
Proof.
  intros t n H. split.
  - cbn. now replace (is_const t) with true by (induction H; auto).
  - intros W. apply C108_capacity; [exact W|]. exists (bare (CArray t n)). split; [now apply bare_is_bare|]. cbn. constructor.
Qed.
Print Assumptions C108_const_array_refuted.
Example C108_nonvacuous :
  ct_capacity (Ref (Const (StdArray (Named 0) 4))) = Some 4 /\ ct_capacity (Ref (CArray (Const (Named 0)) 3)) = Some 3 /\ ct_capacity_v (CArray (Const (Named 0)) 3) = None /\
  ct_capacity_v (Const (Cx (Named 0) 7)) = Some 7 /\ ct_capacity (Span (Named 0) None) = None.
Proof. repeat split. Qed.
