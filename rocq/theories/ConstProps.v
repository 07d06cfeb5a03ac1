(** Property C133: const objects cannot be changed through the library's interface. *)
From Coq Require Import List Bool Lia.
From Verif Require Import Base ConstModel ConstSpec ConstProofs.
Import ListNotations.

(** From a const object of a type that refers to nothing that may be changed, every chain of calls, of
    whatever length and through whatever nesting of types, reaches only const objects: nothing can be
    changed. Chains may not ask for a byterator over a type that is not const and, if the type contains
    intrusive lists, for front() or back(). *)
Theorem C133_const_partial :
  forall t l, shares_nothing t -> honest_bytes l -> no_lists t \/ only_loops l ->
  (forall t' c', typed t true l = Some (t', c') -> c' = true) /\ forall x, compiles t true (l, x) = false.
Proof.
  intros t l H B N. split; [intros t' c'; exact (const_chain t l t' c' H B N)|].
  intros x. unfold compiles. cbn [fst]. destruct (typed t true l) as [[t' c']|] eqn:T; [|reflexivity].
  rewrite (const_chain t l t' c' H B N T). reflexivity.
Qed.
Print Assumptions C133_const_partial.

Example C133_const_nonvacuous :
  let t := CxMap Plain (Tuple [Optional Plain; Reference true Plain; Vector (Cached Plain)]) in
  shares_nothing t /\ no_lists t /\ typed t true [Lookup 0; At 2; Back; Value] = Some (Plain, true) /\
  typed t false [Lookup 0; At 2; Back] = Some (Cached Plain, false) /\ compiles t false ([Lookup 0; At 2; Back], Leaf 0) = true.
Proof. cbn. tauto. Qed.

(** Of any type, with references and spans, and lists: the object itself and its parts stay as they are,
    whatever a program does that has it as const and does not reach it in another way. *)
Theorem C133_own_parts :
  forall t r prog m m', Forall (not_into r) m -> Forall (fun s => honest_bytes (fst s) /\ not_into r (snd s)) prog ->
  exec t true (Place r []) m prog = Some m' -> nth_error m' r = nth_error m r.
Proof. exact own_parts. Qed.
Print Assumptions C133_own_parts.

Example C133_own_parts_nonvacuous :
  let t := Tuple [Plain; Reference false Plain] in
  let m := [Parts [Leaf 5; Pointer (Place 1 [])]; Leaf 6] in
  Forall (not_into 0) m /\ exec t true (Place 0 []) m [([At 1], Leaf 7)] = Some [Parts [Leaf 5; Pointer (Place 1 [])]; Leaf 7] /\
  exec t true (Place 0 []) m [([At 0], Leaf 7)] = None.
Proof.
  cbn. split; [|split; reflexivity].
  repeat (constructor; try lia).
Qed.

(** FINDING: the elements of a const list can be changed through front() and back(), of either kind of
    list, although not through its iterators. *)
Theorem C133_list_refuted :
  forall e m r l q o x, nth_error m r = Some (Parts l) -> look m q = Some o ->
  (forall i, compiles (Lists e) true ([At i], x) = false) /\
  (nth_error l 0 = Some (Pointer q) -> exists m', exec (Lists e) true (Place r []) m [([Front], x)] = Some m' /\ look m' q = Some x) /\
  (nth_error l (length l - 1) = Some (Pointer q) -> exists m', exec (Lists e) true (Place r []) m [([Back], x)] = Some m' /\ look m' q = Some x).
Proof.
  intros e m r l q o x R O. destruct (write_there m q o x O) as [m' W]. pose proof (look_write _ _ _ _ W) as K.
  split; [reflexivity|]. split; intros N; exists m'; (split; [|exact K]).
  - destruct l as [|y l]; [discriminate N|]. cbn in N. inversion N; subst y.
    unfold exec, compiles, follow, locate, index, pointee, look, sub. cbn. rewrite R. cbn. rewrite W. reflexivity.
  - destruct l as [|y l]; [discriminate N|]. cbn in N. rewrite PeanoNat.Nat.sub_0_r in N.
    unfold exec, compiles, follow, locate, index, count, pointee, look, sub. cbn. rewrite R. cbn. rewrite N. cbn. rewrite W. reflexivity.
Qed.
Print Assumptions C133_list_refuted.

Example C133_list_nonvacuous :
  exec (Lists Plain) true (Place 0 []) [Parts [Pointer (Place 1 []); Pointer (Place 2 [])]; Leaf 5; Leaf 6] [([Back], Leaf 9); ([Front], Leaf 8)]
  = Some [Parts [Pointer (Place 1 []); Pointer (Place 2 [])]; Leaf 8; Leaf 9].
Proof. reflexivity. Qed.

(** FINDING: a byterator over a type that is not const, made from a pointer to const, is accepted and
    writes: so any part of any const object that a chain of calls reaches can be changed. With the type
    deduced it cannot. *)
Theorem C133_byterator_refuted :
  forall t l m p q o x, typed t true l = Some (Plain, true) -> follow m t true p l = Some q -> look m q = Some o ->
  compiles t true (l, x) = false /\ compiles t true (l ++ [Bytes None], x) = false /\
  exists m', exec t true p m [(l ++ [Bytes (Some false)], x)] = Some m' /\ look m' q = Some x.
Proof.
  intros t l m p q o x T F O.
  pose proof (fun u => typed_bytes t true l true u T) as TB. pose proof (fun u => follow_bytes m t true p l true q u T F) as FB.
  destruct (write_there m q o x O) as [m' W]. pose proof (look_write _ _ _ _ W) as K.
  unfold compiles. cbn [fst]. rewrite T, (TB None). split; [reflexivity|]. split; [reflexivity|].
  exists m'. split; [|exact K]. cbn [exec fst snd]. unfold compiles. cbn [fst]. rewrite (TB (Some false)), (FB (Some false)).
  cbn. rewrite W. reflexivity.
Qed.
Print Assumptions C133_byterator_refuted.

Example C133_byterator_nonvacuous :
  exec (Vector Plain) true (Place 0 []) [Parts [Leaf 5; Leaf 6]] [([At 1; Bytes (Some false)], Leaf 7)] = Some [Parts [Leaf 5; Leaf 7]].
Proof. reflexivity. Qed.

(** FINDING: the other way round, a cx_set or cx_map that is not const lets its keys be changed in a loop,
    as std::set and std::map do not, so that two keys become the same. So for the entries of a cx_multimap
    and the sets in it. *)
Theorem C133_keys_refuted :
  forall m r k v,
  (forall l i j x y, nth_error m r = Some (Parts l) -> nth_error l i = Some x -> nth_error l j = Some y -> i <> j ->
     exists m' l', exec (CxSet k) false (Place r []) m [([At i], y)] = Some m' /\ nth_error m' r = Some (Parts l') /\
       length l' = length l /\ nth_error l' i = Some y /\ nth_error l' j = Some y) /\
  (forall t l i j kx vx ky vy, t = CxMap k v \/ t = CxMultimap k v ->
     nth_error m r = Some (Parts l) -> nth_error l i = Some (Parts [kx; vx]) -> nth_error l j = Some (Parts [ky; vy]) -> i <> j ->
     exists m' l', exec t false (Place r []) m [([At i; Key], ky)] = Some m' /\ nth_error m' r = Some (Parts l') /\
       length l' = length l /\ nth_error l' i = Some (Parts [ky; vx]) /\ nth_error l' j = Some (Parts [ky; vy])).
Proof.
  assert (forall A i (x : A) l, length (set_nth i x l) = length l) as Len.
  { intros A i x l. revert i. induction l as [|y l IH]; intros [|i]; cbn; try rewrite IH; reflexivity. }
  intros m r k v. split.
  - intros l i j x y R X Y D. exists (set_nth r (Parts (set_nth i y l)) m), (set_nth i y l).
    split; [|split; [|split; [|split]]].
    + cbn. rewrite R. cbn. rewrite X. reflexivity.
    + rewrite set_nth_nth, PeanoNat.Nat.eqb_refl, R. reflexivity.
    + apply Len.
    + rewrite set_nth_nth, PeanoNat.Nat.eqb_refl, X. reflexivity.
    + rewrite set_nth_nth. destruct (PeanoNat.Nat.eqb_spec i j); [contradiction|exact Y].
  - intros t l i j kx vx ky vy T R X Y D.
    exists (set_nth r (Parts (set_nth i (Parts [ky; vx]) l)) m), (set_nth i (Parts [ky; vx]) l).
    split; [|split; [|split; [|split]]].
    + destruct T as [-> | ->]; cbn; rewrite R; cbn; rewrite X; reflexivity.
    + rewrite set_nth_nth, PeanoNat.Nat.eqb_refl, R. reflexivity.
    + apply Len.
    + rewrite set_nth_nth, PeanoNat.Nat.eqb_refl, X. reflexivity.
    + rewrite set_nth_nth. destruct (PeanoNat.Nat.eqb_spec i j); [contradiction|exact Y].
Qed.
Print Assumptions C133_keys_refuted.

Example C133_keys_nonvacuous :
  exec (CxMap Plain Plain) false (Place 0 []) [Parts [Parts [Leaf 1; Leaf 5]; Parts [Leaf 2; Leaf 6]]] [([At 0; Key], Leaf 2)]
  = Some [Parts [Parts [Leaf 2; Leaf 5]; Parts [Leaf 2; Leaf 6]]].
Proof. reflexivity. Qed.
