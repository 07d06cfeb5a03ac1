(** Executions of threads that share one atomic word when the operations are given any memory order,
    memory_order_relaxed included (include/stdx/atomic.hpp:54-118 and atomic_bitset.hpp pass the
    order on to ::atomic::load, store, exchange and the fetch functions).

    This is the axiomatic description of the C++ standard for one atomic object ([intro.races],
    [atomics.order]): all modifications of the object form one order; a read-modify-write operation
    reads the modification right before its own; and the operations of one thread are coherent with
    that order.  What a stronger order, or synchronization through other objects, forbids on top of
    that is left out: the executions here include all those of every choice of orders. *)
From Coq Require Import Permutation.
From Verif Require Import Base ConcModel.
Open Scope nat_scope.

(** One performed primitive: what it was, the value it returned, and its place.  For a modification
    that is its place in the modification order, from 1; for a load, the place of the modification
    it reads (0: the initial value). *)
Record aevent := { performed : prim; got : N; place : nat }.
Definition modifies (e : aevent) : bool := match performed e with PLoad => false | _ => true end.
(** Where an event writes and reads in the modification order: a store does not read. *)
Definition writes_at (e : aevent) : option nat := if modifies e then Some (place e) else None.
Definition reads_at (e : aevent) : option nat :=
  match performed e with PLoad => Some (place e) | PStore _ => None | _ => Some (place e - 1) end.

(** [intro.races]: write-write, read-read, read-write and write-read coherence, for [a] sequenced
    before [b]. *)
Definition coherent (a b : aevent) : Prop :=
  (forall i j, writes_at a = Some i -> writes_at b = Some j -> i < j) /\
  (forall i j, reads_at a = Some i -> reads_at b = Some j -> i <= j) /\
  (forall i j, reads_at a = Some i -> writes_at b = Some j -> i < j) /\
  (forall i j, writes_at a = Some i -> reads_at b = Some j -> i <= j).

(** The events of the threads, each in program order; [contents k] is the word after [k] of the [n]
    modifications. *)
Record execution (w : N) (contents : nat -> N) (n : nat) (evss : list (list aevent)) : Prop := {
  modification_order : Permutation (map place (filter modifies (concat evss))) (seq 1 n);
  modification : forall e, In e (concat evss) -> modifies e = true ->
    exec_prim w (performed e) (contents (place e - 1)) = (contents (place e), got e);
  reading : forall e, In e (concat evss) -> modifies e = false -> place e <= n /\ got e = contents (place e);
  coherence : Forall (ForallOrdPairs coherent) evss }.

Section Threads.
Context {Op Out : Type}.
Variable code : Op -> prog Out.
(** A thread on its own: it starts its calls, performs primitives, which return whatever the
    execution says, and returns from its calls. *)
Inductive performs : thread Op Out -> list aevent -> thread Op Out -> list (Op * Out) -> Prop :=
| p_stop t : performs t [] t []
| p_call op rest evs t' outs : performs (Thread (Some (op, code op)) rest) evs t' outs -> performs (Thread None (op :: rest)) evs t' outs
| p_do op p k rest r n evs t' outs : performs (Thread (Some (op, k r)) rest) evs t' outs ->
    performs (Thread (Some (op, Do p k)) rest) ({| performed := p; got := r; place := n |} :: evs) t' outs
| p_return op o rest evs t' outs : performs (Thread None rest) evs t' outs ->
    performs (Thread (Some (op, Ret o)) rest) evs t' ((op, o) :: outs).
Inductive all_perform : list (thread Op Out) -> list (list aevent) -> list (thread Op Out) -> list (list (Op * Out)) -> Prop :=
| ap_none : all_perform [] [] [] []
| ap_more t evs t' outs ts evss ts' outss : performs t evs t' outs -> all_perform ts evss ts' outss ->
    all_perform (t :: ts) (evs :: evss) (t' :: ts') (outs :: outss).
End Threads.

(** The answers given to thread [i] in a history. *)
Fixpoint answers {Op Out} (i : N) (h : list (event Op Out)) : list (Op * Out) :=
  match h with
  | [] => []
  | Res j op o :: r => if (j =? i)%N then (op, o) :: answers i r else answers i r
  | Inv _ _ :: r => answers i r
  end.
