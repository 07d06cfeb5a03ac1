(** Threads that may wait for each other: each has a program with loops over several stdx::atomic<T>,
    and they take steps in turn, without end.  A call is the program over the primitives that
    AtomKindModel (T = bool) or AtomicModel (T an integer) gives for it (include/stdx/atomic.hpp:45-118); as in ConcModel its start, its
    primitive and its return are separate steps, and the order is the default one, for which C81 proves
    that there is one order for all objects.
    Simplification: the rest of a program, between calls, is a place where a thread stays for as long as
    the schedule says. *)
From Verif Require Import Base BitModel ConcModel.

(** What a thread does at a place of its program: call a member function of the atomic number [x], or
    something of its own. *)
Inductive action (Op : Type) := Call (x : nat) (op : Op) | Local.
Arguments Call {Op}. Arguments Local {Op}.
Record waiter (L V : Type) := { place : L; running : option (prog (option V)) }.
Arguments place {L V}. Arguments running {L V}.
Record state (L V : Type) := { words : list N; threads : list (waiter L V) }.
Arguments words {L V}. Arguments threads {L V}.

Section Threads.
Context {L Op V : Type}.
(** The member functions. *)
Variable code : Op -> prog (option V).
(** The programs: the action of thread [i] at a place, and the place after it, given what the call
    returned. *)
Variable act : nat -> L -> action Op.
Variable after : nat -> L -> option V -> L.
(** The bits of elem_t. *)
Variable ew : N.

(** One step of thread [i]; [go]: it ends what it does of its own. *)
Definition step (s : state L V) (i : nat) (go : bool) : state L V :=
  match nth_error (threads s) i with
  | None => s
  | Some t =>
      let put ws t' := {| words := ws; threads := set_nth i t' (threads s) |} in
      match running t with
      | None =>
          match act i (place t) with
          | Local => if go then put (words s) {| place := after i (place t) None; running := None |} else s
          | Call _ op => put (words s) {| place := place t; running := Some (code op) |}
          end
      | Some (Ret o) => put (words s) {| place := after i (place t) o; running := None |}
      | Some (Do p k) =>
          match act i (place t) with
          | Call x _ =>
              match nth_error (words s) x with
              | Some m => let (m', r) := exec_prim ew p m in
                          put (set_nth x m' (words s)) {| place := place t; running := Some (k r) |}
              | None => s
              end
          | Local => s
          end
      | Some Bad => s
      end
  end.
(** The state after [n] steps. *)
Fixpoint state_at (s : state L V) (sched : nat -> nat * bool) (n : nat) : state L V :=
  match n with
  | O => s
  | S n => let s' := state_at s sched n in step s' (fst (sched n)) (snd (sched n))
  end.
(** [n] threads about to start at place [l]; [k] atomics, which hold [m]. *)
Definition start (m : N) (l : L) (n k : nat) : state L V :=
  {| words := repeat m k; threads := repeat {| place := l; running := None |} n |}.
End Threads.
