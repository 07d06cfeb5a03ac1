(** A lock that users build from two stdx::atomic counters, and what they expect of it: each thread draws
    a number and waits until that number is served.
    k = next.fetch_add(1); while (serving != k) {} ...; ++serving; *)
From Verif Require Import Base ConcModel AtomicModel WaitModel WaitSpec.
Open Scope nat_scope.

Inductive ticket := Outside | Draw | Look (k : N) | Within | Leave.
(** Atomic 0 is next, atomic 1 is serving. *)
Definition ticket_act (me : nat) (l : ticket) : action aop :=
  match l with
  | Outside | Within => Local
  | Draw => Call 0 (AFetchAdd 1)
  | Look _ => Call 1 ALoad
  | Leave => Call 1 APreInc
  end.
Definition ticket_after (me : nat) (l : ticket) (r : option N) : ticket :=
  match l, r with
  | Outside, _ => Draw
  | Draw, Some k => Look k
  | Draw, None => Draw
  | Look k, Some s => if (s =? k)%N then Within else Look k
  | Look k, None => Look k
  | Within, _ => Leave
  | Leave, _ => Outside
  end.
Definition ticket_waits (l : ticket) : Prop := l = Draw \/ exists k, l = Look k.
(** The states of a run of [n] threads; the counters are of an unsigned type of [w] bits, elem_t of an
    unsigned type of [ew] bits. *)
Definition ticket_run (iw w ew : N) (n : nat) (sched : nat -> nat * bool) (t : nat) : state ticket N :=
  state_at (acode iw w ew false false) ticket_act ticket_after ew (start (atomic_init w ew false None) Outside n 2) sched t.
(** A thread that has its number and waits. *)
Definition has_number (s : state ticket N) (i : nat) : Prop := exists k, is_at (Look k) s i.
