(** A barrier that users build from two stdx::atomic counters, and what they expect of it: [n] threads
    work in rounds, and none goes on to the next round before all have done the work of this one.
    ...work...; T my = phase; if (++count == n) { count = 0; ++phase; } else { while (phase == my) {} } *)
From Verif Require Import Base ConcModel AtomicModel WaitModel WaitSpec.
Open Scope nat_scope.

(** The places of a thread, with the round that it is in. *)
Inductive stage := Work (r : nat) | See (r : nat) | Arrive (r : nat) (my : N) | Zero (r : nat) | Open (r : nat) | Wait (r : nat) (my : N).
Definition round (l : stage) : nat := match l with Work r | See r | Arrive r _ | Zero r | Open r | Wait r _ => r end.
(** Atomic 0 is count, atomic 1 is phase. *)
Definition barrier_act (me : nat) (l : stage) : action aop :=
  match l with
  | Work _ => Local
  | See _ => Call 1 ALoad
  | Arrive _ _ => Call 0 APreInc
  | Zero _ => Call 0 (AAssign 0)
  | Open _ => Call 1 APreInc
  | Wait _ _ => Call 1 ALoad
  end.
Definition barrier_after (n me : nat) (l : stage) (o : option N) : stage :=
  match l, o with
  | Work r, _ => See r
  | See r, Some my => Arrive r my
  | Arrive r my, Some c => if (c =? N.of_nat n)%N then Zero r else Wait r my
  | Zero r, _ => Open r
  | Open r, _ => Work (S r)
  | Wait r my, Some p => if (p =? my)%N then Wait r my else Work (S r)
  | _, None => l
  end.
(** The states of a run of [n] threads; the counters are of an unsigned type of [w] bits, elem_t of an
    unsigned type of [ew] bits. *)
Definition barrier_run (iw w ew : N) (n : nat) (sched : nat -> nat * bool) (t : nat) : state stage N :=
  state_at (acode iw w ew false false) barrier_act (barrier_after n) ew (start (atomic_init w ew false None) (Work 0) n 2) sched t.
