(** A queue between two threads that users build from two stdx::atomic counters and an array of
    stdx::atomic slots, and what they expect of it.  The producer passes item 0, item 1, ... on, waiting
    while all slots are in use; the consumer waits while there is nothing in the queue.
    T mine{}; for (;;) { while (static_cast<T>(mine - head) >= size) {} slot[i] = item; ++tail; ++mine; ... }
    T mine{}; for (;;) { while (tail == mine) {} got = slot[j]; ++head; ++mine; ... }
    (RingSpec has the conditions on any such program; this is one, with its loops.) *)
From Verif Require Import Base ConcModel AtomicModel WaitModel WaitSpec.
Open Scope nat_scope.

(** Calls of a counter and of a slot. *)
Inductive pipe_op := Count (op : aop) | Slot (op : aop).
(** The counters are of an unsigned type of [w] bits, the slots of one of [vw] bits; elem_t has [ew] bits. *)
Definition pipe_code (iw w vw ew : N) (o : pipe_op) : prog (option N) :=
  match o with
  | Count op => acode iw w ew false false op
  | Slot op => acode iw vw ew false false op
  end.

(** Places of the producer, with the number of items it has passed on, and of the consumer, with the
    items it has got. *)
Inductive spot :=
| MayPush (i : nat) | Put (i : nat) | Push (i : nat)
| MayPop (got : list N) | Take (got : list N) | Pop (got : list N).

Section Pipe.
Variables (w : N) (size : nat) (item : nat -> N).
(** Atomic 0 is head, atomic 1 is tail, then come the slots. *)
Definition pipe_act (me : nat) (l : spot) : action pipe_op :=
  match l with
  | MayPush _ => Call 0 (Count ALoad)
  | Put i => Call (2 + i mod size) (Slot (AStore (item i)))
  | Push _ => Call 1 (Count APreInc)
  | MayPop _ => Call 1 (Count ALoad)
  | Take got => Call (2 + length got mod size) (Slot ALoad)
  | Pop _ => Call 0 (Count APreInc)
  end.
Definition pipe_after (me : nat) (l : spot) (r : option N) : spot :=
  match l, r with
  | MayPush i, Some head => if ((N.of_nat i + 2 ^ w - head) mod 2 ^ w <? N.of_nat size)%N then Put i else MayPush i
  | Put i, _ => Push i
  | Push i, _ => MayPush (i + 1)
  | MayPop got, Some tail => if (tail =? N.of_nat (length got) mod 2 ^ w)%N then MayPop got else Take got
  | Take got, Some v => Pop (got ++ [v])
  | Pop got, _ => MayPop got
  | _, None => l
  end.
(** The states of a run: thread 0 is the producer, thread 1 the consumer. *)
Definition pipe_run (iw vw ew : N) (sched : nat -> nat * bool) (t : nat) : state spot N :=
  state_at (pipe_code iw w vw ew) pipe_act pipe_after ew
    {| words := atomic_init w ew false None :: atomic_init w ew false None :: repeat (atomic_init vw ew false None) size;
       threads := [{| place := MayPush 0; running := None |}; {| place := MayPop []; running := None |}] |} sched t.
End Pipe.
(** The items that the consumer has got; how many the producer has passed on. *)
Definition received (s : state spot N) (got : list N) : Prop :=
  is_at (MayPop got) s 1 \/ is_at (Take got) s 1 \/ is_at (Pop got) s 1.
Definition passed_on (s : state spot N) (i : nat) : Prop :=
  is_at (MayPush i) s 0 \/ is_at (Put i) s 0 \/ is_at (Push i) s 0.
