(** A sequence lock that users build from a stdx::atomic counter and an array of stdx::atomic words, and what
    they expect of it: one thread writes one version of the words after the other and never waits, any number
    of threads read them, and what a reader gets is one version.
    ++seq; word[0] = ...; word[1] = ...; ... ++seq;
    do { do { s = seq; } while (s & 1); got[0] = word[0]; got[1] = word[1]; ... } while (seq != s); *)
From Verif Require Import Base ConcModel AtomicModel WaitModel WaitSpec.
Open Scope nat_scope.

(** Calls of the counter and of a word. *)
Inductive seq_op := Counter (op : aop) | Word (op : aop).
(** The counter is of an unsigned type of [w] bits, the words of one of [vw] bits; elem_t has [ew] bits. *)
Definition seq_code (iw w vw ew : N) (o : seq_op) : prog (option N) :=
  match o with
  | Counter op => acode iw w ew false false op
  | Word op => acode iw vw ew false false op
  end.

(** Places of the writer, with the number of versions it has written and the word it is at, and of the readers. *)
Inductive post :=
| Pause (v : nat) | Begin (v : nat) | Fill (v j : nat) | End_ (v : nat)
| Rest | See (* s = seq *) | Fetch (s : N) (got : list N) | Check (s : N) (got : list N) | Got (got : list N).

Section Seqlock.
(** There are [k] words; [item v j] is what word [j] is in the version that is written next after [v] others. *)
Variables (k : nat) (item : nat -> nat -> N).
(** Atomic 0 is seq, then come the words. *)
Definition seq_act (me : nat) (l : post) : action seq_op :=
  match l with
  | Pause _ | Rest | Got _ => Local
  | Begin _ | End_ _ => Call 0 (Counter APreInc)
  | Fill v j => Call (1 + j) (Word (AAssign (item v j)))
  | See | Check _ _ => Call 0 (Counter ALoad)
  | Fetch _ got => Call (1 + length got) (Word ALoad)
  end.
Definition seq_after (me : nat) (l : post) (r : option N) : post :=
  match l, r with
  | Pause v, _ => Begin v
  | Begin v, _ => Fill v 0
  | Fill v j, _ => if S j <? k then Fill v (S j) else End_ v
  | End_ v, _ => Pause (S v)
  | Rest, _ => See
  | See, Some s => if N.odd s then See else Fetch s []
  | Fetch s got, Some x => if S (length got) <? k then Fetch s (got ++ [x]) else Check s (got ++ [x])
  | Check s got, Some c => if (c =? s)%N then Got got else See
  | Got _, _ => Rest
  | _, None => l
  end.
(** The states of a run: thread 0 is the writer, [n] others are readers. *)
Definition seq_run (iw w vw ew : N) (n : nat) (sched : nat -> nat * bool) (t : nat) : state post N :=
  state_at (seq_code iw w vw ew) seq_act seq_after ew
    {| words := atomic_init w ew false None :: repeat (atomic_init vw ew false None) k;
       threads := {| place := Pause 0; running := None |} :: repeat {| place := Rest; running := None |} n |} sched t.
(** The words of version [a]; version 0 is what they are at first. *)
Definition version (a : nat) : list N := match a with O => repeat 0%N k | S v => map (item v) (seq 0 k) end.
End Seqlock.
(** The writer has written [v] versions and may be writing the next. *)
Definition written (s : state post N) (v : nat) : Prop :=
  is_at (Pause v) s 0 \/ is_at (Begin v) s 0 \/ (exists j, is_at (Fill v j) s 0) \/ is_at (End_ v) s 0.
