(** Two locks that users build from stdx::atomic<bool>, and what they expect of a thread that waits. *)
From Verif Require Import Base ConcModel AtomKindModel WaitModel.
Open Scope nat_scope.

(** ** Schedules *)
(** Each of [n] threads takes steps again and again. *)
Definition fair (n : nat) (sched : nat -> nat * bool) : Prop :=
  forall i, i < n -> forall t, exists t', t <= t' /\ fst (sched t') = i.
(** A thread that is at place [l] in state [s]. *)
Definition is_at {L V} (l : L) (s : state L V) (i : nat) : Prop := exists t, nth_error (threads s) i = Some t /\ place t = l.
(** A thread that comes to place [l] does not stay there for ever. *)
Definition leaves {L V} (l : L) (n : nat) (at_ : nat -> state L V) : Prop :=
  forall i t, i < n -> is_at l (at_ t) i -> exists t', t <= t' /\ ~ is_at l (at_ t') i.

(** ** Peterson's algorithm, for threads 0 and 1: atomics 0 and 1 are the flags, 2 is the turn
    flag[me] = true; turn = other; while (flag[other] and turn == other) {} ...; flag[me] = false; *)
Inductive peterson := Idle | Raise | Yield | LookFlag | LookTurn | Inside | Lower.
Definition is_one (me : nat) : bool := match me with 1 => true | _ => false end.
Definition other (me : nat) : bool := negb (is_one me).
Definition flag_of (b : bool) : nat := if b then 1 else 0.
Definition peterson_act (me : nat) (l : peterson) : action bop :=
  match l with
  | Idle | Inside => Local
  | Raise => Call (flag_of (is_one me)) (BStore true)
  | Yield => Call 2 (BStore (other me))
  | LookFlag => Call (flag_of (other me)) BLoad
  | LookTurn => Call 2 BLoad
  | Lower => Call (flag_of (is_one me)) (BStore false)
  end.
Definition peterson_after (me : nat) (l : peterson) (r : option bool) : peterson :=
  match l, r with
  | Idle, _ => Raise
  | Raise, _ => Yield
  | Yield, _ => LookFlag
  | LookFlag, Some true => LookTurn
  | LookFlag, _ => Inside
  | LookTurn, Some b => if Bool.eqb b (other me) then LookFlag else Inside
  | LookTurn, None => LookTurn
  | Inside, _ => Lower
  | Lower, _ => Idle
  end.
Definition peterson_waits (l : peterson) : Prop := l = Raise \/ l = Yield \/ l = LookFlag \/ l = LookTurn.
(** The states of a run. *)
Definition peterson_run (ew : N) (sched : nat -> nat * bool) (t : nat) : state peterson bool :=
  state_at bcode peterson_act peterson_after ew (start (binit None) Idle 2 3) sched t.

(** ** A lock made of one atomic, for any number of threads
    while (lock.exchange(true)) {} ...; lock = false; *)
Inductive spin := Away | Try | Held | Unlock.
Definition spin_act (me : nat) (l : spin) : action bop :=
  match l with
  | Away | Held => Local
  | Try => Call 0 (BExchange true)
  | Unlock => Call 0 (BAssign false)
  end.
Definition spin_after (me : nat) (l : spin) (r : option bool) : spin :=
  match l, r with
  | Away, _ => Try
  | Try, Some false => Held
  | Try, _ => Try
  | Held, _ => Unlock
  | Unlock, _ => Away
  end.
Definition spin_run (ew : N) (n : nat) (sched : nat -> nat * bool) (t : nat) : state spin bool :=
  state_at bcode spin_act spin_after ew (start (binit None) Away n 1) sched t.
(** Thread [i] gets the lock with step [t]. *)
Definition gets (at_ : nat -> state spin bool) (i t : nat) : Prop := is_at Try (at_ t) i /\ is_at Held (at_ (S t)) i.
