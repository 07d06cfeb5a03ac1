(** What a user expects of a lock that two threads build from three atomics by loading and storing
    them (Peterson's algorithm): each thread raises its flag, yields the turn to the other thread, and
    goes on when it finds the other flag lowered or the turn not yielded any more. *)
From Verif Require Import Base ConcModel AtomicModel MultiModel MultiSpec.
Open Scope nat_scope.

(** A call that makes [v] the value of [x]: store, assignment or exchange. *)
Definition puts (x : nat) (v : N) (c : call) : Prop :=
  target c = x /\ exists i, asked c = IntCall i /\ (int_op i = AStore v \/ int_op i = AAssign v \/ int_op i = AExchange v).
(** A load of [x], or a conversion, that found [r]. *)
Definition finds (x : nat) (r : N) (co : call * reply) : Prop :=
  target (fst co) = x /\ exists i, asked (fst co) = IntCall i /\ int_op i = ALoad /\ snd co = IntReply (Some r).

Section Thread.
(** The flags of the thread and of the other one, and the turn; [them] is the value with which the
    thread yields the turn.  A flag is lowered if it is 0. *)
Variables (mine theirs turn : nat) (them : N).
Variable rs : list (call * reply).
(** With call number [k] the thread may enter its critical section: it has raised its flag (call [i]) and
    then yielded the turn (call [j]), not touched either since, and finds in call [k] that it need not wait. *)
Definition enters (k : nat) : Prop :=
  exists i j ci cj ck v, i < j /\ j < k /\
    nth_error rs i = Some ci /\ puts mine v (fst ci) /\ v <> 0%N /\
    nth_error rs j = Some cj /\ puts turn them (fst cj) /\
    nth_error rs k = Some ck /\ (finds theirs 0 ck \/ exists r, finds turn r ck /\ r <> them) /\
    forall m cm, i < m < k -> m <> j -> nth_error rs m = Some cm -> target (fst cm) = mine \/ target (fst cm) = turn -> access_of (asked (fst cm)) = Reads.
(** With call number [u] the thread lowers its flag. *)
Definition lowers (u : nat) : Prop := exists cu, nth_error rs u = Some cu /\ puts mine 0 (fst cu).
(** The call number [k] is made in the critical section entered with call number [l]. *)
Definition inside (l k : nat) : Prop := l < k /\ enters l /\ forall u, l < u <= k -> ~ lowers u.
(** The thread puts values into its own flag and yields the turn; other than that it only reads the
    three objects.  Once it has entered it yields the turn again only after lowering its flag. *)
Record follows : Prop := {
  own_flag : forall k co, nth_error rs k = Some co -> target (fst co) = mine -> access_of (asked (fst co)) = Reads \/ exists v, puts mine v (fst co);
  other_flag : forall k co, nth_error rs k = Some co -> target (fst co) = theirs -> access_of (asked (fst co)) = Reads;
  the_turn : forall k co, nth_error rs k = Some co -> target (fst co) = turn -> access_of (asked (fst co)) = Reads \/ puts turn them (fst co);
  leaves_first : forall l j co, enters l -> l < j -> nth_error rs j = Some co -> puts turn them (fst co) -> exists u, l < u < j /\ lowers u }.
End Thread.

Section Threads.
Variables (fa fb turn : nat).
Definition one_of (x : nat) : Prop := x = fa \/ x = fb \/ x = turn.
(** Threads [a] and [b] use the lock, with the flags [fa] and [fb]; other threads only read it. *)
Record peterson (rs : nat -> list (call * reply)) (a b : nat) (to_b to_a : N) : Prop := {
  two_threads : a <> b;
  three_objects : NoDup [fa; fb; turn];
  two_values : to_b <> to_a;
  follows_a : follows fa fb turn to_b (rs a);
  follows_b : follows fb fa turn to_a (rs b);
  others_read : forall t k co, t <> a -> t <> b -> nth_error (rs t) k = Some co -> one_of (target (fst co)) -> access_of (asked (fst co)) = Reads }.

(** Every call on the three objects has the default memory order. *)
Definition default_orders (programs : list (list call)) : Prop := forall c, In c (concat programs) -> one_of (target c) -> wanted (asked c) = SeqCst.
(** Calls that modify the three objects release, calls that read them acquire. *)
Definition release_acquire (programs : list (list call)) : Prop :=
  forall c, In c (concat programs) -> one_of (target c) ->
    (access_of (asked c) <> Reads -> is_release (wanted (asked c)) = true) /\ (access_of (asked c) <> Replaces -> is_acquire (wanted (asked c)) = true).
(** The turn is yielded by exchange. *)
Definition turn_by_exchange (programs : list (list call)) : Prop :=
  forall c, In c (concat programs) -> target c = turn -> access_of (asked c) <> Replaces.
End Threads.
