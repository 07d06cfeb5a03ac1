(** What a user expects of a lock made of two atomic counters: each thread draws a number from [next], waits
    until [serving] has that number, and adds one to [serving] when it leaves. *)
From Verif Require Import Base ConcModel AtomicModel MultiModel MultiSpec PetersonSpec RingSpec CountSpec.
Open Scope nat_scope.

Section Ticket.
(** The counters, which have [w] bits, and the calls of each thread that have taken effect, with their replies. *)
Variables (next serving : nat) (w : N) (rs : nat -> list (call * reply)).

(** The calls of thread [t] after number [d] and before number [k] neither draw nor leave. *)
Definition waits (t d k : nat) : Prop :=
  forall m co, d < m < k -> nth_error (rs t) m = Some co -> modifying next co = false /\ modifying serving co = false.
(** Thread [t] has drawn the number [v] with its call number [d], and finds with its call number [l] that it
    may enter. *)
Definition enters (t d l : nat) (v : N) : Prop :=
  d < l /\ counted rs next w adds_one t d v /\ (exists co, nth_error (rs t) l = Some co /\ finds serving v co) /\ waits t d l.
(** Call number [k] is made in the critical section that was entered with call number [l], or ends it. *)
Definition within (t l k : nat) : Prop := (exists d v, enters t d l v) /\ l < k /\ waits t l k.
Definition leaves (t k : nat) : Prop := exists co, nth_error (rs t) k = Some co /\ modifying serving co = true.

(** The threads draw with calls that add one, leave only when they are within, by making [serving] the number
    after theirs or by adding one, and draw again only when they have left. *)
Record ticket_lock (objs : nat -> object_type) (st : nat -> obj_state) : Prop := {
  tl_counters : next <> serving /\ forall x, x = next \/ x = serving -> st x = IntState 0 /\ exists iw ew sg esg, objs x = Int iw w ew sg esg;
  tl_draw : only rs next (fun op => looks op || adds_one op);
  tl_leave : forall t k co, nth_error (rs t) k = Some co -> modifying serving co = true ->
    exists d l v, enters t d l v /\ l < k /\ waits t l k /\ increases serving ((v + 1) mod 2 ^ w) (fst co);
  tl_again : forall t d d' co co', d < d' -> nth_error (rs t) d = Some co -> nth_error (rs t) d' = Some co' ->
    modifying next co = true -> modifying next co' = true -> exists k, d < k < d' /\ leaves t k }.

(** Calls that leave release, loads of [serving] acquire. *)
Definition serving_release_acquire : Prop :=
  forall t k co, nth_error (rs t) k = Some co -> target (fst co) = serving ->
    (access_of (asked (fst co)) <> Reads -> is_release (wanted (asked (fst co))) = true) /\
    (access_of (asked (fst co)) = Reads -> is_acquire (wanted (asked (fst co))) = true).
(** Calls that draw do both. *)
Definition next_acquire_release : Prop :=
  forall t k co, nth_error (rs t) k = Some co -> modifying next co = true ->
    is_release (wanted (asked (fst co))) = true /\ is_acquire (wanted (asked (fst co))) = true.
(** There are [threads] threads, no more than there are numbers, and draws are ordered; or else there are no
    more draws than there are numbers. *)
Definition enough_numbers (threads : nat) : Prop :=
  (N.of_nat threads <= 2 ^ w)%N /\ next_acquire_release \/ (N.of_nat (made rs threads next adds_one) <= 2 ^ w)%N.
End Ticket.
