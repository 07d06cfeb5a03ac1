(** What a user expects of an atomic integer that threads count down, and that other threads watch until it
    is 0. *)
From Verif Require Import Base ConcModel AtomicModel MultiModel MultiSpec PetersonSpec CountSpec.
Open Scope nat_scope.

Section Countdown.
(** The calls of each thread that have taken effect, with their replies, the number of threads, the object and
    the number it starts with. *)
Variables (rs : nat -> list (call * reply)) (threads x : nat) (v0 : N).
(** The threads only look at the object or take one away, and do so no more often than was agreed. *)
Record countdown : Prop := {
  cd_calls : only rs x (fun op => looks op || takes_one op);
  cd_agreed : (N.of_nat (made rs threads x takes_one) <= v0)%N }.
(** Call number [k] of thread [t] takes one away; finds that all have been taken away. *)
Definition arrives (t k : nat) : Prop := exists co, nth_error (rs t) k = Some co /\ is_call x takes_one (fst co) = true.
Definition finds_done (t k : nat) : Prop := exists co, nth_error (rs t) k = Some co /\ finds x 0 co.
(** Calls that take one away release; call number [k] of thread [t] acquires. *)
Definition arrivals_release : Prop := forall t k co, nth_error (rs t) k = Some co -> is_call x takes_one (fst co) = true -> is_release (wanted (asked (fst co))) = true.
Definition acquires_at (t k : nat) : Prop := forall co, nth_error (rs t) k = Some co -> is_acquire (wanted (asked (fst co))) = true.
End Countdown.
