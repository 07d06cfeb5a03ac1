(** What a user expects of threads that work in phases: each adds one to an atomic counter at the end of a phase and
    goes on when all have done so. *)
From Verif Require Import Base ConcModel AtomicModel MultiModel MultiSpec PetersonSpec CountSpec.
Open Scope nat_scope.

Section Phases.
(** The calls of each thread that have taken effect, with their replies, the number of threads, the counter and its
    number of bits. *)
Variables (rs : nat -> list (call * reply)) (threads x : nat) (w : N).
(** In which phase call number [k] of thread [t] is made: how often the thread has added one before. *)
Definition phase (t k : nat) : nat := number x adds_one (firstn k (rs t)).
(** With call number [l], thread [t] finds that all threads have ended the phases up to [r]. *)
Definition passes (t l r : nat) : Prop :=
  exists co v, nth_error (rs t) l = Some co /\ finds x v co /\ (N.of_nat (threads * S r) <= v)%N.
(** The threads only look at the counter or add one to it; they end a phase only after they have found, in this
    phase, that all have ended the one before; and the counter does not roll over. *)
Record in_phases : Prop := {
  ph_calls : only rs x (fun op => looks op || adds_one op);
  ph_wait : forall t k co r, nth_error (rs t) k = Some co -> is_call x adds_one (fst co) = true -> phase t k = S r ->
    exists l, l < k /\ phase t l = S r /\ passes t l r;
  ph_enough : (N.of_nat (made rs threads x adds_one) < 2 ^ w)%N }.
(** Calls that end a phase release; call number [l] of thread [t] acquires. *)
Definition ends_release : Prop := forall t k co, nth_error (rs t) k = Some co -> is_call x adds_one (fst co) = true -> is_release (wanted (asked (fst co))) = true.
Definition pass_acquires (t l : nat) : Prop := forall co, nth_error (rs t) l = Some co -> is_acquire (wanted (asked (fst co))) = true.
End Phases.
