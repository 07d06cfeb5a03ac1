(** Theorems about a barrier that is made of two stdx::atomic counters.  Statements use BarrierSpec (the
    program) and WaitSpec (fair schedules). *)
From Verif Require Import Base ConcModel AtomicModel WaitModel WaitSpec WaitProofs2 WaitProps BarrierSpec BarrierProofs.
Open Scope nat_scope.

(** C150: if there are fewer threads than the counters have values, then under every fair schedule in which
    no thread works for ever every thread gets to every round, however often the counters roll over, ... *)
Theorem C150_goes_on iw w ew n sched : (w <= ew)%N -> (N.of_nat n < 2 ^ w)%N ->
  fair n sched -> (forall r, leaves (Work r) n (barrier_run iw w ew n sched)) ->
  forall i r, i < n -> exists t, is_at (Work r) (barrier_run iw w ew n sched t) i.
Proof. intros Hw Hn F L i r Hi. apply works; try assumption. lia. Qed.
Print Assumptions C150_goes_on.

(** ... and whatever the schedule, while a thread works in a round all others are in that round too, or
    have done the work of the round before and are about to go on. *)
Theorem C150_together iw w ew n sched t i j r l : (w <= ew)%N -> (N.of_nat n < 2 ^ w)%N ->
  is_at (Work r) (barrier_run iw w ew n sched t) i -> is_at l (barrier_run iw w ew n sched t) j ->
  round l = r \/ S (round l) = r /\ forall q, l <> Work q.
Proof.
  intros Hw Hn Hi Hj. eapply (same_round iw w ew n Hw sched Hn); [|exact Hi|exact Hj].
  apply at_Q in Hi; [|exact Hw]. destruct Hi as (k & E & _). rewrite <- (Q_length w n sched t). assert (i < length (ks (Q w n sched t))) by (apply nth_error_Some; congruence). lia.
Qed.
Print Assumptions C150_together.

(** With as many threads as the counters have values, or more, nobody ever gets beyond the first round. *)
Theorem C150_too_many_refuted iw w ew n sched t i l : (w <= ew)%N -> (2 ^ w <= N.of_nat n)%N ->
  is_at l (barrier_run iw w ew n sched t) i -> round l = 0.
Proof. intros Hw Hn H. exact (nobody_passes iw w ew n sched Hw Hn l t i H). Qed.
Print Assumptions C150_too_many_refuted.

(** The hypotheses are met: up to 255 threads with std::uint8_t counters in 32-bit words, in turn. *)
Example C150_in_turn n : n <= 255 -> (8 <= 32)%N /\ (N.of_nat n < 2 ^ 8)%N /\ fair n (in_turn n) /\
  forall r, leaves (Work r) n (barrier_run 32 8 32 n (in_turn n)).
Proof.
  intros H. split; [lia|]. split; [change (2 ^ 8)%N with 256%N; lia|]. split; [apply in_turn_fair|].
  apply eager_barrier; [lia|apply in_turn_fair|reflexivity].
Qed.
(** Three threads and counters of two bits, through more rounds than the counters have values. *)
Example C150_three_threads : map (fun t => places (barrier_run 32 2 32 3 (in_turn 3) t)) [0; 21; 45; 90; 300] =
  [[Work 0; Work 0; Work 0]; [Wait 0 0; Wait 0 0; Zero 0]; [Wait 0 0; Wait 0 0; See 1]; [Wait 1 1; See 2; See 2]; [Wait 6 2; Wait 6 2; Open 6]].
Proof. vm_compute. reflexivity. Qed.
