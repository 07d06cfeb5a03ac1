(** Theorems about a lock whose threads draw numbers from one stdx::atomic counter and wait for another.
    Statements use TicketSpec (the program) and WaitSpec (fair schedules). *)
From Verif Require Import Base ConcModel AtomicModel WaitModel WaitSpec WaitProofs2 WaitProps TicketSpec TicketProofs TicketProofs2.
Open Scope nat_scope.

(** C147: if there are no more threads than the counters have values, then under every fair schedule in
    which no thread stays inside for ever a thread that waits comes in, however often the counters roll
    over, ... *)
Theorem C147_enters iw w ew n sched : (w <= ew)%N -> (N.of_nat n <= 2 ^ w)%N ->
  fair n sched -> leaves Within n (ticket_run iw w ew n sched) ->
  forall i l t, ticket_waits l -> is_at l (ticket_run iw w ew n sched t) i ->
  exists t', t <= t' /\ is_at Within (ticket_run iw w ew n sched t') i.
Proof. exact (fun Hw Hn => ticket_enters iw w ew Hw n sched Hn). Qed.
Print Assumptions C147_enters.

(** ... never two are inside at once, whatever the schedule, ... *)
Theorem C147_excludes iw w ew n sched t i j : (w <= ew)%N -> (N.of_nat n <= 2 ^ w)%N ->
  is_at Within (ticket_run iw w ew n sched t) i -> is_at Within (ticket_run iw w ew n sched t) j -> i = j.
Proof. exact (fun Hw Hn => ticket_excludes iw w ew Hw n sched Hn t i j). Qed.
Print Assumptions C147_excludes.

(** ... and they come in in the order in which they came: while a thread that had its number before
    another one came still waits, the other one does not come in. *)
Theorem C147_in_order iw w ew n sched i j t1 t : (w <= ew)%N -> (N.of_nat n <= 2 ^ w)%N -> t1 <= t ->
  has_number (ticket_run iw w ew n sched t1) i -> is_at Outside (ticket_run iw w ew n sched t1) j ->
  (forall u, t1 <= u <= t -> ~ is_at Within (ticket_run iw w ew n sched u) i) ->
  ~ is_at Within (ticket_run iw w ew n sched t) j.
Proof. exact (fun Hw Hn => ticket_in_order iw w ew Hw n sched Hn i j t1 t). Qed.
Print Assumptions C147_in_order.

(** With more threads than values two can be inside at once. *)
Theorem C147_too_many_refuted iw w ew n : (w <= ew)%N -> (2 ^ w < N.of_nat n)%N ->
  exists sched t i j, i <> j /\ is_at Within (ticket_run iw w ew n sched t) i /\ is_at Within (ticket_run iw w ew n sched t) j.
Proof. exact (fun Hw Hn => ticket_crowd w n Hn iw ew Hw). Qed.
Print Assumptions C147_too_many_refuted.

(** The hypotheses are met: any number of threads up to 256 with std::uint8_t counters in 32-bit words,
    in turn. *)
Example C147_in_turn n : n <= 256 ->
  (8 <= 32)%N /\ (N.of_nat n <= 2 ^ 8)%N /\ fair n (in_turn n) /\ leaves Within n (ticket_run 32 8 32 n (in_turn n)).
Proof.
  intros H. split; [lia|]. split; [change (2 ^ 8)%N with 256%N; lia|]. split; [apply in_turn_fair|].
  apply eager_ticket; [lia|apply in_turn_fair|reflexivity].
Qed.
(** Two threads and counters of one bit: the second thread has the number 1 before the first one comes
    back (21), comes in before it (26), and the counters roll over again and again. *)
Example C147_two_threads : map (fun t => places (ticket_run 32 1 32 2 (in_turn 2) t)) [0; 8; 13; 21; 26; 35; 42; 48; 57] =
  [[Outside; Outside]; [Look 0; Look 1]; [Within; Look 1]; [Outside; Look 1]; [Draw; Within]; [Within; Outside];
   [Leave; Look 1]; [Draw; Within]; [Within; Outside]].
Proof. vm_compute. reflexivity. Qed.
