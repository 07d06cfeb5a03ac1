(** Theorems about threads that wait for a lock built from stdx::atomic<bool>, under schedules without
    end.  Statements use WaitSpec (fair schedules, the two programs) and WaitModel (the steps). *)
From Verif Require Import Base ConcModel AtomKindModel WaitModel WaitSpec WaitProofs WaitProofs2.
Open Scope nat_scope.

(** C146: under every schedule in which both threads take steps again and again, and in which no thread
    stays inside for ever, a thread that has begun to wait for Peterson's lock comes in. *)
Theorem C146_peterson_enters ew sched : (0 < ew)%N -> fair 2 sched -> leaves Inside 2 (peterson_run ew sched) ->
  forall i l t, peterson_waits l -> is_at l (peterson_run ew sched t) i ->
  exists t', t <= t' /\ is_at Inside (peterson_run ew sched t') i.
Proof. exact (peterson_enters ew sched). Qed.
Print Assumptions C146_peterson_enters.

(** ... and never two at once, whatever the schedule. *)
Theorem C146_peterson_excludes ew sched t : (0 < ew)%N ->
  ~ (is_at Inside (peterson_run ew sched t) 0 /\ is_at Inside (peterson_run ew sched t) 1).
Proof. exact (peterson_excludes ew sched t). Qed.
Print Assumptions C146_peterson_excludes.

(** C146: of any number of threads with a lock that is taken by exchange(true) and given back by
    assigning false, when one waits, then it or another one gets the lock. *)
Theorem C146_spin_some_enters ew n sched : (0 < ew)%N -> fair n sched -> leaves Held n (spin_run ew n sched) ->
  forall i t, is_at Try (spin_run ew n sched t) i ->
  exists j t', j < n /\ t <= t' /\ gets (spin_run ew n sched) j t'.
Proof. exact (spin_some_enters ew n sched). Qed.
Print Assumptions C146_spin_some_enters.

Theorem C146_spin_excludes ew n sched t i j : (0 < ew)%N ->
  is_at Held (spin_run ew n sched t) i -> is_at Held (spin_run ew n sched t) j -> i = j.
Proof. exact (spin_excludes ew n sched t i j). Qed.
Print Assumptions C146_spin_excludes.

(** "The thread that waits gets it" is false of this lock: there is a schedule that is fair and in which
    no thread keeps the lock for ever, and a thread that waits from its first step on, for ever. *)
Theorem C146_spin_starves_refuted ew : (0 < ew)%N -> exists sched, fair 2 sched /\ leaves Held 2 (spin_run ew 2 sched) /\
  forall t, 1 <= t -> is_at Try (spin_run ew 2 sched t) 1.
Proof. exact (spin_starves ew). Qed.
Print Assumptions C146_spin_starves_refuted.

(** The hypotheses are met: threads that take turns and end at once what they do of their own. *)
Definition in_turn (n t : nat) : nat * bool := (t mod n, true).
Lemma in_turn_fair n : fair n (in_turn n).
Proof.
  intros i Hi t. exists (i + t * n). split; [nia|]. unfold in_turn. cbn. rewrite Nat.mod_add by lia. now apply Nat.mod_small.
Qed.
Example C146_peterson_in_turn ew : (0 < ew)%N -> fair 2 (in_turn 2) /\ leaves Inside 2 (peterson_run ew (in_turn 2)).
Proof.
  intros H. split; [apply in_turn_fair|]. apply (eager_peterson ew (in_turn 2) H (in_turn_fair 2)). reflexivity.
Qed.
Example C146_spin_in_turn ew n : (0 < ew)%N -> fair n (in_turn n) /\ leaves Held n (spin_run ew n (in_turn n)).
Proof.
  intros H. split; [apply in_turn_fair|]. apply (eager_spin ew n (in_turn n) H (in_turn_fair n)). reflexivity.
Qed.
(** Two threads in turn: both wait, thread 0 comes in and out, and thread 1 comes in after it; of three
    threads with the other lock the first and the second get it. *)
Definition places {L V} (s : state L V) : list L := map place (threads s).
Example C146_peterson_first : map (fun t => places (peterson_run 8 (in_turn 2) t)) [8; 14; 20; 27; 36; 50]
  = [[Yield; Yield]; [LookFlag; LookFlag]; [LookTurn; LookTurn]; [Lower; LookFlag]; [Raise; LookTurn]; [LookFlag; Inside]].
Proof. vm_compute. reflexivity. Qed.
Example C146_spin_first : map (fun t => places (spin_run 8 3 (in_turn 3) t)) [3; 12; 15; 24; 27; 30]
  = [[Try; Try; Try]; [Held; Try; Try]; [Unlock; Try; Try]; [Away; Try; Try]; [Try; Try; Try]; [Try; Held; Try]].
Proof. vm_compute. reflexivity. Qed.
