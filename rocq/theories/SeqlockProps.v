(** Theorems about a sequence lock that is made of a stdx::atomic counter and stdx::atomic words.  Statements
    use SeqlockSpec (the program and the versions it writes) and WaitSpec (fair schedules). *)
From Verif Require Import Base ConcModel AtomicModel WaitModel WaitSpec WaitProofs WaitProofs2 WaitProps SeqlockSpec SeqlockProofs SeqlockProofs2.
Open Scope nat_scope.

Section C151.
(** Counters of [w] bits and words of [vw] bits in elem_t of [ew] bits; [k] words, [n] readers. *)
Variables (iw w vw ew : N) (k n : nat) (item : nat -> nat -> N).
Hypotheses (Hw : (w <= ew)%N) (Hv : (vw <= ew)%N) (Hi : forall v j, (item v j < 2 ^ vw)%N) (Hk : 0 < k) (Hw1 : (1 <= w)%N).

(** C151: whatever the schedule, what a reader gets is one version: one that was there while it read, if the
    counter does not come round to the same number while it reads. *)
Theorem C151_snapshot sched i t1 t2 v1 v2 got : t1 <= t2 ->
  is_at Rest (seq_run k item iw w vw ew n sched t1) (S i) -> is_at (Got got) (seq_run k item iw w vw ew n sched t2) (S i) ->
  written (seq_run k item iw w vw ew n sched t1) v1 -> written (seq_run k item iw w vw ew n sched t2) v2 ->
  (N.of_nat (2 * (S v2 - v1)) < 2 ^ w)%N ->
  exists a, v1 <= a <= S v2 /\ got = version k item a.
Proof. exact (snapshot iw w vw ew k n item Hw Hv Hi Hk sched Hw1 i t1 t2 v1 v2 got). Qed.

(** The writer waits for nobody: it writes every version, whatever the readers do. *)
Theorem C151_writer_goes_on sched : fair (S n) sched -> (forall v, leaves (Pause v) (S n) (seq_run k item iw w vw ew n sched)) ->
  forall v, exists t, is_at (Pause v) (seq_run k item iw w vw ew n sched t) 0.
Proof. intros F Lv v. exact (writes_all iw w vw ew k n item Hw Hv Hi Hk Hw1 sched F Lv v). Qed.

(** A reader that begins to read when the writer has stopped gets the version that was written last. *)
Theorem C151_reader_goes_on sched t v i : fair (S n) sched -> (forall u, t <= u -> is_at (Pause v) (seq_run k item iw w vw ew n sched u) 0) ->
  i < n -> is_at See (seq_run k item iw w vw ew n sched t) (S i) ->
  exists t', t <= t' /\ is_at (Got (version k item v)) (seq_run k item iw w vw ew n sched t') (S i).
Proof.
  intros F St Hin A. apply (reader_done iw w vw ew k n item Hw Hv Hi Hk Hw1 sched F t v i); try assumption.
  intros u Lu. specialize (St u Lu). apply (at_writer iw w vw ew k n item Hw Hv Hi Hk) in St. revert St. destruct (wr (L w vw k n item sched u)); intros E; try discriminate E. now injection E as ->.
Qed.

(** If the counter can come round while a reader reads, the reader may get words of two versions, ... *)
Theorem C151_torn_refuted : 2 <= k -> 1 <= n -> (forall v j, item v j <> 0%N) ->
  exists sched t got, is_at (Got got) (seq_run k item iw w vw ew n sched t) 1 /\ forall a, got <> version k item a.
Proof. exact (torn_run iw w vw ew k n item Hw Hv Hi Hk Hw1). Qed.

(** ... and if the writer does not stop, a reader may try for ever, although all threads take steps again and again. *)
Theorem C151_starves_refuted : exists sched, fair 2 sched /\
  (forall v, exists t, is_at (Pause v) (seq_run k item iw w vw ew 1 sched t) 0) /\
  forall t, 1 <= t -> is_at See (seq_run k item iw w vw ew 1 sched t) 1.
Proof.
  exists (unlucky k). split; [exact (unlucky_fair w vw ew k item Hw Hv Hi Hk Hw1)|]. split; [intros v; now apply (unlucky_writes iw w vw ew k 1 item Hw Hv Hi Hk Hw1 eq_refl)|].
  intros t. now apply (starves iw w vw ew k 1 item Hw Hv Hi Hk Hw1 eq_refl).
Qed.
End C151.
Print Assumptions C151_snapshot.
Print Assumptions C151_writer_goes_on.
Print Assumptions C151_reader_goes_on.
Print Assumptions C151_torn_refuted.
Print Assumptions C151_starves_refuted.

(** The hypotheses are met: three 16-bit words and an 8-bit counter in 32-bit words, two readers; word [j] of
    version [v + 1] is v + j + 1, as long as that is at most 1000. *)
Definition demo_item (v j : nat) : N := N.of_nat ((v + j) mod 1000 + 1).
Lemma demo_bound v j : (demo_item v j < 2 ^ 16)%N.
Proof. unfold demo_item. pose proof (Nat.mod_upper_bound (v + j) 1000 ltac:(lia)). change (2 ^ 16)%N with 65536%N. lia. Qed.
(** All threads in turn; the writer goes on for ever. *)
Example C151_in_turn : fair 3 (in_turn 3) /\ forall v, leaves (Pause v) 3 (seq_run 3 demo_item 32 8 16 32 2 (in_turn 3)).
Proof.
  split; [apply in_turn_fair|]. apply eager_seqlock; try lia; [apply demo_bound|apply in_turn_fair|reflexivity].
Qed.
(** The writer writes three versions and stops; reader 2 began before that, reader 1 afterwards. *)
Definition stops (t : nat) : nat * bool :=
  if t <? 20 then (0, true) else if t <? 25 then (2, true) else if t <? 53 then (0, true) else (t mod 3, negb (t mod 3 =? 0)).
Example C151_stops : fair 3 stops /\ (forall u, 54 <= u -> is_at (Pause 3) (seq_run 3 demo_item 32 8 16 32 2 stops u) 0) /\
  is_at See (seq_run 3 demo_item 32 8 16 32 2 stops 56) 2.
Proof.
  assert (F : fair 3 stops).
  { intros i Hi t. exists (i + (t + 18) * 3). split; [lia|]. unfold stops.
    destruct (Nat.ltb_spec (i + (t + 18) * 3) 20); [lia|]. destruct (Nat.ltb_spec (i + (t + 18) * 3) 25); [lia|]. destruct (Nat.ltb_spec (i + (t + 18) * 3) 53); [lia|].
    cbn [fst]. rewrite Nat.mod_add by lia. now apply Nat.mod_small. }
  split; [exact F|]. split.
  - apply stays_paused; try lia; [apply demo_bound| |vm_compute; eexists; split; reflexivity].
    intros t Lt. unfold stops. destruct (Nat.ltb_spec t 20); [lia|]. destruct (Nat.ltb_spec t 25); [lia|]. destruct (Nat.ltb_spec t 53); [lia|]. cbn [fst snd]. intros ->. reflexivity.
  - vm_compute. eexists. split; reflexivity.
Qed.
Example C151_runs : map (fun t => places (seq_run 3 demo_item 32 8 16 32 2 stops t)) [20; 25; 53; 93; 101] =
  [[Fill 1 0; Rest; Rest]; [Fill 1 0; Rest; See]; [Pause 3; Rest; See]; [Pause 3; Check 6 [3; 4; 5]%N; Got [3; 4; 5]%N]; [Pause 3; Got [3; 4; 5]%N; See]].
Proof. vm_compute. reflexivity. Qed.
