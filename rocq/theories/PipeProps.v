(** Theorems about a queue between two threads made of two stdx::atomic counters and an array of slots.
    Statements use PipeSpec (the program) and WaitSpec (fair schedules). *)
From Verif Require Import Base ConcModel AtomicModel WaitModel WaitSpec WaitProps PipeSpec PipeProofs PipeProofs2.
Open Scope nat_scope.

(** C149: if both threads take steps again and again, every item comes out, however often the counters
    roll over: at some time the first [m] have, for every [m]; and the producer passes on as many. *)
Theorem C149_delivers iw w vw ew size item sched : (w <= ew)%N -> (vw <= ew)%N -> (forall i, item i < 2 ^ vw)%N ->
  0 < size -> (N.of_nat size < 2 ^ w)%N -> fair 2 sched ->
  forall m, exists t got i, received (pipe_run w size item iw vw ew sched t) got /\ m <= length got /\
                            passed_on (pipe_run w size item iw vw ew sched t) i /\ m <= i.
Proof.
  intros Hw Hv Hi Hs Hl F m. destruct (reaches w vw ew size item Hw Hv Hi Hs Hl sched F (m + 1)) as (t & H).
  destruct (passed_some iw w vw ew item (R w vw size item sched t)) as (i & Pi).
  exists t, (got (cc (R w vw size item sched t))), i. rewrite (pipe_run_R iw w vw ew size item Hw Hv Hi Hs Hl).
  pose proof (got_length w vw ew size item Hw Hv Hi Hs (R w vw size item sched t)). pose proof (passed_tl iw w vw ew size item Hw Hv Hi Hs _ _ Pi).
  destruct (inv_R w vw ew size item Hw Hv Hi Hs Hl sched t) as (B & _).
  split; [apply received_got; reflexivity|]. split; [lia|]. split; [exact Pi|]. lia.
Qed.
Print Assumptions C149_delivers.

(** Whatever the schedule, the items come out in the order in which they went in, each once, ... *)
Theorem C149_in_order iw w vw ew size item sched t got : (w <= ew)%N -> (vw <= ew)%N -> (forall i, item i < 2 ^ vw)%N ->
  0 < size -> (N.of_nat size < 2 ^ w)%N -> received (pipe_run w size item iw vw ew sched t) got ->
  got = map item (seq 0 (length got)).
Proof.
  intros Hw Hv Hi Hs Hl Rc. rewrite (pipe_run_R iw w vw ew size item Hw Hv Hi Hs Hl) in Rc. apply received_got in Rc. subst got.
  apply (inv_R w vw ew size item Hw Hv Hi Hs Hl sched t).
Qed.
Print Assumptions C149_in_order.

(** ... and the producer is never more than [size] items ahead, nor behind. *)
Theorem C149_bounded iw w vw ew size item sched t got i : (w <= ew)%N -> (vw <= ew)%N -> (forall i, item i < 2 ^ vw)%N ->
  0 < size -> (N.of_nat size < 2 ^ w)%N -> received (pipe_run w size item iw vw ew sched t) got ->
  passed_on (pipe_run w size item iw vw ew sched t) i -> i <= length got + size /\ length got <= i + 1.
Proof.
  intros Hw Hv Hi Hs Hl Rc Pi. rewrite (pipe_run_R iw w vw ew size item Hw Hv Hi Hs Hl) in *. apply received_got in Rc. subst got.
  apply (passed_tl iw w vw ew size item Hw Hv Hi Hs) in Pi. destruct (inv_R w vw ew size item Hw Hv Hi Hs Hl sched t) as (B & _ & _ & _ & _ & C).
  unfold c_ok in C. destruct (cc (R w vw size item sched t)); cbn [PipeProofs.got hd] in *; rewrite ?app_length; cbn [length]; lia.
Qed.
Print Assumptions C149_bounded.

(** With as many slots as the counters have values, or more, items are lost: the first one that comes
    out can be item number [size]. *)
Theorem C149_too_big_refuted iw w vw ew size item : (0 < w <= ew)%N -> (vw <= ew)%N -> (forall i, item i < 2 ^ vw)%N ->
  (2 ^ w <= N.of_nat size)%N ->
  exists sched t, fair 2 sched /\ received (pipe_run w size item iw vw ew sched t) [item size].
Proof.
  intros [Hw0 Hw] Hv Hi Hb. apply overwrites; try assumption. pose proof (N.pow_nonzero 2 w ltac:(lia)). lia.
Qed.
Print Assumptions C149_too_big_refuted.

(** The hypotheses are met: std::uint8_t counters, 32-bit words, any number of slots up to 255, any
    32-bit items, the threads in turn. *)
Example C149_in_turn size (item : nat -> N) : 0 < size <= 255 -> (forall i, item i < 2 ^ 32)%N ->
  (8 <= 32)%N /\ (32 <= 32)%N /\ (forall i, item i < 2 ^ 32)%N /\ 0 < size /\ (N.of_nat size < 2 ^ 8)%N /\ fair 2 (in_turn 2).
Proof. intros H Hi. change (2 ^ 8)%N with 256%N. repeat split; try lia; try exact Hi. apply in_turn_fair. Qed.
(** Counters of two bits and three slots: they have rolled over twice. *)
Example C149_run : exists t, received (pipe_run 2 3 (fun i => N.of_nat i * 7)%N 32 16 32 (in_turn 2) t) [0; 7; 14; 21; 28; 35; 42; 49; 56; 63]%N.
Proof. exists 200. right. left. vm_compute. eexists. split; reflexivity. Qed.
