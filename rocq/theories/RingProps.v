(** * C119: a queue between two threads *)
From Coq Require Import Permutation.
From Verif Require Import Base BitModel ConcModel RelaxedModel AtomicModel AtomicSpec AtomicBitsetModel AtomicBitsetSpec MultiModel MultiSpec MultiProofs MultiProofs4 MultiProofs5 MultiProps.
From Verif Require Import RaceSpec RaceProps PetersonSpec PetersonProofs PetersonProps RingSpec RingProofs RingProofs2.
Open Scope nat_scope.

(** What push number [i] does to a slot happens before what pop number [j] does, if [i <= j], so before the
    item is taken out; and what pop number [j] does happens before the pushes that use the room it makes. *)
Theorem C119_order : forall objs st programs contents n evss ts outss head tail w slot size p c i j k k',
  shared_run objs st programs contents n evss ts outss -> counters_release_acquire head tail programs ->
  let rs := replies ts outss in ring head tail w slot size objs st rs p c ->
  in_push tail slot size (rs p) i k -> in_pop head slot size (rs c) j k' ->
  (i <= j -> happens_before evss (p, k) (c, k')) /\ (j + size <= i -> happens_before evss (c, k') (p, k)).
Proof. intros objs st programs contents n evss ts outss head tail w slot size p c i j k k' R RA rs G A B. split; intros L; [eapply push_first|eapply pop_first]; eassumption. Qed.
Print Assumptions C119_order.
(** What comes out is what went in, in the same order. *)
Theorem C119_fifo : forall objs st programs contents n evss ts outss head tail w slot size p c i v v',
  shared_run objs st programs contents n evss ts outss -> counters_release_acquire head tail programs ->
  let rs := replies ts outss in ring head tail w slot size objs st rs p c ->
  pushed tail slot size (rs p) i v -> popped head slot size (rs c) i v' -> v = v'.
Proof. intros objs st programs contents n evss ts outss head tail w slot size p c i v v' R RA rs G A B. eapply fifo; eassumption. Qed.
Print Assumptions C119_fifo.
(** The calls on the slots never race, whatever their own memory orders: they give the replies they would
    give if they were made one after the other. *)
Theorem C119_data : forall objs st programs contents n evss ts outss head tail w slot size p c P,
  shared_run objs st programs contents n evss ts outss -> counters_release_acquire head tail programs ->
  let rs := replies ts outss in ring head tail w slot size objs st rs p c ->
  (forall x, P x = true -> is_slot slot size x) ->
  no_races evss rs P /\
  exists l st', one_after_the_other objs st rs P l st' /\ forall x, P x = true -> represents (objs x) (contents x (n x)) (st' x).
Proof.
  intros objs st programs contents n evss ts outss head tail w slot size p c P R RA rs G Sl.
  assert (NR : no_races evss rs P); [|split; [exact NR|]; now apply C104_no_races with (programs := programs) (evss := evss)].
  intros t k ca oa t' k' cb ob E E' Nt Tt Pt _. assert (Pt' : P (target cb) = true) by congruence.
  destruct (used objs st ts outss head tail w slot size p c G t k (ca, oa) E (Sl _ Pt)) as [(-> & i & Pi & Ti)|(-> & i & Pi & Ti)], (used objs st ts outss head tail w slot size p c G t' k' (cb, ob) E' (Sl _ Pt')) as [(-> & j & Pj & Tj)|(-> & j & Pj & Tj)]; try contradiction; cbn in Ti, Tj.
  - eapply push_pop_apart; try eassumption. congruence.
  - apply or_comm. eapply push_pop_apart; try eassumption. congruence.
Qed.
Print Assumptions C119_data.
(** What the threads find in the other counter: the number [h] of items taken out is never further back
    than the queue is long nor ahead, and those pops are over; and the same for the items put in.  So what
    remains of the difference after rolling over is the number of items. *)
Theorem C119_counters : forall objs st programs contents n evss ts outss head tail w slot size p c,
  shared_run objs st programs contents n evss ts outss -> counters_release_acquire head tail programs ->
  let rs := replies ts outss in ring head tail w slot size objs st rs p c ->
  (forall l cl r, nth_error (rs p) l = Some cl -> finds head r cl ->
     exists h, h <= changed tail (rs p) l <= h + size /\ r = rolled w h /\ ((Z.of_nat (changed tail (rs p) l) - Z.of_N r) mod 2 ^ Z.of_N w = Z.of_nat (changed tail (rs p) l - h))%Z /\
       forall j k, j < h -> in_pop head slot size (rs c) j k -> happens_before evss (c, k) (p, l)) /\
  (forall l cl r, nth_error (rs c) l = Some cl -> finds tail r cl ->
     exists t, changed head (rs c) l <= t <= changed head (rs c) l + size /\ r = rolled w t /\ ((Z.of_N r - Z.of_nat (changed head (rs c) l)) mod 2 ^ Z.of_N w = Z.of_nat (t - changed head (rs c) l))%Z /\
       forall i k, i < t -> in_push tail slot size (rs p) i k -> happens_before evss (p, k) (c, l)).
Proof.
  intros objs st programs contents n evss ts outss head tail w slot size p c R RA rs G. pose proof (r_width _ _ _ _ _ _ _ _ _ _ G) as Wd. unfold range in Wd. split; intros l cl r E F.
  - destruct (producer_finds objs st programs contents n evss ts outss R head tail w slot size p c G RA l cl r E F) as (h & -> & B & H). exists h. split; [exact B|]. split; [reflexivity|]. split; [|exact H].
    rewrite range_of_rolled. unfold range. rewrite Zminus_mod_idemp_r, Z.mod_small; fold rs in B; lia.
  - destruct (consumer_finds objs st programs contents n evss ts outss R head tail w slot size p c G RA l cl r E F) as (t & -> & B & H). exists t. split; [exact B|]. split; [reflexivity|]. split; [|exact H].
    rewrite range_of_rolled. unfold range. rewrite Zminus_mod_idemp_l, Z.mod_small; fold rs in B; lia.
Qed.
Print Assumptions C119_counters.

(** ** Weaker orders *)
Definition stale (sto ld : memory_order) : list (list (call * reply)) :=
  [[(int 1 ALoad (Some ld), IntReply (Some 0%N)); (int 3 (AStore 5) (Some Relaxed), IntReply None); (int 2 (AStore 1) (Some sto), IntReply None)];
   [(int 2 ALoad (Some ld), IntReply (Some 1%N)); (int 3 ALoad (Some Relaxed), IntReply (Some 0%N))]].
Definition stale_events (sto ld : memory_order) : list (list mevent) :=
  [[ev 1 PLoad ld 0%N 0; ev 3 (PStore 5) Relaxed 0%N 1; ev 2 (PStore 1) sto 0%N 1]; [ev 2 PLoad ld 1%N 1; ev 3 PLoad Relaxed 0%N 0]].
Ltac no_slot S := destruct S as ([|[|?]] & ? & S); [discriminate S|discriminate S|lia].
Ltac found l := exists l; do 2 eexists; (split; [lia|]); (split; [reflexivity|]); (split; [split; [reflexivity|eexists; repeat split; reflexivity]|]); vm_compute; repeat split; congruence.
Lemma stale_ring sto ld : ring 1 2 8 (fun m => 3 + m) 2 ex_objs ex_start (replies [@MThread call reply None []; MThread None []] (stale sto ld)) 0 1.
Proof.
  split; [discriminate|lia|reflexivity|split; [discriminate|intros m _; split; lia]|intros m m' _ _ H; lia| | | | |].
  - intros x [-> | ->]; do 4 eexists; reflexivity.
  - split; reflexivity.
  - split; cbn [replies nth stale nth_error pending mcur app].
    + intros k co E T. at_index E; try discriminate T. right. split; [left; split; [reflexivity|eexists; split; [reflexivity|now left]]|]. found 0.
    + intros k co E T. at_index E; try discriminate T; reflexivity.
    + intros k co E S. at_index E; try no_slot S. split; [reflexivity|]. found 0.
  - split; cbn [replies nth stale nth_error pending mcur app].
    + intros k co E T. at_index E; try discriminate T.
    + intros k co E T. at_index E; try discriminate T; reflexivity.
    + intros k co E S. at_index E; try no_slot S. split; [reflexivity|]. found 0.
  - intros [|[|t]] k co N1 N2 E; try contradiction. unfold replies in E. cbn in E. destruct t; cbn in E; destruct k; discriminate E.
Qed.
(** If the counter is not increased with a releasing call, or not loaded with an acquiring one, what is
    popped need not be what was pushed. *)
Theorem C119_relaxed_refuted : forall sto ld, (sto, ld) = (Relaxed, Acquire) \/ (sto, ld) = (Release, Relaxed) ->
  exists programs contents n evss outss, let ts := [MThread None []; MThread None []] in let rs := replies ts outss in
  shared_run ex_objs ex_start programs contents n evss ts outss /\
  (forall x, In x (concat programs) -> target x = 1 \/ target x = 2 -> wanted (asked x) = match access_of (asked x) with Reads => ld | _ => sto end) /\
  ring 1 2 8 (fun m => 3 + m) 2 ex_objs ex_start rs 0 1 /\ pushed 2 (fun m => 3 + m) 2 (rs 0) 0 5 /\ popped 1 (fun m => 3 + m) 2 (rs 1) 0 0.
Proof.
  intros sto ld Or. exists (map (map fst) (stale sto ld)), (fun x k => match x, k with 3, 1 => 5%N | 2, 1 => 1%N | _, _ => 0%N end), (fun x => match x with 2 | 3 => 1 | _ => 0 end), (stale_events sto ld), (stale sto ld).
  cbn zeta. split; [|split; [|split; [|split]]].
  - destruct Or as [[= -> ->]|[= -> ->]]; (split; [exact ex_types|intros [|[|[|[|x]]]]; apply ex_starts|good|unfold stale, stale_events; cbn [map fst]; runs|]); apply unsynchronized.
    1, 4: intros x; destruct x as [|[|[|[|x]]]]; cbn; split; cbn; try (intros e I; cbn in I; decompose [or] I; subst; try contradiction; cbn; try discriminate; intros; try (split; [lia|]); reflexivity);
        try apply Permutation_refl; repeat constructor; cbn; intros; discriminate.
    1, 3: intros a b (ea & eb & i & j & Ea & Eb & Ob & Rl & Ac & Wi & Rj & L & _);
      (assert (Ia : exists a, event_at (stale_events _ _) a = Some ea) by eauto); (assert (Ib : exists a, event_at (stale_events _ _) a = Some eb) by eauto);
      apply event_at_in in Ia, Ib; cbn in Ia, Ib; decompose [or] Ia; subst; try contradiction; try discriminate Rl; decompose [or] Ib; subst; try contradiction; try discriminate Ac; discriminate.
    all: cbn; intros e I; decompose [or] I; subst; try contradiction; discriminate.
  - intros x I T. cbn in I. decompose [or] I; subst; try contradiction; try reflexivity; destruct T; discriminate.
  - apply stale_ring.
  - exists 1. do 2 eexists. split; [eexists; split; [reflexivity|]; split; [exists 0; split; [lia|reflexivity]|reflexivity]|]. split; [reflexivity|]. split; [split; [reflexivity|eexists; split; [reflexivity|now left]]|].
    intros k' co' L (co2 & E & S & _) _. unfold replies in E. cbn in E. at_index E; try lia; no_slot S.
  - exists 1. do 2 eexists. split; [eexists; split; [reflexivity|]; split; [exists 0; split; [lia|reflexivity]|reflexivity]|]. split; [reflexivity|]. split; [split; [reflexivity|eexists; repeat split; reflexivity]|].
    intros k' co' L (co2 & E & S & _) _. assert (k' = 0) as -> by lia. cbn in E. injection E as <-. no_slot S.
Qed.
Print Assumptions C119_relaxed_refuted.

(** ** Example *)
(** Two slots, objects 3 and 4, used with relaxed calls; three items.  The producer looks at [head] twice,
    the consumer at [tail] twice. *)
Definition passed : list (list (call * reply)) :=
  [[(int 1 ALoad (Some Acquire), IntReply (Some 0%N)); (int 3 (AStore 5) (Some Relaxed), IntReply None); (int 2 (AStore 1) (Some Release), IntReply None);
    (int 4 (AStore 6) (Some Relaxed), IntReply None); (int 2 (AFetchAdd 1) (Some Release), IntReply (Some 1%N)); (int 1 ALoad (Some Acquire), IntReply (Some 1%N));
    (int 3 (AStore 7) (Some Relaxed), IntReply None); (int 2 APreInc None, IntReply (Some 3%N))];
   [(int 2 ALoad (Some Acquire), IntReply (Some 1%N)); (int 3 ALoad (Some Relaxed), IntReply (Some 5%N)); (int 1 (AStore 1) (Some Release), IntReply None); (int 2 ALoad (Some Acquire), IntReply (Some 3%N));
    (int 4 ALoad (Some Relaxed), IntReply (Some 6%N)); (int 1 (AStore 2) (Some Release), IntReply None); (int 3 ALoad (Some Relaxed), IntReply (Some 7%N)); (int 1 (AStore 3) (Some Release), IntReply None)]].
Definition passed_events : list (nat * mevent) :=
  [(0, ev 1 PLoad Acquire 0%N 0); (0, ev 3 (PStore 5) Relaxed 0%N 1); (0, ev 2 (PStore 1) Release 0%N 1); (1, ev 2 PLoad Acquire 1%N 1); (1, ev 3 PLoad Relaxed 5%N 1); (1, ev 1 (PStore 1) Release 0%N 1);
   (0, ev 4 (PStore 6) Relaxed 0%N 1); (0, ev 2 (PAdd 1) Release 1%N 2); (0, ev 1 PLoad Acquire 1%N 1); (0, ev 3 (PStore 7) Relaxed 0%N 2); (0, ev 2 (PAdd 1) SeqCst 2%N 3);
   (1, ev 2 PLoad Acquire 3%N 3); (1, ev 4 PLoad Relaxed 6%N 1); (1, ev 1 (PStore 2) Release 0%N 2); (1, ev 3 PLoad Relaxed 7%N 2); (1, ev 1 (PStore 3) Release 0%N 3)].
Definition passed_contents (x k : nat) : N := match x, k with 1, _ | 2, _ => N.of_nat k | 3, 1 => 5%N | 3, 2 => 7%N | 4, 1 => 6%N | _, _ => 0%N end.
Example C119_nonvacuous :
  let programs := map (map fst) passed in let ts := [MThread None []; MThread None []] in let rs := replies ts passed in
  (exists n, shared_run ex_objs ex_start programs passed_contents n (by_thread passed_events) ts passed) /\
  counters_release_acquire 1 2 programs /\ ring 1 2 8 (fun m => 3 + m) 2 ex_objs ex_start rs 0 1 /\
  pushed 2 (fun m => 3 + m) 2 (rs 0) 2 7 /\ popped 1 (fun m => 3 + m) 2 (rs 1) 2 7.
Proof.
  cbn zeta. split; [|split; [|split; [|split]]].
  - eexists. split; [exact ex_types|intros [|[|[|[|[|x]]]]]; cbn; split; reflexivity|good|unfold passed, by_thread; cbn; runs|].
    apply (timed_execution passed_events); [merged|]. cbn. repeat split; reflexivity.
  - intros x I T. cbn in I. decompose [or] I; subst; try contradiction; try (split; cbn; congruence); destruct T; discriminate.
  - split; [discriminate|lia|reflexivity|split; [discriminate|intros m _; split; lia]|intros m m' _ _ H; lia| | | | |].
    + intros x [-> | ->]; do 4 eexists; reflexivity.
    + split; reflexivity.
    + split; unfold replies; cbn [replies nth passed nth_error pending mcur app].
      * intros k co E T. at_index E; try discriminate T; right; (split; [cbn|]).
        1: left; split; [reflexivity|eexists; split; [reflexivity|now left]].
        2, 4: right; split; [reflexivity|]; eexists; split; [reflexivity|]; cbn; tauto.
        1, 2: found 0.
        found 5.
      * intros k co E T. at_index E; try discriminate T; reflexivity.
      * intros k co E S. at_index E; try no_slot S; (split; [reflexivity|]). 1, 2: found 0. found 5.
    + split; unfold replies; cbn [replies nth passed nth_error pending mcur app].
      * intros k co E T. at_index E; try discriminate T; right; (split; [left; split; [reflexivity|eexists; split; [reflexivity|now left]]|]). 1: found 0. all: found 3.
      * intros k co E T. at_index E; try discriminate T; reflexivity.
      * intros k co E S. at_index E; try no_slot S; (split; [reflexivity|]). 1: found 0. all: found 3.
    + intros [|[|t]] k co N1 N2 E; try contradiction. unfold replies in E. cbn in E. destruct t; cbn in E; destruct k; discriminate E.
  - exists 6. do 2 eexists. split; [eexists; split; [reflexivity|]; split; [exists 0; split; [lia|reflexivity]|reflexivity]|]. split; [reflexivity|]. split; [split; [reflexivity|eexists; split; [reflexivity|now left]]|].
    intros k' co' L (co2 & E & S & C) _. unfold replies in E. cbn in E. at_index E; try lia; no_slot S.
  - exists 6. do 2 eexists. split; [eexists; split; [reflexivity|]; split; [exists 0; split; [lia|reflexivity]|reflexivity]|]. split; [reflexivity|]. split; [split; [reflexivity|eexists; repeat split; reflexivity]|].
    intros k' co' L (co2 & E & S & C) E'. unfold replies in E, E'. cbn in E, E'. at_index E; try lia; try no_slot S; vm_compute in C; discriminate C.
Qed.
