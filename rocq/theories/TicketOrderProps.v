(** * C153: the memory orders of a lock made of two counters *)
From Coq Require Import Permutation.
From Verif Require Import Base BitModel ConcModel RelaxedModel AtomicModel AtomicSpec AtomicBitsetModel AtomicBitsetSpec MultiModel MultiSpec MultiProofs MultiProofs4 MultiProofs5 MultiProps.
From Verif Require Import RaceSpec RaceProps PetersonSpec PetersonProofs PetersonProps RingSpec CountSpec CountProps SeqOrderProofs TicketOrderSpec TicketOrderProofs TicketRollover.
Open Scope nat_scope.

(** The numbers that the proofs need. *)
Lemma numbers objs st programs contents n evss ts outss next serving w : shared_run objs st programs contents n evss ts outss ->
  ticket_lock next serving w (replies ts outss) objs st -> enough_numbers next w (replies ts outss) (length programs) ->
  (N.of_nat (length programs) <= 2 ^ w)%N /\ next_acquire_release next (replies ts outss) \/
  (forall t k t' k' c, counted (replies ts outss) next w adds_one t k c -> counted (replies ts outss) next w adds_one t' k' c -> (t, k) = (t', k')).
Proof.
  intros R TL [H|H]; [left; exact H|right]. intros t k t' k' c C C'.
  destruct (proj2 (tl_counters _ _ _ _ _ _ TL) next (or_introl eq_refl)) as (S0 & iw & ew & sg & esg & O).
  destruct (C105_tickets objs st programs contents n evss ts outss next iw w ew sg esg 0%N R O S0 (tl_draw _ _ _ _ _ _ TL)) as (_ & _ & _ & D & _).
  destruct (Nat.eq_dec t t') as [Et|Nt]; [destruct (Nat.eq_dec k k') as [Ek|Nk]; [congruence|]|]; exfalso; apply (D H t k c t' k' c C C'); congruence.
Qed.

(** Of two threads that enter, one has left before the other finds that it may enter. *)
Theorem C153_mutual_exclusion : forall objs st programs contents n evss ts outss next serving w t d l v t' d' l' v',
  shared_run objs st programs contents n evss ts outss ->
  let rs := replies ts outss in ticket_lock next serving w rs objs st -> enough_numbers next w rs (length programs) -> serving_release_acquire serving rs ->
  t <> t' -> enters next serving w rs t d l v -> enters next serving w rs t' d' l' v' ->
  (exists k, l < k /\ leaves serving rs t k /\ happens_before evss (t, k) (t', l')) \/
  (exists k, l' < k /\ leaves serving rs t' k /\ happens_before evss (t', k) (t, l)).
Proof.
  intros objs st programs contents n evss ts outss next serving w t d l v t' d' l' v' R rs TL En RA Nt E E'.
  eapply excluded; try eassumption. eapply numbers; eassumption.
Qed.
Print Assumptions C153_mutual_exclusion.
(** So there are no races between the calls that threads make in their critical sections, whatever the
    orders of these calls. *)
Theorem C153_race_free : forall objs st programs contents n evss ts outss next serving w t l k t' l' k',
  shared_run objs st programs contents n evss ts outss ->
  let rs := replies ts outss in ticket_lock next serving w rs objs st -> enough_numbers next w rs (length programs) -> serving_release_acquire serving rs ->
  t <> t' -> within next serving w rs t l k -> within next serving w rs t' l' k' ->
  happens_before evss (t, k) (t', k') \/ happens_before evss (t', k') (t, k).
Proof.
  intros objs st programs contents n evss ts outss next serving w t l k t' l' k' R rs TL En RA Nt E E'.
  eapply ordered; try eassumption. eapply numbers; eassumption.
Qed.
Print Assumptions C153_race_free.
(** Who draws first is served first. *)
Theorem C153_in_order : forall objs st programs contents n evss ts outss next serving w t d l v t' d' l' v',
  shared_run objs st programs contents n evss ts outss ->
  let rs := replies ts outss in ticket_lock next serving w rs objs st -> enough_numbers next w rs (length programs) -> serving_release_acquire serving rs ->
  enters next serving w rs t d l v -> enters next serving w rs t' d' l' v' -> happens_before evss (t, d) (t', d') ->
  exists k, l < k /\ leaves serving rs t k /\ happens_before evss (t, k) (t', l').
Proof.
  intros objs st programs contents n evss ts outss next serving w t d l v t' d' l' v' R rs TL En RA E E' HB.
  eapply drawn_first; try eassumption. eapply numbers; eassumption.
Qed.
Print Assumptions C153_in_order.
(** The default order everywhere is enough for any number of threads up to 2^w. *)
Theorem C153_default_order : forall objs st programs contents n evss ts outss next serving w t l k t' l' k',
  shared_run objs st programs contents n evss ts outss ->
  (forall c, In c (concat programs) -> target c = next \/ target c = serving -> wanted (asked c) = SeqCst) -> (N.of_nat (length programs) <= 2 ^ w)%N ->
  let rs := replies ts outss in ticket_lock next serving w rs objs st ->
  t <> t' -> within next serving w rs t l k -> within next serving w rs t' l' k' ->
  happens_before evss (t, k) (t', k') \/ happens_before evss (t', k') (t, k).
Proof.
  intros objs st programs contents n evss ts outss next serving w t l k t' l' k' R D L rs TL Nt E E'.
  assert (In_ : forall t k co, nth_error (rs t) k = Some co -> In (fst co) (concat programs)) by (intros t0 k0 co; apply (r_in objs st programs contents n evss ts outss R)).
  eapply C153_race_free; try eassumption.
  - left. split; [exact L|]. intros t0 k0 co E0 M. rewrite (D (fst co)); eauto.
    left. unfold modifying in M. apply andb_prop in M as [M _]. now apply Nat.eqb_eq in M.
  - intros t0 k0 co E0 T. rewrite (D (fst co)); eauto.
Qed.
Print Assumptions C153_default_order.

(** ** Weaker orders *)
(** Atomic 1 gives the numbers, atomic 2 is the one that is served, atomic 3 is used in the critical section. *)
Definition drew (sto ld : memory_order) : list (list (call * reply)) :=
  [[(int 1 (AFetchAdd 1) (Some Relaxed), IntReply (Some 0%N)); (int 2 ALoad (Some ld), IntReply (Some 0%N)); (int 3 (AStore 5) (Some Relaxed), IntReply None); (int 2 (AStore 1) (Some sto), IntReply None)];
   [(int 1 (AFetchAdd 1) (Some Relaxed), IntReply (Some 1%N)); (int 2 ALoad (Some ld), IntReply (Some 1%N)); (int 3 ALoad (Some Relaxed), IntReply (Some 0%N))]].
Definition drew_events (sto ld : memory_order) : list (list mevent) :=
  [[ev 1 (PAdd 1) Relaxed 0%N 1; ev 2 PLoad ld 0%N 0; ev 3 (PStore 5) Relaxed 0%N 1; ev 2 (PStore 1) sto 0%N 1];
   [ev 1 (PAdd 1) Relaxed 1%N 2; ev 2 PLoad ld 1%N 1; ev 3 PLoad Relaxed 0%N 0]].
(** Cases for the calls of two threads. *)
Ltac calls t E := destruct t as [|[|t]]; unfold replies in E; cbn [drew nth nth_error pending mcur app] in E; [at_index E|at_index E|exfalso; cbn in E; destruct t; cbn in E; match type of E with nth_error _ ?k = _ => destruct k end; discriminate E].
Ltac waited t := intros m co Lm E; calls t E; try lia; split; reflexivity.
Ltac entered t := split; [lia|]; split; [do 2 eexists; split; [reflexivity|]; split; [reflexivity|]; split; reflexivity|]; split; [eexists; split; [reflexivity|]; split; [reflexivity|eexists; repeat split; reflexivity]|].
Lemma drew_waits sto ld t d k : (t = 0 /\ (d = 0 /\ k <= 3 \/ d = 1 /\ k <= 3)) \/ (t = 1 /\ (d = 0 \/ d = 1)) -> waits 1 2 (replies [@MThread call reply None []; MThread None []] (drew sto ld)) t d k.
Proof. intros H m co Lm E. calls t E; try lia; split; reflexivity. Qed.
Lemma drew_enters0 sto ld : enters 1 2 8 (replies [@MThread call reply None []; MThread None []] (drew sto ld)) 0 0 1 0.
Proof. entered 0. apply drew_waits. lia. Qed.
Lemma drew_enters1 sto ld : enters 1 2 8 (replies [@MThread call reply None []; MThread None []] (drew sto ld)) 1 0 1 1.
Proof. entered 1. apply drew_waits. lia. Qed.
Lemma drew_lock sto ld : ticket_lock 1 2 8 (replies [@MThread call reply None []; MThread None []] (drew sto ld)) ex_objs ex_start.
Proof.
  split.
  - split; [discriminate|]. intros x [-> | ->]; (split; [reflexivity|do 4 eexists; reflexivity]).
  - intros t k co E T. calls t E; try discriminate T; reflexivity.
  - intros t k co E M. calls t E; try discriminate M. exists 0, 1, 0%N. split; [apply drew_enters0|]. split; [lia|]. split; [apply drew_waits; lia|].
    left. split; [reflexivity|eexists; split; [reflexivity|now left]].
  - intros t d d' co co' L E E' M M'. destruct t as [|[|t]]; unfold replies in E, E'; cbn [drew nth nth_error pending mcur app] in E, E'.
    + at_index E; try discriminate M; at_index E'; try discriminate M'; lia.
    + at_index E; try discriminate M; at_index E'; try discriminate M'; lia.
    + cbn in E. destruct t; cbn in E; destruct d; discriminate E.
Qed.
(** If the calls that leave do not release, or the loads of the number that is served do not acquire, what is
    stored in one critical section may be missed in the next. *)
Theorem C153_relaxed_refuted : forall sto ld, (sto, ld) = (Relaxed, Acquire) \/ (sto, ld) = (Release, Relaxed) ->
  exists programs contents n evss outss, let ts := [MThread None []; MThread None []] in let rs := replies ts outss in
  shared_run ex_objs ex_start programs contents n evss ts outss /\
  (forall c, In c (concat programs) -> target c = 2 -> wanted (asked c) = match access_of (asked c) with Reads => ld | _ => sto end) /\
  ticket_lock 1 2 8 rs ex_objs ex_start /\ enough_numbers 1 8 rs (length programs) /\
  enters 1 2 8 rs 0 0 1 0 /\ within 1 2 8 rs 0 1 2 /\ nth_error (rs 0) 2 = Some (int 3 (AStore 5) (Some Relaxed), IntReply None) /\
  enters 1 2 8 rs 1 0 1 1 /\ within 1 2 8 rs 1 1 2 /\ nth_error (rs 1) 2 = Some (int 3 ALoad (Some Relaxed), IntReply (Some 0%N)).
Proof.
  intros sto ld Or. exists (map (map fst) (drew sto ld)), (fun x k => match x, k with 1, 1 => 1%N | 1, 2 => 2%N | 2, 1 => 1%N | 3, 1 => 5%N | _, _ => 0%N end), (fun x => match x with 1 => 2 | 2 | 3 => 1 | _ => 0 end), (drew_events sto ld), (drew sto ld).
  cbn zeta. split; [|split; [|split; [|split; [|split; [|split; [|split; [|split; [|split]]]]]]]].
  - destruct Or as [[= -> ->]|[= -> ->]]; (split; [exact ex_types|intros [|[|[|[|x]]]]; apply ex_starts|good|unfold drew, drew_events; cbn [map fst]; runs|]); apply unsynchronized.
    all: try (cbn; intros e I; decompose [or] I; subst; try contradiction; discriminate).
    all: try (intros x; destruct x as [|[|[|[|x]]]]; cbn; split; cbn; try (intros e I; cbn in I; decompose [or] I; subst; try contradiction; cbn; try discriminate; intros; try (split; [lia|]); reflexivity);
        try apply Permutation_refl; repeat constructor; cbn; intros; try discriminate; repeat match goal with H : Some _ = Some _ |- _ => injection H as <- end; lia).
    all: intros a b (ea & eb & i & j & Ea & Eb & Ob & Rl & Ac & Wi & Rj & L & _);
      (assert (Ia : exists a, event_at (drew_events _ _) a = Some ea) by eauto); (assert (Ib : exists a, event_at (drew_events _ _) a = Some eb) by eauto);
      apply event_at_in in Ia, Ib; cbn in Ia, Ib; decompose [or] Ia; subst; try contradiction; try discriminate Rl; decompose [or] Ib; subst; try contradiction; try discriminate Ac; discriminate.
  - intros c I T. cbn in I. decompose [or] I; subst; try contradiction; try reflexivity; discriminate T.
  - apply drew_lock.
  - right. vm_compute. discriminate.
  - apply drew_enters0.
  - split; [exists 0, 0%N; apply drew_enters0|]. split; [lia|apply drew_waits; lia].
  - reflexivity.
  - apply drew_enters1.
  - split; [exists 0, 1%N; apply drew_enters1|]. split; [lia|apply drew_waits; lia].
  - reflexivity.
Qed.
Print Assumptions C153_relaxed_refuted.

(** If draws are relaxed, and there is just one draw more than there are numbers, two threads may be in the critical
    section at the same time, with counters of any width, although all other calls release and acquire. *)
Theorem C153_rollover_refuted : forall w, (0 < w)%N ->
  exists objs st programs contents n evss outss l v l' v', let ts := [MThread None []; MThread None []] in let rs := replies ts outss in
  shared_run objs st programs contents n evss ts outss /\ ticket_lock 1 2 w rs objs st /\ serving_release_acquire 2 rs /\
  length programs = 2 /\ N.of_nat (made rs 2 1 adds_one) = (2 ^ w + 1)%N /\
  (exists d, enters 1 2 w rs 0 d l v) /\ (exists d, enters 1 2 w rs 1 d l' v') /\
  (forall k, l < k -> ~ leaves 2 rs 0 k) /\ (forall k, l' < k -> ~ leaves 2 rs 1 k).
Proof.
  intros w Pw. pose proof (K2 w Pw). set (K := N.to_nat (2 ^ w)) in *.
  exists (counters w), zeros, (map (map fst) (many w)), (many_contents w), (many_n w), (many_events w), (many w), (3 * (K - 1) + 1), (N.of_nat (K - 1)), 1, 0%N. cbn zeta.
  split; [now apply many_run|]. split; [now apply many_lock|]. split; [now apply many_orders|]. split; [reflexivity|]. split; [rewrite many_made by exact Pw; lia|].
  split; [exists (3 * (K - 1)); apply enters0; fold K; try exact Pw; lia|]. split; [exists 0; now apply enters1|].
  split; intros k L; eapply nobody_leaves; try exact Pw; try exact L; [left; fold K; lia|now right].
Qed.
Print Assumptions C153_rollover_refuted.

(** ** Example *)
(** The first thread enters twice, the second once in between, after it has found the number 0 once. *)
Definition served : list (list (call * reply)) :=
  [[(int 1 APreInc None, IntReply (Some 1%N)); (int 2 ALoad (Some Acquire), IntReply (Some 0%N)); (int 3 (AStore 5) (Some Relaxed), IntReply None); (int 2 (AStore 1) (Some Release), IntReply None);
    (int 1 APostInc None, IntReply (Some 2%N)); (int 2 ALoad None, IntReply (Some 2%N)); (int 3 (AFetchAdd 1) (Some Relaxed), IntReply (Some 5%N))];
   [(int 1 (AFetchAdd 1) (Some Relaxed), IntReply (Some 1%N)); (int 2 ALoad (Some Acquire), IntReply (Some 0%N)); (int 2 ALoad (Some Acquire), IntReply (Some 1%N)); (int 3 ALoad (Some Relaxed), IntReply (Some 5%N));
    (int 2 (AFetchAdd 1) (Some Release), IntReply (Some 1%N))]].
Definition served_events : list (nat * mevent) :=
  [(0, ev 1 (PAdd 1) SeqCst 0%N 1); (0, ev 2 PLoad Acquire 0%N 0); (1, ev 1 (PAdd 1) Relaxed 1%N 2); (1, ev 2 PLoad Acquire 0%N 0); (0, ev 3 (PStore 5) Relaxed 0%N 1); (0, ev 2 (PStore 1) Release 0%N 1);
   (0, ev 1 (PAdd 1) SeqCst 2%N 3); (1, ev 2 PLoad Acquire 1%N 1); (1, ev 3 PLoad Relaxed 5%N 1); (1, ev 2 (PAdd 1) Release 1%N 2); (0, ev 2 PLoad SeqCst 2%N 2); (0, ev 3 (PAdd 1) Relaxed 5%N 2)].
Definition served_contents (x k : nat) : N := match x, k with 1, _ | 2, _ => N.of_nat k | 3, 1 => 5%N | 3, 2 => 6%N | _, _ => 0%N end.
Example C153_nonvacuous :
  let programs := map (map fst) served in let ts := [MThread None []; MThread None []] in let rs := replies ts served in
  (exists n, shared_run ex_objs ex_start programs served_contents n (by_thread served_events) ts served) /\
  ticket_lock 1 2 8 rs ex_objs ex_start /\ enough_numbers 1 8 rs (length programs) /\ serving_release_acquire 2 rs /\
  within 1 2 8 rs 0 1 2 /\ within 1 2 8 rs 1 2 3 /\ within 1 2 8 rs 0 5 6.
Proof.
  cbn zeta. set (rs := replies [MThread None []; MThread None []] served).
  assert (Wt : forall t d k, (t = 0 /\ (d = 0 /\ k <= 3 \/ d = 1 /\ k <= 3 \/ d = 4 \/ d = 5)) \/ (t = 1 /\ d <= 3 /\ k <= 4) -> waits 1 2 rs t d k).
  { intros t d k H m co Lm E. destruct t as [|[|t]]; [| |lia]; unfold rs, replies in E; cbn [served nth nth_error pending mcur app] in E; at_index E; try lia; split; reflexivity. }
  assert (E1 : enters 1 2 8 rs 0 0 1 0) by (entered 0; apply Wt; lia).
  assert (E2 : enters 1 2 8 rs 1 0 2 1) by (entered 1; apply Wt; lia).
  assert (E3 : enters 1 2 8 rs 0 4 5 2) by (entered 0; apply Wt; lia).
  split; [|split; [|split; [|split; [|split; [|split]]]]].
  - eexists. split; [exact ex_types|intros [|[|[|[|x]]]]; cbn; split; reflexivity|good|unfold served, by_thread; cbn; runs|].
    apply (timed_execution served_events); [merged|]. cbn. repeat split; reflexivity.
  - split.
    + split; [discriminate|]. intros x [-> | ->]; (split; [reflexivity|do 4 eexists; reflexivity]).
    + intros t k co E T. destruct t as [|[|t]]; unfold rs, replies in E; cbn [served nth nth_error pending mcur app] in E; [at_index E|at_index E|cbn in E; destruct t; cbn in E; destruct k; discriminate E]; try discriminate T; reflexivity.
    + intros t k co E M. destruct t as [|[|t]]; unfold rs, replies in E; cbn [served nth nth_error pending mcur app] in E; [at_index E|at_index E|cbn in E; destruct t; cbn in E; destruct k; discriminate E]; try discriminate M.
      * exists 0, 1, 0%N. split; [exact E1|]. split; [lia|]. split; [apply Wt; lia|]. left. split; [reflexivity|eexists; split; [reflexivity|now left]].
      * exists 0, 2, 1%N. split; [exact E2|]. split; [lia|]. split; [apply Wt; lia|]. right. split; [reflexivity|]. eexists. split; [reflexivity|]. cbn. tauto.
    + intros t d d' co co' L E E' M M'. destruct t as [|[|t]]; unfold rs, replies in E, E'; cbn [served nth nth_error pending mcur app] in E, E'.
      * at_index E; try discriminate M; at_index E'; try discriminate M'; try lia. exists 3. split; [lia|]. eexists. split; reflexivity.
      * at_index E; try discriminate M; at_index E'; try discriminate M'; lia.
      * cbn in E. destruct t; cbn in E; destruct d; discriminate E.
  - right. vm_compute. discriminate.
  - intros t k co E T. destruct t as [|[|t]]; unfold rs, replies in E; cbn [served nth nth_error pending mcur app] in E; [at_index E|at_index E|cbn in E; destruct t; cbn in E; destruct k; discriminate E]; try discriminate T; split; cbn; congruence.
  - split; [eauto|]. split; [lia|apply Wt; lia].
  - split; [eauto|]. split; [lia|apply Wt; lia].
  - split; [eauto|]. split; [lia|apply Wt; lia].
Qed.
