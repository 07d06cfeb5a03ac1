(** * C117: a lock from loads and stores *)
From Coq Require Import Permutation.
From Verif Require Import Base BitModel ConcModel RelaxedModel AtomicModel AtomicSpec AtomicBitsetModel AtomicBitsetSpec MultiModel MultiSpec MultiProofs MultiProofs4 MultiProofs5 MultiProps.
From Verif Require Import RaceSpec RaceProps PetersonSpec PetersonProofs.
Open Scope nat_scope.

(** With the default memory orders, or with release and acquire orders if the turn is yielded by
    exchange: of any two critical sections of the two threads one is over, its flag lowered, before the
    other is entered. *)
Theorem C117_mutual_exclusion : forall objs st programs contents n evss ts outss fa fb turn a b to_b to_a k k',
  shared_run objs st programs contents n evss ts outss -> (forall x, one_of fa fb turn x -> exists iw w ew sg esg, objs x = Int iw w ew sg esg) ->
  default_orders fa fb turn programs \/ release_acquire fa fb turn programs /\ turn_by_exchange turn programs ->
  let rs := replies ts outss in peterson fa fb turn rs a b to_b to_a ->
  enters fa fb turn to_b (rs a) k -> enters fb fa turn to_a (rs b) k' ->
  (exists u, k < u /\ lowers fa (rs a) u /\ happens_before evss (a, u) (b, k')) \/
  (exists u, k' < u /\ lowers fb (rs b) u /\ happens_before evss (b, u) (a, k)).
Proof.
  intros objs st programs contents n evss ts outss fa fb turn a b to_b to_a k k' R I O rs P.
  assert (A1 : one_of fa fb turn fa) by now left. assert (A2 : one_of fa fb turn fb) by (right; now left).
  destruct O as [D|[RA Ex]]; eapply mutual; try eassumption; try (eapply default_release_acquire; eassumption); try (eapply seen_default; eassumption); eapply seen_exchange; eassumption.
Qed.
Print Assumptions C117_mutual_exclusion.
(** So calls made in critical sections never race, whatever their own memory orders; *)
Theorem C117_race_free : forall objs st programs contents n evss ts outss fa fb turn a b to_b to_a l k l' k',
  shared_run objs st programs contents n evss ts outss -> (forall x, one_of fa fb turn x -> exists iw w ew sg esg, objs x = Int iw w ew sg esg) ->
  default_orders fa fb turn programs \/ release_acquire fa fb turn programs /\ turn_by_exchange turn programs ->
  let rs := replies ts outss in peterson fa fb turn rs a b to_b to_a ->
  inside fa fb turn to_b (rs a) l k -> inside fb fa turn to_a (rs b) l' k' ->
  happens_before evss (a, k) (b, k') \/ happens_before evss (b, k') (a, k).
Proof.
  intros objs st programs contents n evss ts outss fa fb turn a b to_b to_a l k l' k' R I O rs P.
  assert (A1 : one_of fa fb turn fa) by now left. assert (A2 : one_of fa fb turn fb) by (right; now left).
  destruct O as [D|[RA Ex]]; eapply apart; try eassumption; try (eapply default_release_acquire; eassumption); try (eapply seen_default; eassumption); eapply seen_exchange; eassumption.
Qed.
Print Assumptions C117_race_free.
(** and objects used only there give the replies they would give if the calls were made one after the
    other. *)
Theorem C117_data : forall objs st programs contents n evss ts outss fa fb turn a b to_b to_a P,
  shared_run objs st programs contents n evss ts outss -> (forall x, one_of fa fb turn x -> exists iw w ew sg esg, objs x = Int iw w ew sg esg) ->
  default_orders fa fb turn programs \/ release_acquire fa fb turn programs /\ turn_by_exchange turn programs ->
  let rs := replies ts outss in peterson fa fb turn rs a b to_b to_a ->
  (forall t k co, nth_error (rs t) k = Some co -> P (target (fst co)) = true ->
     t = a /\ (exists l, inside fa fb turn to_b (rs a) l k) \/ t = b /\ (exists l, inside fb fa turn to_a (rs b) l k)) ->
  exists l st', one_after_the_other objs st rs P l st' /\ forall x, P x = true -> represents (objs x) (contents x (n x)) (st' x).
Proof.
  intros objs st programs contents n evss ts outss fa fb turn a b to_b to_a P R I O rs Pt Only. apply C104_no_races with (programs := programs) (evss := evss); [exact R|].
  intros t k ca oa t' k' cb ob E E' Nt Tt Pt1 _. pose proof (Only t k _ E Pt1) as H. assert (Pt2 : P (target cb) = true) by congruence. pose proof (Only t' k' _ E' Pt2) as H'.
  destruct H as [[-> (l & Hl)]|[-> (l & Hl)]], H' as [[-> (l' & Hl')]|[-> (l' & Hl')]]; try contradiction.
  - eapply C117_race_free; eassumption.
  - apply or_comm. eapply C117_race_free; eassumption.
Qed.
Print Assumptions C117_data.

(** ** Weaker orders *)
Definition broken (sto ld : memory_order) : list (list (call * reply)) :=
  [[(int 1 (AStore 1) (Some sto), IntReply None); (int 3 (AStore 2) (Some sto), IntReply None); (int 2 ALoad (Some ld), IntReply (Some 0%N))];
   [(int 2 (AStore 1) (Some sto), IntReply None); (int 3 (AStore 1) (Some sto), IntReply None); (int 1 ALoad (Some ld), IntReply (Some 0%N))]].
Definition broken_events : list (list mevent) :=
  [[ev 1 (PStore 1) Release 0%N 1; ev 3 (PStore 2) Release 0%N 1; ev 2 PLoad Acquire 0%N 0];
   [ev 2 (PStore 1) Release 0%N 1; ev 3 (PStore 1) Release 0%N 2; ev 1 PLoad Acquire 0%N 0]].
Ltac at_index E := match type of E with nth_error _ ?k = Some ?c => repeat (destruct k as [|k]; cbn in E; try discriminate E; [injection E as <-|]); try (destruct k; discriminate E) end.
Lemma broken_peterson sto ld : peterson 1 2 3 (replies [@MThread call reply None []; MThread None []] (broken sto ld)) 0 1 2 1.
Proof.
  split; try discriminate.
  - repeat constructor; cbn; intuition discriminate.
  - split; cbn [replies nth broken nth_error pending mcur app].
    + intros k co E T. at_index E; try discriminate T; auto. right. exists 1%N. split; [reflexivity|]. eexists. split; [reflexivity|]. now left.
    + intros k co E T. at_index E; try discriminate T; reflexivity.
    + intros k co E T. at_index E; try discriminate T; right. split; [reflexivity|]. eexists. split; [reflexivity|]. now left.
    + intros l j co (i1 & j1 & _ & _ & _ & _ & L1 & L2 & _) L E [T _]. at_index E; try discriminate T. lia.
  - split; cbn [replies nth broken nth_error pending mcur app].
    + intros k co E T. at_index E; try discriminate T; auto. right. exists 1%N. split; [reflexivity|]. eexists. split; [reflexivity|]. now left.
    + intros k co E T. at_index E; try discriminate T; reflexivity.
    + intros k co E T. at_index E; try discriminate T; right. split; [reflexivity|]. eexists. split; [reflexivity|]. now left.
    + intros l j co (i1 & j1 & _ & _ & _ & _ & L1 & L2 & _) L E [T _]. at_index E; try discriminate T. lia.
  - intros [|[|t]] k co N1 N2 E; try contradiction. unfold replies in E. cbn in E. destruct t; cbn in E; destruct k; discriminate E.
Qed.
(** With plain stores of the turn, release and acquire orders are not enough: both threads can enter
    without either having lowered its flag. *)
Theorem C117_release_acquire_refuted : exists programs contents n outss, let ts := [MThread None []; MThread None []] in let rs := replies ts outss in
  shared_run ex_objs ex_start programs contents n broken_events ts outss /\ release_acquire 1 2 3 programs /\ peterson 1 2 3 rs 0 1 2 1 /\
  enters 1 2 3 2 (rs 0) 2 /\ enters 2 1 3 1 (rs 1) 2 /\ (forall u, ~ lowers 1 (rs 0) u) /\ (forall u, ~ lowers 2 (rs 1) u).
Proof.
  exists (map (map fst) (broken Release Acquire)), (fun x k => if k =? 0 then 0%N else if x =? 3 then (if k =? 1 then 2%N else 1%N) else 1%N), (fun x => match x with 1 | 2 => 1 | 3 => 2 | _ => 0 end), (broken Release Acquire).
  cbn zeta. split; [|split; [|split; [|split; [|split; [|split]]]]].
  - split; [exact ex_types|intros x; apply ex_starts|good|unfold broken, broken_events; cbn [map fst]; runs|]. apply unsynchronized.
    + intros x. destruct x as [|[|[|[|x]]]]; cbn; split; cbn; try (intros e I; cbn in I; decompose [or] I; subst; try contradiction; cbn; try discriminate; intros; try (split; [lia|]); reflexivity);
        try apply Permutation_refl; repeat constructor; cbn; intros; discriminate.
    + intros a b (ea & eb & i & j & Ea & Eb & _ & _ & _ & Wi & Rj & L & _).
      assert (Ia : exists a, event_at broken_events a = Some ea) by eauto. assert (Ib : exists a, event_at broken_events a = Some eb) by eauto.
      apply event_at_in in Ia, Ib. cbn in Ia, Ib. decompose [or] Ia; subst; try contradiction; try discriminate Wi; cbn in Wi; injection Wi as <-;
        decompose [or] Ib; subst; try contradiction; try discriminate Rj; cbn in Rj; injection Rj as <-; lia.
    + cbn. intros e I. decompose [or] I; subst; try contradiction; discriminate.
  - intros c I _. cbn in I. decompose [or] I; subst; try contradiction; split; cbn; congruence.
  - apply broken_peterson.
  - exists 0, 1. do 3 eexists. exists 1%N. split; [lia|]. split; [lia|]. split; [reflexivity|]. split; [split; [reflexivity|eexists; split; [reflexivity|now left]]|]. split; [discriminate|].
    split; [reflexivity|]. split; [split; [reflexivity|eexists; split; [reflexivity|now left]]|]. split; [reflexivity|]. split; [left; split; [reflexivity|eexists; repeat split; reflexivity]|]. intros m cm B N. lia.
  - exists 0, 1. do 3 eexists. exists 1%N. split; [lia|]. split; [lia|]. split; [reflexivity|]. split; [split; [reflexivity|eexists; split; [reflexivity|now left]]|]. split; [discriminate|].
    split; [reflexivity|]. split; [split; [reflexivity|eexists; split; [reflexivity|now left]]|]. split; [reflexivity|]. split; [left; split; [reflexivity|eexists; repeat split; reflexivity]|]. intros m cm B N. lia.
  - intros u (cu & E & T & i & A & H). unfold replies in E. cbn in E. at_index E; try discriminate T; cbn in A; injection A as <-; cbn in H; intuition discriminate.
  - intros u (cu & E & T & i & A & H). unfold replies in E. cbn in E. at_index E; try discriminate T; cbn in A; injection A as <-; cbn in H; intuition discriminate.
Qed.
Print Assumptions C117_release_acquire_refuted.

(** ** Example *)
(** The first thread enters at once, the second has to wait: it finds the flag up and the turn as it
    yielded it, then the flag down.  Object 4 is the data, used with relaxed calls. *)
Definition taken (raise yield look : option memory_order) (y : bool) : list (list (call * reply)) :=
  let give v old := if y then (int 3 (AExchange v) yield, IntReply (Some old)) else (int 3 (AStore v) yield, IntReply None) in
  [[(int 1 (AStore 1) raise, IntReply None); give 2%N 0%N; (int 2 ALoad look, IntReply (Some 0%N)); (int 4 (AStore 5) (Some Relaxed), IntReply None); (int 1 (AStore 0) raise, IntReply None)];
   [(int 2 (AStore 1) raise, IntReply None); give 1%N 2%N; (int 1 ALoad look, IntReply (Some 1%N)); (int 3 ALoad look, IntReply (Some 1%N)); (int 1 ALoad look, IntReply (Some 0%N));
    (int 4 ALoad (Some Relaxed), IntReply (Some 5%N)); (int 2 (AStore 0) raise, IntReply None)]].
Definition taken_events (s x l : memory_order) (y : bool) : list (nat * mevent) :=
  let give v old k := if y then ev 3 (PExchange v) x old k else ev 3 (PStore v) x 0%N k in
  [(0, ev 1 (PStore 1) s 0%N 1); (0, give 2%N 0%N 1); (0, ev 2 PLoad l 0%N 0); (1, ev 2 (PStore 1) s 0%N 1); (1, give 1%N 2%N 2); (1, ev 1 PLoad l 1%N 1); (1, ev 3 PLoad l 1%N 2);
   (0, ev 4 (PStore 5) Relaxed 0%N 1); (0, ev 1 (PStore 0) s 0%N 2); (1, ev 1 PLoad l 0%N 2); (1, ev 4 PLoad Relaxed 5%N 1); (1, ev 2 (PStore 0) s 0%N 2)].
Definition by_thread (s : list (nat * mevent)) : list (list mevent) := [map snd (filter (fun e => fst e =? 0) s); map snd (filter (fun e => fst e =? 1) s)].
Definition taken_contents (x k : nat) : N := match x, k with 1, 1 | 2, 1 => 1%N | 3, 1 => 2%N | 3, 2 => 1%N | 4, 1 => 5%N | _, _ => 0%N end.
Lemma taken_peterson raise yield look y : peterson 1 2 3 (replies [@MThread call reply None []; MThread None []] (taken raise yield look y)) 0 1 2 1.
Proof.
  split; try discriminate.
  - repeat constructor; cbn; intuition discriminate.
  - destruct y; split; cbn [replies nth taken nth_error pending mcur app].
    1, 5: intros k co E T; at_index E; try discriminate T; auto; right; eexists; (split; [reflexivity|]); eexists; (split; [reflexivity|]); cbn; auto.
    1, 4: intros k co E T; at_index E; try discriminate T; reflexivity.
    1, 3: intros k co E T; at_index E; try discriminate T; auto; right; (split; [reflexivity|]); eexists; (split; [reflexivity|]); cbn; auto.
    all: intros l j co (i1 & j1 & _ & _ & _ & _ & L1 & L2 & _) L E (T & i2 & A & H); at_index E; try discriminate T; try (cbn in A; injection A as <-; cbn in H; intuition discriminate); lia.
  - destruct y; split; cbn [replies nth taken nth_error pending mcur app].
    1, 5: intros k co E T; at_index E; try discriminate T; auto; right; eexists; (split; [reflexivity|]); eexists; (split; [reflexivity|]); cbn; auto.
    1, 4: intros k co E T; at_index E; try discriminate T; reflexivity.
    1, 3: intros k co E T; at_index E; try discriminate T; auto; right; (split; [reflexivity|]); eexists; (split; [reflexivity|]); cbn; auto.
    all: intros l j co (i1 & j1 & _ & _ & _ & _ & L1 & L2 & _) L E (T & i2 & A & H); at_index E; try discriminate T; try (cbn in A; injection A as <-; cbn in H; intuition discriminate); lia.
  - intros [|[|t]] k co N1 N2 E; try contradiction. unfold replies in E. cbn in E. destruct t; cbn in E; destruct k; discriminate E.
Qed.
Lemma taken_inside raise yield look y : let rs := replies [@MThread call reply None []; MThread None []] (taken raise yield look y) in inside 1 2 3 2 (rs 0) 2 3 /\ inside 2 1 3 1 (rs 1) 4 5.
Proof.
  cbn zeta. destruct y; (split; (split; [lia|]); split).
  1, 5: exists 0, 1; do 3 eexists; exists 1%N; (split; [lia|]); (split; [lia|]); (split; [reflexivity|]); (split; [split; [reflexivity|eexists; split; [reflexivity|cbn; auto]]|]); (split; [discriminate|]);
      (split; [reflexivity|]); (split; [split; [reflexivity|eexists; split; [reflexivity|cbn; auto]]|]); (split; [reflexivity|]); (split; [left; split; [reflexivity|eexists; repeat split; reflexivity]|]); intros m cm B N; lia.
  2, 5: exists 0, 1; do 3 eexists; exists 1%N; (split; [lia|]); (split; [lia|]); (split; [reflexivity|]); (split; [split; [reflexivity|eexists; split; [reflexivity|cbn; auto]]|]); (split; [discriminate|]);
      (split; [reflexivity|]); (split; [split; [reflexivity|eexists; split; [reflexivity|cbn; auto]]|]); (split; [reflexivity|]); (split; [left; split; [reflexivity|eexists; repeat split; reflexivity]|]);
      intros m cm B N; (assert (m = 2 \/ m = 3) as [-> | ->] by lia); cbn; intros [= <-] _; reflexivity.
  1, 3: intros u B (cu & E & T & _); assert (u = 3) as -> by lia; cbn in E; injection E as <-; discriminate T.
  all: intros u B (cu & E & T & _); assert (u = 5) as -> by lia; cbn in E; injection E as <-; discriminate T.
Qed.
Example C117_nonvacuous :
  (forall x, one_of 1 2 3 x -> exists iw w ew sg esg, ex_objs x = Int iw w ew sg esg) /\
  (exists n, shared_run ex_objs ex_start (map (map fst) (taken None None None false)) taken_contents n (by_thread (taken_events SeqCst SeqCst SeqCst false)) [MThread None []; MThread None []] (taken None None None false)) /\
  default_orders 1 2 3 (map (map fst) (taken None None None false)) /\
  (let programs := map (map fst) (taken (Some Release) (Some AcqRel) (Some Acquire) true) in
   (exists n, shared_run ex_objs ex_start programs taken_contents n (by_thread (taken_events Release AcqRel Acquire true)) [MThread None []; MThread None []] (taken (Some Release) (Some AcqRel) (Some Acquire) true)) /\
   release_acquire 1 2 3 programs /\ turn_by_exchange 3 programs).
Proof.
  split; [intros x [-> | [-> | ->]]; cbn; do 5 eexists; reflexivity|]. split; [|split; [|split; [|split]]].
  - eexists. split; [exact ex_types|intros [|[|[|[|[|x]]]]]; cbn; split; reflexivity|good|unfold taken, by_thread; cbn; runs|].
    apply (timed_execution (taken_events SeqCst SeqCst SeqCst false)); [merged|]. cbn. repeat split; reflexivity.
  - intros c I O. cbn in I. decompose [or] I; subst; try contradiction; try reflexivity; unfold one_of in O; cbn in O; intuition discriminate.
  - eexists. split; [exact ex_types|intros [|[|[|[|[|x]]]]]; cbn; split; reflexivity|good|unfold taken, by_thread; cbn; runs|].
    apply (timed_execution (taken_events Release AcqRel Acquire true)); [merged|]. cbn. repeat split; reflexivity.
  - intros c I O. cbn in I. decompose [or] I; subst; try contradiction; try (split; cbn; congruence); unfold one_of in O; cbn in O; intuition discriminate.
  - intros c I T. cbn in I. decompose [or] I; subst; try contradiction; discriminate.
Qed.
