(** * C154: an atomic integer that is counted down *)
From Coq Require Import Permutation.
From Verif Require Import Base BitModel ConcModel RelaxedModel AtomicModel AtomicSpec AtomicBitsetModel AtomicBitsetSpec MultiModel MultiSpec MultiProofs MultiProofs4 MultiProofs5 MultiProps.
From Verif Require Import RaceSpec RaceProps PetersonSpec PetersonProofs PetersonProps CountSpec CountProps CountdownSpec CountdownProofs.
Open Scope nat_scope.

(** Who finds 0 comes after all who took one away, and after all that they did before, if taking one away
    releases and finding 0 acquires. *)
Theorem C154_all_done : forall objs st programs contents n evss ts outss x iw w ew sg esg v0 t k,
  shared_run objs st programs contents n evss ts outss -> objs x = Int iw w ew sg esg -> st x = IntState v0 ->
  let rs := replies ts outss in countdown rs (length programs) x v0 -> finds_done rs x t k -> arrivals_release rs x -> acquires_at rs t k ->
  N.of_nat (made rs (length programs) x takes_one) = v0 /\ forall u i j, arrives rs x u j -> i <= j -> happens_before evss (u, i) (t, k).
Proof.
  intros objs st programs contents n evss ts outss x iw w ew sg esg v0 t k R O S rs Cd D Rel Acq. split; [eapply all_made; eassumption|].
  intros u i j Ar Le. assert (HB : happens_before evss (u, j) (t, k)) by (eapply arrived_first; eassumption).
  destruct (Nat.eq_dec i j) as [->|N]; [exact HB|]. apply hb_then with (u, j); [|exact HB]. apply hb_sequenced. split; [reflexivity|cbn; lia].
Qed.
Print Assumptions C154_all_done.
(** With any memory orders: who finds 0 knows that one was taken away as often as was agreed; who looks after
    that finds 0, too; and if one is taken away as often as was agreed, the value becomes 0, and exactly one
    of the calls that take one away is told that it was the last. *)
Theorem C154_any_order : forall objs st programs contents n evss ts outss x iw w ew sg esg v0,
  shared_run objs st programs contents n evss ts outss -> objs x = Int iw w ew sg esg -> st x = IntState v0 ->
  let rs := replies ts outss in let number_made := made rs (length programs) x takes_one in countdown rs (length programs) x v0 ->
  (forall t k, finds_done rs x t k -> N.of_nat number_made = v0) /\
  (forall t k t' k' v co, finds_done rs x t k -> happens_before evss (t, k) (t', k') -> nth_error (rs t') k' = Some co -> finds x v co -> v = 0%N) /\
  (N.of_nat number_made = v0 -> represents (objs x) (contents x (n x)) (IntState 0) /\
     ((0 < v0)%N -> exists t k, counted rs x w takes_one t k 1 /\ forall t' k', counted rs x w takes_one t' k' 1 -> (t', k') = (t, k))).
Proof.
  intros objs st programs contents n evss ts outss x iw w ew sg esg v0 R O S rs number_made Cd. split; [|split].
  - intros t k D. eapply all_made; eassumption.
  - intros t k t' k' v co D HB E F. eapply done_later; eassumption.
  - intros M. split; [eapply at_the_end; eassumption|]. intros P.
    pose proof (as_references _ _ _ _ _ _ _ _ _ _ _ _ _ _ _ R O S Cd M) as Rc.
    destruct (C106_last objs st programs contents n evss ts outss x iw w ew sg esg v0 _ R O S Rc) as (_ & One & Some_).
    destruct (proj2 (Some_ P)) as (t & k & C).
    + intros u L. unfold has. rewrite !firstn_all.
      assert (Z : number x adds_one (replies ts outss u) = 0).
      { unfold number. destruct (filter _ (replies ts outss u)) as [|co r] eqn:Ef; [reflexivity|exfalso]. assert (I : In co (filter (fun co => is_call x adds_one (fst co)) (replies ts outss u))) by (rewrite Ef; now left).
        apply filter_In in I as [I K]. apply In_nth_error in I as (k & E). unfold is_call in K. apply andb_true_iff in K as [K1 K2]. apply Nat.eqb_eq in K1.
        pose proof (cd_calls _ _ _ _ Cd u k co E K1) as Q. unfold is_call in Q. apply andb_true_iff in Q as [_ Q]. destruct (asked (fst co)) as [|i]; [discriminate|]. destruct (int_op i); discriminate. }
      rewrite Z. lia.
    + exists t, k. split; [exact C|]. intros t' k' C'. now apply One.
Qed.
Print Assumptions C154_any_order.

(** ** Weaker orders *)
(** Atomic 1 starts with 1; atomic 2 is what the first thread prepares. *)
Definition once_start (x : nat) : obj_state := if x =? 1 then IntState 1%N else ex_start x.
Definition early (rel acq : memory_order) : list (list (call * reply)) :=
  [[(int 2 (AStore 5) (Some Relaxed), IntReply None); (int 1 (AFetchSub 1) (Some rel), IntReply (Some 1%N))];
   [(int 1 ALoad (Some acq), IntReply (Some 0%N)); (int 2 ALoad (Some Relaxed), IntReply (Some 0%N))]].
Definition early_events (rel acq : memory_order) : list (list mevent) :=
  [[ev 2 (PStore 5) Relaxed 0%N 1; ev 1 (PSub 1) rel 1%N 1]; [ev 1 PLoad acq 0%N 1; ev 2 PLoad Relaxed 0%N 0]].
Theorem C154_relaxed_refuted : forall rel acq, (rel, acq) = (Relaxed, Acquire) \/ (rel, acq) = (Release, Relaxed) ->
  exists programs contents n evss outss, let ts := [MThread None []; MThread None []] in let rs := replies ts outss in
  shared_run ex_objs once_start programs contents n evss ts outss /\ countdown rs (length programs) 1 1 /\ finds_done rs 1 1 0 /\
  (rel = Release -> arrivals_release rs 1) /\ (acq = Acquire -> acquires_at rs 1 0) /\
  arrives rs 1 0 1 /\ nth_error (rs 0) 0 = Some (int 2 (AStore 5) (Some Relaxed), IntReply None) /\
  nth_error (rs 1) 1 = Some (int 2 ALoad (Some Relaxed), IntReply (Some 0%N)).
Proof.
  intros rel acq Or. exists (map (map fst) (early rel acq)), (fun x k => match x, k with 1, 0 => 1%N | 2, 1 => 5%N | _, _ => 0%N end), (fun x => match x with 1 | 2 => 1 | _ => 0 end), (early_events rel acq), (early rel acq).
  cbn zeta. split; [|split; [|split; [|split; [|split; [|split; [|split]]]]]].
  - destruct Or as [[= -> ->]|[= -> ->]]; (split; [exact ex_types|intros [|[|[|x]]]; cbn; split; reflexivity|good|unfold early, early_events; cbn [map fst]; runs|]); apply unsynchronized.
    all: try (cbn; intros e I; decompose [or] I; subst; try contradiction; discriminate).
    all: try (intros x; destruct x as [|[|[|x]]]; cbn; split; cbn; try (intros e I; cbn in I; decompose [or] I; subst; try contradiction; cbn; try discriminate; intros; try (split; [lia|]); reflexivity);
        try apply Permutation_refl; repeat constructor; cbn; intros; try discriminate; repeat match goal with H : Some _ = Some _ |- _ => injection H as <- end; lia).
    all: intros a b (ea & eb & i & j & Ea & Eb & Ob & Rl & Ac & Wi & Rj & L & _);
      (assert (Ia : exists a, event_at (early_events _ _) a = Some ea) by eauto); (assert (Ib : exists a, event_at (early_events _ _) a = Some eb) by eauto);
      apply event_at_in in Ia, Ib; cbn in Ia, Ib; decompose [or] Ia; subst; try contradiction; try discriminate Rl; decompose [or] Ib; subst; try contradiction; try discriminate Ac; discriminate.
  - split; [|vm_compute; discriminate]. intros [|[|t]] k co E T; unfold replies in E; cbn [nth early nth_error pending mcur app] in E; [at_index E|at_index E|cbn in E; destruct t; cbn in E; destruct k; discriminate E]; try discriminate T; reflexivity.
  - eexists. split; [reflexivity|]. split; [reflexivity|]. eexists. repeat split; reflexivity.
  - intros -> [|[|t]] k co E T; unfold replies in E; cbn [nth early nth_error pending mcur app] in E; [at_index E|at_index E|cbn in E; destruct t; cbn in E; destruct k; discriminate E]; try discriminate T; reflexivity.
  - intros -> co E. cbn in E. injection E as <-. reflexivity.
  - eexists. split; reflexivity.
  - reflexivity.
  - reflexivity.
Qed.
Print Assumptions C154_relaxed_refuted.

(** ** Example *)
(** Two threads take one away each; the second looks before and after that, and then reads what the first has
    prepared. *)
Definition two_start (x : nat) : obj_state := if x =? 1 then IntState 2%N else ex_start x.
Definition arrived : list (list (call * reply)) :=
  [[(int 2 (AStore 5) (Some Relaxed), IntReply None); (int 1 (AFetchSub 1) (Some Release), IntReply (Some 2%N))];
   [(int 1 ALoad (Some Relaxed), IntReply (Some 1%N)); (int 1 APreDec None, IntReply (Some 0%N)); (int 1 ALoad (Some Acquire), IntReply (Some 0%N)); (int 2 ALoad (Some Relaxed), IntReply (Some 5%N))]].
Definition arrived_events : list (nat * mevent) :=
  [(0, ev 2 (PStore 5) Relaxed 0%N 1); (0, ev 1 (PSub 1) Release 2%N 1); (1, ev 1 PLoad Relaxed 1%N 1); (1, ev 1 (PSub 1) SeqCst 1%N 2); (1, ev 1 PLoad Acquire 0%N 2); (1, ev 2 PLoad Relaxed 5%N 1)].
Definition arrived_contents (x k : nat) : N := match x, k with 1, 0 => 2%N | 1, 1 => 1%N | 2, 1 => 5%N | _, _ => 0%N end.
Example C154_nonvacuous :
  let programs := map (map fst) arrived in let ts := [MThread None []; MThread None []] in let rs := replies ts arrived in
  (exists n, shared_run ex_objs two_start programs arrived_contents n (by_thread arrived_events) ts arrived) /\
  countdown rs (length programs) 1 2 /\ arrivals_release rs 1 /\ finds_done rs 1 1 2 /\ acquires_at rs 1 2 /\ arrives rs 1 0 1 /\ arrives rs 1 1 1.
Proof.
  cbn zeta. split; [|split; [|split; [|split; [|split; [|split]]]]].
  - eexists. split; [exact ex_types|intros [|[|[|x]]]; cbn; split; reflexivity|good|unfold arrived, by_thread; cbn; runs|].
    apply (timed_execution arrived_events); [merged|]. cbn. repeat split; reflexivity.
  - split; [|vm_compute; discriminate]. intros [|[|t]] k co E T; unfold replies in E; cbn [nth arrived nth_error pending mcur app] in E; [at_index E|at_index E|cbn in E; destruct t; cbn in E; destruct k; discriminate E]; try discriminate T; reflexivity.
  - intros [|[|t]] k co E T; unfold replies in E; cbn [nth arrived nth_error pending mcur app] in E; [at_index E|at_index E|cbn in E; destruct t; cbn in E; destruct k; discriminate E]; try discriminate T; reflexivity.
  - eexists. split; [reflexivity|]. split; [reflexivity|]. eexists. repeat split; reflexivity.
  - intros co E. cbn in E. injection E as <-. reflexivity.
  - eexists. split; reflexivity.
  - eexists. split; reflexivity.
Qed.
