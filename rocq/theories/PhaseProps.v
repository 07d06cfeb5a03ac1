(** * C155: threads that work in phases *)
From Coq Require Import Permutation.
From Verif Require Import Base BitModel ConcModel RelaxedModel AtomicModel AtomicSpec AtomicBitsetModel AtomicBitsetSpec MultiModel MultiSpec MultiProofs MultiProofs4 MultiProofs5 MultiProps.
From Verif Require Import RaceSpec RaceProps PetersonSpec PetersonProofs PetersonProps CountSpec CountProps PhaseSpec PhaseProofs.
Open Scope nat_scope.

(** All that any thread does in the phases up to [r] happens before a thread finds that these have ended, if ending
    a phase releases and finding this acquires. *)
Theorem C155_phases : forall objs st programs contents n evss ts outss x iw w ew sg esg t l r,
  shared_run objs st programs contents n evss ts outss -> objs x = Int iw w ew sg esg -> st x = IntState 0 ->
  let rs := replies ts outss in in_phases rs (length programs) x w -> passes rs (length programs) x t l r -> ends_release rs x -> pass_acquires rs t l ->
  forall u i k, u < length programs -> phase rs x u i <= r -> l <= k -> happens_before evss (u, i) (t, k).
Proof.
  intros objs st programs contents n evss ts outss x iw w ew sg esg t l r R O S rs Ph Ps Rel Acq u i k Lu Pi Le.
  destruct (ordered_calls _ _ _ _ _ _ _ _ _ _ _ _ _ _ R O S Ph) as (l0 & Oc).
  assert (HB : happens_before evss (u, i) (t, l)) by (eapply ended_first; eassumption).
  destruct (Nat.eq_dec l k) as [<-|N]; [exact HB|]. apply hb_then with (t, l); [exact HB|]. apply hb_sequenced. split; [reflexivity|cbn; lia].
Qed.
Print Assumptions C155_phases.
(** With any memory orders: who finds that the phases up to [r] have ended is right, and no thread gets more than
    one phase ahead of another. *)
Theorem C155_any_order : forall objs st programs contents n evss ts outss x iw w ew sg esg,
  shared_run objs st programs contents n evss ts outss -> objs x = Int iw w ew sg esg -> st x = IntState 0 ->
  let rs := replies ts outss in in_phases rs (length programs) x w ->
  (forall t l r u, passes rs (length programs) x t l r -> u < length programs -> S r <= number x adds_one (rs u)) /\
  (forall t u, u < length programs -> number x adds_one (rs t) <= S (number x adds_one (rs u))).
Proof.
  intros objs st programs contents n evss ts outss x iw w ew sg esg R O Sx rs Ph.
  destruct (ordered_calls _ _ _ _ _ _ _ _ _ _ _ _ _ _ R O Sx Ph) as (l0 & Oc).
  assert (A : forall t l r u, passes rs (length programs) x t l r -> u < length programs -> S r <= number x adds_one (rs u)) by (intros; eapply all_ended; eassumption).
  split; [exact A|]. intros t u Lu. destruct (number x adds_one (rs t)) as [|[|r]] eqn:E; [lia|lia|].
  destruct (last_counted x adds_one (rs t) (S r) E) as (k & co & Ek & K & P).
  destruct (ph_wait _ _ _ _ Ph t k co r Ek K P) as (l & _ & _ & Ps). pose proof (A t l r u Ps Lu). lia.
Qed.
Print Assumptions C155_any_order.

(** ** Weaker orders *)
(** Atomic 1 is the counter; atomic 2 is what the first thread prepares in the first phase. *)
Definition missed (rel acq : memory_order) : list (list (call * reply)) :=
  [[(int 2 (AStore 5) (Some Relaxed), IntReply None); (int 1 (AFetchAdd 1) (Some rel), IntReply (Some 0%N))];
   [(int 1 (AFetchAdd 1) (Some rel), IntReply (Some 1%N)); (int 1 ALoad (Some acq), IntReply (Some 2%N)); (int 2 ALoad (Some Relaxed), IntReply (Some 0%N))]].
Definition missed_events (rel acq : memory_order) : list (list mevent) :=
  [[ev 2 (PStore 5) Relaxed 0%N 1; ev 1 (PAdd 1) rel 0%N 1]; [ev 1 (PAdd 1) rel 1%N 2; ev 1 PLoad acq 2%N 2; ev 2 PLoad Relaxed 0%N 0]].
Theorem C155_relaxed_refuted : forall rel acq, (rel, acq) = (Relaxed, Acquire) \/ (rel, acq) = (Release, Relaxed) ->
  exists programs contents n evss outss, let ts := [MThread None []; MThread None []] in let rs := replies ts outss in
  shared_run ex_objs ex_start programs contents n evss ts outss /\ in_phases rs (length programs) 1 8 /\ passes rs (length programs) 1 1 1 0 /\
  (rel = Release -> ends_release rs 1) /\ (acq = Acquire -> pass_acquires rs 1 1) /\
  phase rs 1 0 0 = 0 /\ nth_error (rs 0) 0 = Some (int 2 (AStore 5) (Some Relaxed), IntReply None) /\
  nth_error (rs 1) 2 = Some (int 2 ALoad (Some Relaxed), IntReply (Some 0%N)).
Proof.
  intros rel acq Or. exists (map (map fst) (missed rel acq)), (fun x k => match x, k with 1, 1 => 1%N | 1, 2 => 2%N | 2, 1 => 5%N | _, _ => 0%N end), (fun x => match x with 1 => 2 | 2 => 1 | _ => 0 end), (missed_events rel acq), (missed rel acq).
  cbn zeta. split; [|split; [|split; [|split; [|split; [|split; [|split]]]]]].
  - destruct Or as [[= -> ->]|[= -> ->]]; (split; [exact ex_types|intros [|[|[|x]]]; cbn; split; reflexivity|good|unfold missed, missed_events; cbn [map fst]; runs|]); apply unsynchronized.
    all: try (cbn; intros e I; decompose [or] I; subst; try contradiction; discriminate).
    all: try (intros x; destruct x as [|[|[|x]]]; cbn; split; cbn; try (intros e I; cbn in I; decompose [or] I; subst; try contradiction; cbn; try discriminate; intros; try (split; [lia|]); reflexivity);
        try apply Permutation_refl; repeat constructor; cbn; intros; try discriminate; repeat match goal with H : Some _ = Some _ |- _ => injection H as <- end; lia).
    all: intros a b (ea & eb & i & j & Ea & Eb & Ob & Rl & Ac & Wi & Rj & L & _);
      (assert (Ia : exists a, event_at (missed_events _ _) a = Some ea) by eauto); (assert (Ib : exists a, event_at (missed_events _ _) a = Some eb) by eauto);
      apply event_at_in in Ia, Ib; cbn in Ia, Ib; decompose [or] Ia; subst; try contradiction; try discriminate Rl; decompose [or] Ib; subst; try contradiction; try discriminate Ac; discriminate.
  - split.
    + intros [|[|t]] k co E T; unfold replies in E; cbn [nth missed nth_error pending mcur app] in E; [at_index E|at_index E|cbn in E; destruct t; cbn in E; destruct k; discriminate E]; try discriminate T; reflexivity.
    + intros [|[|t]] k co r E T P; unfold replies in E; cbn [nth missed nth_error pending mcur app] in E; [at_index E|at_index E|cbn in E; destruct t; cbn in E; destruct k; discriminate E]; try discriminate T; discriminate P.
    + vm_compute. reflexivity.
  - eexists _, 2%N. split; [reflexivity|]. split; [|vm_compute; discriminate]. split; [reflexivity|]. eexists. repeat split; reflexivity.
  - intros -> [|[|t]] k co E T; unfold replies in E; cbn [nth missed nth_error pending mcur app] in E; [at_index E|at_index E|cbn in E; destruct t; cbn in E; destruct k; discriminate E]; try discriminate T; destruct Or as [[= -> ->]|[= ->]]; try discriminate; reflexivity.
  - intros -> co E. cbn in E. injection E as <-. reflexivity.
  - reflexivity.
  - reflexivity.
  - reflexivity.
Qed.
Print Assumptions C155_relaxed_refuted.

(** ** Example *)
(** Two threads, two phases each: the second reads what the first prepared in phase 0, and the first reads what the
    second prepared in phase 1. *)
Definition stepped : list (list (call * reply)) :=
  [[(int 2 (AStore 5) (Some Relaxed), IntReply None); (int 1 (AFetchAdd 1) (Some Release), IntReply (Some 0%N)); (int 1 ALoad (Some Acquire), IntReply (Some 2%N));
    (int 1 APreInc None, IntReply (Some 3%N)); (int 1 ALoad None, IntReply (Some 4%N)); (int 2 ALoad (Some Relaxed), IntReply (Some 6%N))];
   [(int 1 APreInc None, IntReply (Some 2%N)); (int 1 ALoad (Some Acquire), IntReply (Some 2%N)); (int 2 ALoad (Some Relaxed), IntReply (Some 5%N));
    (int 2 (AStore 6) (Some Relaxed), IntReply None); (int 1 (AFetchAdd 1) (Some Release), IntReply (Some 3%N))]].
Definition stepped_events : list (nat * mevent) :=
  [(0, ev 2 (PStore 5) Relaxed 0%N 1); (0, ev 1 (PAdd 1) Release 0%N 1); (1, ev 1 (PAdd 1) SeqCst 1%N 2); (1, ev 1 PLoad Acquire 2%N 2); (0, ev 1 PLoad Acquire 2%N 2);
   (1, ev 2 PLoad Relaxed 5%N 1); (0, ev 1 (PAdd 1) SeqCst 2%N 3); (1, ev 2 (PStore 6) Relaxed 0%N 2); (1, ev 1 (PAdd 1) Release 3%N 4); (0, ev 1 PLoad SeqCst 4%N 4); (0, ev 2 PLoad Relaxed 6%N 2)].
Definition stepped_contents (x k : nat) : N := match x, k with 1, _ => N.of_nat k | 2, 1 => 5%N | 2, 2 => 6%N | _, _ => 0%N end.
Example C155_nonvacuous :
  let programs := map (map fst) stepped in let ts := [MThread None []; MThread None []] in let rs := replies ts stepped in
  (exists n, shared_run ex_objs ex_start programs stepped_contents n (by_thread stepped_events) ts stepped) /\
  in_phases rs (length programs) 1 8 /\ ends_release rs 1 /\ passes rs (length programs) 1 0 4 1 /\ pass_acquires rs 0 4 /\ phase rs 1 1 3 = 1.
Proof.
  cbn zeta. split; [|split; [|split; [|split; [|split]]]].
  - eexists. split; [exact ex_types|intros [|[|[|x]]]; cbn; split; reflexivity|good|unfold stepped, by_thread; cbn; runs|].
    apply (timed_execution stepped_events); [merged|]. cbn. repeat split; reflexivity.
  - split.
    + intros [|[|t]] k co E T; unfold replies in E; cbn [nth stepped nth_error pending mcur app] in E; [at_index E|at_index E|cbn in E; destruct t; cbn in E; destruct k; discriminate E]; try discriminate T; reflexivity.
    + assert (F : forall t l co, nth_error (replies [MThread None []; MThread None []] stepped t) l = Some co -> finds 1 2 co -> passes (replies [MThread None []; MThread None []] stepped) 2 1 t l 0).
      { intros t l co E Fi. exists co, 2%N. split; [exact E|]. split; [exact Fi|]. vm_compute. discriminate. }
      intros [|[|t]] k co r E T P; unfold replies in E; cbn [nth stepped nth_error pending mcur app] in E; [at_index E|at_index E|cbn in E; destruct t; cbn in E; destruct k; discriminate E]; try discriminate T; try discriminate P; vm_compute in P; injection P as <-.
      * exists 2. split; [lia|]. split; [reflexivity|]. eapply F; [reflexivity|]. split; [reflexivity|]. eexists. repeat split; reflexivity.
      * exists 1. split; [lia|]. split; [reflexivity|]. eapply F; [reflexivity|]. split; [reflexivity|]. eexists. repeat split; reflexivity.
    + vm_compute. reflexivity.
  - intros [|[|t]] k co E T; unfold replies in E; cbn [nth stepped nth_error pending mcur app] in E; [at_index E|at_index E|cbn in E; destruct t; cbn in E; destruct k; discriminate E]; try discriminate T; reflexivity.
  - eexists _, 4%N. split; [reflexivity|]. split; [|vm_compute; discriminate]. split; [reflexivity|]. eexists. repeat split; reflexivity.
  - intros co E. cbn in E. injection E as <-. reflexivity.
  - reflexivity.
Qed.
