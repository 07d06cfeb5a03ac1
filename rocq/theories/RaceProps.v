(** C104: relaxed calls that do not race. *)
From Coq Require Import Permutation.
From Verif Require Import Base BitModel BitsetModel BitsetSpec BitsetProps ConcModel RelaxedModel AtomicModel AtomicSpec AtomicBitsetModel AtomicBitsetSpec AtomicProps.
From Verif Require Import MultiModel MultiSpec MultiProofs MultiProofs2 MultiProofs3 MultiProofs4 MultiProofs5 MultiProps RaceSpec MultiProofs6 MultiProofs7 RaceProofs.
Open Scope nat_scope.

(** Whatever the memory orders: if no two calls on some objects race, these calls take effect one after
    the other, in an order that agrees with each thread, and so do their results. *)
Theorem C104_no_races : forall objs st programs contents n evss ts outss P,
  shared_run objs st programs contents n evss ts outss -> no_races evss (replies ts outss) P ->
  exists l st', one_after_the_other objs st (replies ts outss) P l st' /\ forall x, P x = true -> represents (objs x) (contents x (n x)) (st' x).
Proof.
  intros objs st programs contents n evss ts outss P R H. destruct (without_races objs st programs contents n evss ts outss R P H) as (l & st' & A & _ & B). exists l, st'. auto.
Qed.
Print Assumptions C104_no_races.
(** Objects that are used only while holding a bit of an atomic_bitset as a lock: in this order the
    critical sections are not interleaved. *)
Theorem C104_locked : forall objs st programs contents n evss ts outss P f pl nb w sw same64 m0 i,
  shared_run objs st programs contents n evss ts outss -> objs f = Bits pl nb w sw same64 -> (i < nb)%N -> st f = BitsState m0 -> bit m0 i = false ->
  (forall c, In c (concat programs) -> protocol f w i c) -> (forall t, disciplined f w i (replies ts outss t)) -> only_locked (replies ts outss) P f w i ->
  exists l st', one_after_the_other objs st (replies ts outss) P l st' /\ sections_whole (replies ts outss) f w i l /\
    forall x, P x = true -> represents (objs x) (contents x (n x)) (st' x).
Proof.
  intros objs st programs contents n evss ts outss P f pl nb w sw same64 m0 i R Ef Hi Es Hb Hc Hd Hl.
  pose proof (locked_order objs st programs contents n evss ts outss R f pl nb w sw same64 m0 i Ef Hi Es Hb Hc Hd P Hl) as H.
  destruct (without_races objs st programs contents n evss ts outss R P H) as (l & st' & A & O & B). exists l, st'. split; [exact A|]. split; [|exact B].
  apply (whole_sections objs st programs contents n evss ts outss R f pl nb w sw same64 m0 i Ef Hi Es Hb Hc Hd P l); [intros t k I; now apply (listed _ _ _ _ _ _ A)|exact Hl|exact O].
Qed.
Print Assumptions C104_locked.
(** So a counter under the lock needs no read-modify-write calls: no increment is lost. *)
Theorem C104_counter : forall objs st programs contents n evss ts outss f pl nb w sw same64 m0 i x iw wx ew sg esg v0 increments,
  shared_run objs st programs contents n evss ts outss -> objs f = Bits pl nb w sw same64 -> (i < nb)%N -> st f = BitsState m0 -> bit m0 i = false ->
  (forall c, In c (concat programs) -> protocol f w i c) -> (forall t, disciplined f w i (replies ts outss t)) ->
  only_locked (replies ts outss) (fun y => y =? x) f w i ->
  objs x = Int iw wx ew sg esg -> st x = IntState v0 -> counts (replies ts outss) f w i x wx ->
  NoDup increments -> (forall t k, In (t, k) increments <-> exists co v, nth_error (replies ts outss t) k = Some co /\ stores_value x co v) ->
  word_holds wx ew (contents x (n x)) ((v0 + N.of_nat (length increments)) mod 2 ^ wx).
Proof.
  intros objs st programs contents n evss ts outss f pl nb w sw same64 m0 i x iw wx ew sg esg v0 increments R Ef Hi Es Hb Hc Hd Hl Ex Sx Cn D L.
  destruct (C104_locked objs st programs contents n evss ts outss (fun y => y =? x) f pl nb w sw same64 m0 i R Ef Hi Es Hb Hc Hd Hl) as (l & st' & [Ls On Or (calls & F & T)] & Wh & B).
  specialize (B x (Nat.eqb_refl x)). rewrite Ex in B. pose proof (run_start _ _ _ _ _ _ _ _ R x) as B0. rewrite Ex, Sx in B0.
  rewrite (counter objs st (replies ts outss) f w i x iw wx ew sg esg v0 l st' Ex Sx) with (calls := calls) (L := increments) in B; try assumption.
  destruct B0 as [_ ->]. apply N.mod_lt, N.pow_nonzero. lia.
Qed.
Print Assumptions C104_counter.

(** ** An example *)
(** Bit 1 of object 0 as a lock, object 1 as a counter: two threads add one each, with relaxed loads
    and stores; the second has to try twice. *)
Definition add_one (v : N) (tries : list (call * reply)) : list (call * reply) :=
  tries ++ [(try_lock, BitsReply (RBits [0%N])); (int 1 ALoad (Some Relaxed), IntReply (Some v)); (int 1 (AStore (v + 1)) (Some Relaxed), IntReply None); (unlock, BitsReply (RBits [2%N]))].
Definition count_replies : list (list (call * reply)) := [add_one 0 []; add_one 1 [(try_lock, BitsReply (RBits [2%N]))]].
Example C104_nonvacuous :
  let programs := map (map fst) count_replies in
  let rs := replies [@MThread call reply None []; MThread None []] count_replies in
  (exists contents n evss, shared_run ex_objs ex_start programs contents n evss [MThread None []; MThread None []] count_replies) /\
  (forall c, In c (concat programs) -> protocol 0 8 1 c) /\ (forall t, disciplined 0 8 1 (rs t)) /\
  only_locked rs (fun y => y =? 1) 0 8 1 /\ counts rs 0 8 1 1 8 /\
  (forall t k, In (t, k) [(0, 2); (1, 3)] <-> exists co v, nth_error (rs t) k = Some co /\ stores_value 1 co v).
Proof.
  assert (NL : ~ clears 8 1 (OSet 1 true)) by (intros H; discriminate (H true)).
  assert (K : forall mo r, locked 0 8 1 (bits (OSet 1 true) mo, BitsReply (RBits [r])) <-> saw_clear 8 1 (RBits [r]) = true).
  { intros mo r. split; [intros (_ & b & o & A & O & _ & S); injection O as <-; exact S|]. intros S. split; [reflexivity|]. eexists. eexists. cbn. repeat split. exact S. }
  assert (NU : forall mo o, ~ unlocked 0 8 1 (bits (OSet 1 true) mo, o)) by (intros mo o (_ & b & A & C); injection A as <-; exact (NL C)).
  assert (NI : forall op mo o, ~ unlocked 0 8 1 (int 1 op mo, o)) by (intros op mo o (T & _); discriminate T).
  intros programs rs.
  assert (H0 : forall k, k = 1 \/ k = 2 -> holding 0 8 1 (rs 0) 0 k).
  { intros k B. split; [lia|]. split; [eexists; split; [reflexivity|apply K; reflexivity]|]. intros m co B1 E. assert (m = 1 \/ m = 2) as [->| ->] by lia; cbn in E; injection E as <-; apply NI. }
  assert (H1 : forall k, k = 2 \/ k = 3 -> holding 0 8 1 (rs 1) 1 k).
  { intros k B. split; [lia|]. split; [eexists; split; [reflexivity|apply K; reflexivity]|]. intros m co B1 E. assert (m = 2 \/ m = 3) as [->| ->] by lia; cbn in E; injection E as <-; apply NI. }
  assert (Cases : forall t k co, nth_error (rs t) k = Some co -> (t = 0 /\ k < 4) \/ (t = 1 /\ k < 5)).
  { intros [|[|t]] k co E; [left|right|destruct t; destruct k; discriminate]; (split; [reflexivity|]).
    - assert (Q : nth_error (rs 0) k <> None) by congruence. apply nth_error_Some in Q. exact Q.
    - assert (Q : nth_error (rs 1) k <> None) by congruence. apply nth_error_Some in Q. exact Q. }
  split; [|split; [|split; [|split; [|split]]]].
  - set (evss := [[ev 0 (POr 2) Acquire 0%N 1; ev 1 PLoad Relaxed 0%N 0; ev 1 (PStore 1) Relaxed 0%N 1; ev 0 (PAnd 253) Release 2%N 3];
                  [ev 0 (POr 2) Acquire 2%N 2; ev 0 (POr 2) Acquire 0%N 4; ev 1 PLoad Relaxed 1%N 1; ev 1 (PStore 2) Relaxed 0%N 2; ev 0 (PAnd 253) Release 2%N 5]]).
    exists (fun x k => if x =? 0 then (match k with 1 | 2 | 4 => 2%N | _ => 0%N end) else N.of_nat k). eexists. exists evss.
    split; [exact ex_types|intros x; destruct x; apply (ex_starts)|good|runs|].
    apply (timed_execution [(0, ev 0 (POr 2) Acquire 0%N 1); (1, ev 0 (POr 2) Acquire 2%N 2); (0, ev 1 PLoad Relaxed 0%N 0); (0, ev 1 (PStore 1) Relaxed 0%N 1); (0, ev 0 (PAnd 253) Release 2%N 3);
      (1, ev 0 (POr 2) Acquire 0%N 4); (1, ev 1 PLoad Relaxed 1%N 1); (1, ev 1 (PStore 2) Relaxed 0%N 2); (1, ev 0 (PAnd 253) Release 2%N 5)] evss); [merged|].
    cbn. repeat split; reflexivity.
  - intros c I. cbn in I. decompose [or] I; subst; try contradiction; intros T; try discriminate T; eexists; (split; [reflexivity|]); cbn; (split; [discriminate|]); auto.
    + right. left. split; [intros b; reflexivity|reflexivity].
    + right. left. split; [intros b; reflexivity|reflexivity].
  - intros t j co E U. destruct (Cases t j co E) as [[-> L]|[-> L]].
    + assert (J : j = 0 \/ j = 1 \/ j = 2 \/ j = 3) by lia. destruct J as [->|[->|[->| ->]]]; cbn in E; injection E as <-; try (exfalso; eapply NU; exact U); try (exfalso; eapply NI; exact U).
      exists 0. eexists. split; [lia|]. split; [reflexivity|]. split; [apply K; reflexivity|]. intros m co2 B E. assert (m = 1 \/ m = 2) as [->| ->] by lia; cbn in E; injection E as <-; apply NI.
    + assert (J : j = 0 \/ j = 1 \/ j = 2 \/ j = 3 \/ j = 4) by lia. destruct J as [->|[->|[->|[->| ->]]]]; cbn in E; injection E as <-; try (exfalso; eapply NU; exact U); try (exfalso; eapply NI; exact U).
      exists 1. eexists. split; [lia|]. split; [reflexivity|]. split; [apply K; reflexivity|]. intros m co2 B E. assert (m = 2 \/ m = 3) as [->| ->] by lia; cbn in E; injection E as <-; apply NI.
  - intros t k co E T. destruct (Cases t k co E) as [[-> L]|[-> L]].
    + exists 0. apply H0. assert (J : k = 0 \/ k = 1 \/ k = 2 \/ k = 3) by lia. destruct J as [->|[->|[->| ->]]]; auto; cbn in E; injection E as <-; discriminate T.
    + exists 1. apply H1. assert (J : k = 0 \/ k = 1 \/ k = 2 \/ k = 3 \/ k = 4) by lia. destruct J as [->|[->|[->|[->| ->]]]]; auto; cbn in E; injection E as <-; discriminate T.
  - split.
    + intros t k co E T. destruct (Cases t k co E) as [[-> L]|[-> L]].
      * assert (J : k = 0 \/ k = 1 \/ k = 2 \/ k = 3) by lia. destruct J as [->|[->|[->| ->]]]; cbn in E; injection E as <-; try discriminate T; [left; exists 0%N|right; exists 1%N]; eexists; repeat split.
      * assert (J : k = 0 \/ k = 1 \/ k = 2 \/ k = 3 \/ k = 4) by lia. destruct J as [->|[->|[->|[->| ->]]]]; cbn in E; injection E as <-; try discriminate T; [left; exists 1%N|right; exists 2%N]; eexists; repeat split.
    + intros t k co v E (mo & Ec). destruct (Cases t k co E) as [[-> L]|[-> L]].
      * assert (J : k = 0 \/ k = 1 \/ k = 2 \/ k = 3) by lia. destruct J as [->|[->|[->| ->]]]; cbn in E; injection E as <-; try discriminate Ec. injection Ec as <- _.
        exists 1. eexists. exists 0%N. split; [lia|]. split; [reflexivity|]. split; [eexists; repeat split|]. split; [reflexivity|]. split; [split; [reflexivity|]; exists 0; split; apply H0; auto|]. intros; lia.
      * assert (J : k = 0 \/ k = 1 \/ k = 2 \/ k = 3 \/ k = 4) by lia. destruct J as [->|[->|[->|[->| ->]]]]; cbn in E; injection E as <-; try discriminate Ec. injection Ec as <- _.
        exists 2. eexists. exists 1%N. split; [lia|]. split; [reflexivity|]. split; [eexists; repeat split|]. split; [reflexivity|]. split; [split; [reflexivity|]; exists 1; split; apply H1; auto|]. intros; lia.
  - intros t k. split.
    + intros [E|[E|[]]]; injection E as <- <-; eexists; [exists 1%N|exists 2%N]; (split; [reflexivity|]); eexists; reflexivity.
    + intros (co & v & E & (mo & Ec)). destruct (Cases t k co E) as [[-> L]|[-> L]].
      * assert (J : k = 0 \/ k = 1 \/ k = 2 \/ k = 3) by lia. destruct J as [->|[->|[->| ->]]]; cbn in E; injection E as <-; try discriminate Ec. now left.
      * assert (J : k = 0 \/ k = 1 \/ k = 2 \/ k = 3 \/ k = 4) by lia. destruct J as [->|[->|[->|[->| ->]]]]; cbn in E; injection E as <-; try discriminate Ec. right. now left.
Qed.
