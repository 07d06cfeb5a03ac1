(** Property C128: signals through the bits of an atomic_bitset, hand-over with exchange. *)
From Coq Require Import Permutation.
From Verif Require Import Base BitModel BitsetModel BitsetSpec ConcModel ConcSpec RelaxedModel RelaxedProofs
  AtomicModel AtomicSpec AtomicBitsetModel AtomicBitsetSpec AtomicProps BitProps SignalSpec SignalProofs.
Open Scope N_scope.

(** Threads signal with set, take with reset (or set to false), toggle with flip, and do as they
    like with the other bits, with any memory orders.  Once all have finished, the calls that found
    the bit off and turned it on are as many as those that found it on and turned it off, up to
    the value it had first and the value it has now: no signal is lost, none is taken twice, and
    none is invented. *)
Theorem C128_signals : forall pl n w sw same64 contents k m programs evss ts' outss i,
  ab_sizes pl n w same64 -> stores n (contents 0%nat) m -> Forall (Forall (abpre n w sw)) programs -> i < n ->
  Forall (Forall (fun op => signals i op || takes i op || toggles i op || elsewhere i op = true)) programs ->
  all_perform (abcode pl n w sw same64) (start programs) evss ts' outss -> execution w contents k evss -> finished ts' ->
  (one (N.testbit (contents 0%nat) i) + turned_on w i (concat outss) =
   one (N.testbit (contents k) i) + turned_off w i (concat outss))%nat /\
  (existsb (signals i) (concat programs) = true ->
   (1 <= one (N.testbit (contents k) i) + turned_off w i (concat outss))%nat).
Proof. exact signals_conserved. Qed.
Print Assumptions C128_signals.

(** Threads that use nothing but exchange (and load) on an atomic<T>: the first value and the values
    given are, each as often, the last value and the values returned.  What one thread hands over
    is received by exactly one exchange, or is still there. *)
Theorem C128_exchange : forall int_w w ew sg esg contents k m programs evss ts' outss, 0 < w -> w <= ew ->
  word_holds w ew (contents 0%nat) m -> Forall (Forall (call_ok int_w w ew sg esg)) programs ->
  Forall (Forall (fun op => op = ALoad \/ exists v, op = AExchange v)) programs ->
  all_perform (acode int_w w ew sg esg) (start programs) evss ts' outss -> execution ew contents k evss -> finished ts' ->
  exists m', word_holds w ew (contents k) m' /\ Permutation (m :: given (concat programs)) (m' :: returned (concat outss)).
Proof. exact exchange_conserved. Qed.
Print Assumptions C128_exchange.

(** reset() without an argument does not return the bits.  A thread that takes what is there with
    load and clears it with reset() loses a signal given between the two, for every bit and every
    size: set found the bit off, the load did not show it, and at the end it is off. *)
Theorem C128_load_then_reset_refuted : forall pl n w sw same64 i, ab_sizes pl n w same64 -> i < n ->
  exists ts' o1 o2 h,
    run_threads w (abcode pl n w sw same64) [1; 1; 1; 0; 0; 0; 1; 1; 1] 0 (start [[OSet i true]; [OLoad; OResetAll]]) = Some (0, ts', h) /\
    finished ts' /\ responses h = [(OLoad, o1); (OSet i true, o2); (OResetAll, RUnit)] /\
    was w i false o1 = true /\ was w i false o2 = true.
Proof. exact lost. Qed.
Print Assumptions C128_load_then_reset_refuted.

(** Two signals, one taken, one left; a toggle and a store-free neighbour. *)
Example C128_nonvacuous :
  ab_sizes lp64 3 8 false /\ stores 3 0 (tab 3 (N.testbit 0)) /\
  let programs := [[OSet 1 true; OSetRange 0 1 true]; [OReset 1; OFlip 2]] in
  Forall (Forall (abpre 3 8 8)) programs /\
  Forall (Forall (fun op => signals 1 op || takes 1 op || toggles 1 op || elsewhere 1 op = true)) programs /\
  exists contents k evss ts' outss, contents 0%nat = 0 /\
    all_perform (abcode lp64 3 8 8 false) (start programs) evss ts' outss /\ execution 8 contents k evss /\ finished ts' /\
    outss = [[(OSet 1 true, RBits [0]); (OSetRange 0 1 true, RBits [0])]; [(OReset 1, RBits [2]); (OFlip 2, RBits [3])]] /\
    turned_on 8 1 (concat outss) = 2%nat /\ turned_off 8 1 (concat outss) = 1%nat /\ contents k = 7.
Proof.
  split; [exact ab_example_sizes|]. split; [split; [reflexivity|reflexivity]|]. intros programs. split; [|split].
  - repeat constructor; cbn; lia.
  - repeat constructor.
  - destruct (run_threads 8 (abcode lp64 3 8 8 false) [0; 1; 0; 1; 0; 1; 0; 0; 1; 0; 1; 1] 0 (start programs)) as [((mem', ts'), h)|] eqn:R; [|vm_compute in R; discriminate].
    destruct (run_execution 8 (abcode lp64 3 8 8 false) _ 0 _ mem' ts' h R) as (contents & k & evss & outss & C0 & Ck & A & X & An).
    vm_compute in R. injection R as Em Et Eh. exists contents, k, evss, ts', outss.
    assert (Eo : outss = [[(OSet 1 true, RBits [0]); (OSetRange 0 1 true, RBits [0])]; [(OReset 1, RBits [2]); (OFlip 2, RBits [3])]]).
    { pose proof (An 0%nat ltac:(cbn; lia)) as A0. pose proof (An 1%nat ltac:(cbn; lia)) as A1. subst h. vm_compute in A0, A1.
      destruct outss as [|a [|b [|c r]]]; cbn in A0, A1; try discriminate; [congruence|].
      exfalso. clear - A. inversion A as [|? ? ? ? ? ? ? ? H1 H2]; subst. inversion H2 as [|? ? ? ? ? ? ? ? H3 H4]; subst. inversion H4. }
    split; [exact C0|]. split; [exact A|]. split; [exact X|]. split; [subst ts'; repeat constructor|]. split; [exact Eo|].
    subst outss. split; [reflexivity|]. split; [reflexivity|]. congruence.
Qed.
(** Two producers and a consumer that takes with exchange(0). *)
Example C128_exchange_nonvacuous :
  let programs := [[AExchange 5; AExchange 6]; [AExchange 0; AExchange 0]] in
  word_holds 8 8 0 0 /\ Forall (Forall (call_ok 32 8 8 false false)) programs /\
  Forall (Forall (fun op => op = ALoad \/ exists v, op = AExchange v)) programs /\
  exists ts' h, run_threads 8 (acode 32 8 8 false false) [0; 0; 0; 1; 1; 0; 0; 1; 1; 1; 0; 1] 0 (start programs) = Some (0, ts', h) /\ finished ts' /\
    responses h = [(AExchange 5, Some 0); (AExchange 0, Some 5); (AExchange 6, Some 0); (AExchange 0, Some 6)].
Proof.
  intros programs. split; [split; reflexivity|]. split; [|split].
  - repeat constructor; cbn; try lia; discriminate.
  - repeat (constructor; try (right; eauto)).
  - do 2 eexists. split; [vm_compute; reflexivity|]. split; [repeat constructor|reflexivity].
Qed.
