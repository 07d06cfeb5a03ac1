(** C20 atomic_bitset and C21 atomic, under every interleaving of any number of threads. *)
From Verif Require Import Base BaseLemmas BitModel BitSpec BitLemmas BitsetModel BitsetSpec BitsetProps.
From Verif Require Import ConcModel ConcSpec ConcProofs AtomicModel AtomicSpec AtomicProofs AtomicBitsetModel AtomicBitsetSpec AtomicBitsetProofs.
From Coq Require Import Permutation.
Open Scope N_scope.

(** ** C20: atomic_bitset *)
Definition ab_sizes (pl : platform) (n w : N) (same64 : bool) : Prop :=
  sizes_ok pl n w /\ n <= w /\ n <= 2 ^ 32 /\ (same64 = true -> w = 64) /\ (same64 = true \/ w < 64).

(** Whatever the programs of the threads and the schedule, nothing undefined happens, the
    history is linearizable with respect to N booleans, and the word left in memory stores the
    booleans at the end of that sequential execution; when all threads are done, every call
    has been answered once and the answers are those of one sequential order. *)
Theorem C20_linearizable : forall pl n w sw same64 sched mem m programs,
  ab_sizes pl n w same64 -> stores n mem m -> Forall (Forall (abpre n w sw)) programs ->
  exists mem' ts' h m',
    run_threads w (abcode pl n w sw same64) sched mem (start programs) = Some (mem', ts', h) /\
    stores n mem' m' /\ linearizable (abspec n w) m h m' /\
    (finished ts' -> Permutation (map fst (responses h)) (concat programs) /\
       exists order, Permutation order (responses h) /\ legal (abspec n w) m order m').
Proof.
  intros pl n w sw same64 sched mem m programs ((Hpl & Hw & Hwl & Hn & HnM) & Hnw & H32 & H64 & Hc) HR Hp.
  apply (threads_linearizable w (abcode pl n w sw same64) (abspec n w) (abpre n w sw) (stores n)); [|exact HR|exact Hp].
  intros op Hop. exact (ab_single pl n w sw same64 Hpl Hw Hwl Hn HnM Hnw H64 Hc H32 op Hop).
Qed.
Print Assumptions C20_linearizable.

(** Each thread's calls appear in the history in the order of its program. *)
Theorem C20_program_order : forall pl n w sw same64 sched mem programs mem' ts' h i p,
  run_threads w (abcode pl n w sw same64) sched mem (start programs) = Some (mem', ts', h) ->
  rd programs i = Some p -> exists rest, p = invoked i h ++ rest.
Proof.
  intros pl n w sw same64 sched mem programs mem' ts' h i p E Hp.
  destruct (invoked_order _ _ _ _ _ _ _ _ E i (Thread None p)) as (t' & _ & Ht).
  { rewrite rd_nth_error in Hp. rewrite rd_nth_error. unfold start. rewrite nth_error_map, Hp. reflexivity. }
  exists (todo t'). exact Ht.
Qed.
Print Assumptions C20_program_order.

(** No call waits for another thread: three steps of its own thread per call suffice. *)
Theorem C20_wait_free : forall pl n w sw same64 sched mem m programs,
  ab_sizes pl n w same64 -> stores n mem m -> Forall (Forall (abpre n w sw)) programs ->
  (forall i p, rd programs i = Some p -> (3 * length p <= own_steps i sched)%nat) ->
  exists mem' ts' h, run_threads w (abcode pl n w sw same64) sched mem (start programs) = Some (mem', ts', h) /\ finished ts'.
Proof.
  intros pl n w sw same64 sched mem m programs ((Hpl & Hw & Hwl & Hn & HnM) & Hnw & H32 & H64 & Hc) HR Hp.
  apply (wait_free w (abcode pl n w sw same64) (abspec n w) (abpre n w sw) (stores n)) with (m := m); [|exact HR|exact Hp].
  intros op Hop. exact (ab_single pl n w sw same64 Hpl Hw Hwl Hn HnM Hnw H64 Hc H32 op Hop).
Qed.
Print Assumptions C20_wait_free.

(** Among the calls that set an index that is clear at first, while no call clears it again,
    exactly one observes it clear. *)
Theorem C20_test_and_set : forall pl n w sw same64 sched mem m programs i mem' ts' h,
  ab_sizes pl n w same64 -> stores n mem m -> Forall (Forall (abpre n w sw)) programs ->
  i < n -> bit m i = false ->
  Forall (Forall (fun op => sets i op = true \/ leaves w i op)) programs ->
  existsb (sets i) (concat programs) = true ->
  run_threads w (abcode pl n w sw same64) sched mem (start programs) = Some (mem', ts', h) -> finished ts' ->
  length (winners w i (responses h)) = 1%nat /\ N.testbit mem' i = true.
Proof.
  intros pl n w sw same64 sched mem m programs i mem' ts' h Hs HR Hp Hi Hb Ho Hex E Hf.
  destruct (C20_linearizable pl n w sw same64 sched mem m programs Hs HR Hp) as (mem1 & ts1 & h1 & m1 & E1 & S1 & _ & Hfin).
  rewrite E in E1. injection E1 as <- <- <-. destruct (Hfin Hf) as (P1 & order & P2 & Hl).
  assert (Ho' : Forall (fun x => sets i (fst x) = true \/ leaves w i (fst x)) order).
  { apply Forall_forall. intros x Hx. apply (Permutation_in x P2) in Hx. apply (in_map fst) in Hx. apply (Permutation_in _ P1) in Hx.
    apply in_concat in Hx as (p & Hp1 & Hp2). rewrite Forall_forall in Ho. specialize (Ho p Hp1). rewrite Forall_forall in Ho. apply Ho. exact Hp2. }
  assert (Hex' : existsb (sets i) (map fst order) = true).
  { apply existsb_exists in Hex as (op & Hin & Hop). apply existsb_exists. exists op. split; [|exact Hop].
    apply (Permutation_in _ (Permutation_sym P1)) in Hin. apply in_map_iff in Hin as (x & <- & Hx). apply in_map. apply (Permutation_in _ (Permutation_sym P2)). exact Hx. }
  destruct Hs as ((Hpl & Hw & Hwl & Hn & HnM) & Hnw & _).
  destruct (tas n w i Hi order m m1 Ho' Hl) as (_ & T). destruct (proj1 (T Hb) Hex') as (T1 & T2). split.
  - rewrite <- T1. symmetry. apply Permutation_length. unfold winners. clear -P2. induction P2; cbn [filter]; [constructor| | |].
    + destruct (_ && _); [constructor|]; assumption.
    + destruct (sets i (fst x) && saw_clear w i (snd x)), (sets i (fst y) && saw_clear w i (snd y)); try apply Permutation_refl. apply perm_swap.
    + eapply Permutation_trans; eassumption.
  - destruct S1 as (_ & ->). rewrite BitsetProofs.bit_tab in T2 by exact Hi. exact T2.
Qed.
Print Assumptions C20_test_and_set.

(** The constructors store the booleans asked for. *)
Theorem C20_constructors : forall pl n w same64 c, ab_sizes pl n w same64 -> ab_ctor_pre n c ->
  exists mem, ab_init pl n w c = Some mem /\ stores n mem (ab_initial n c).
Proof.
  intros pl n w same64 c ((Hpl & Hw & Hwl & Hn & HnM) & Hnw & H32 & H64 & Hc) Hp.
  apply (ab_init_ok pl n w same64); assumption.
Qed.
Print Assumptions C20_constructors.

(** Three threads race to set bit 1 of an atomic_bitset<3> with uint8_t words; the second one wins. *)
Example ab_example_sizes : ab_sizes lp64 3 8 false.
Proof. unfold ab_sizes, sizes_ok. repeat split; try (cbn; lia); try discriminate; right; reflexivity. Qed.
Example C20_race :
  exists mem' ts' h,
    run_threads 8 (abcode lp64 3 8 8 false) [0; 1; 1; 0; 2; 1; 2; 0; 2] 1 (start [[OSet 1 true]; [OSetRange 1 2 true]; [OSet 1 true]]) = Some (mem', ts', h) /\
    finished ts' /\ mem' = 7 /\
    responses h = [(OSetRange 1 2 true, RBits [1]); (OSet 1 true, RBits [7]); (OSet 1 true, RBits [7])].
Proof.
  eexists. eexists. eexists. split; [vm_compute; reflexivity|]. split; [repeat constructor|]. split; reflexivity.
Qed.

(** ** C21: atomic *)

(** The constructors establish the value. *)
Theorem C21_constructors : forall w ew sg v, 0 < w -> w <= ew -> v < 2 ^ w ->
  word_holds w ew (atomic_init w ew sg None) 0 /\ word_holds w ew (atomic_init w ew sg (Some v)) v.
Proof.
  intros w ew sg v Hw Hew Hv. split.
  - split; [apply two_pow_pos|]. symmetry. apply N.mod_0_l. pose proof (two_pow_pos w). lia.
  - split; [apply (elem_lt w ew sg Hw Hew v Hv)|]. symmetry. apply (elem_mod w ew sg Hw Hew v Hv).
Qed.
Print Assumptions C21_constructors.

(** The calls are linearizable with respect to one integer modulo 2^w, where fetch_op returns
    the old value and stores old op arg, and op=, ++ and -- return the value stored. *)
Theorem C21_linearizable : forall int_w w ew sg esg sched mem m programs, 0 < w -> w <= ew ->
  word_holds w ew mem m -> Forall (Forall (call_ok int_w w ew sg esg)) programs ->
  exists mem' ts' h m',
    run_threads ew (acode int_w w ew sg esg) sched mem (start programs) = Some (mem', ts', h) /\
    word_holds w ew mem' m' /\ linearizable (aspec w) m h m' /\
    (finished ts' -> Permutation (map fst (responses h)) (concat programs) /\
       exists order, Permutation order (responses h) /\ legal (aspec w) m order m').
Proof.
  intros int_w w ew sg esg sched mem m programs Hw Hew HR Hp.
  apply (threads_linearizable ew (acode int_w w ew sg esg) (aspec w) (call_ok int_w w ew sg esg) (word_holds w ew)); [|exact HR|exact Hp].
  intros op Hop. exact (single int_w w ew sg esg Hw Hew op Hop).
Qed.
Print Assumptions C21_linearizable.

Theorem C21_wait_free : forall int_w w ew sg esg sched mem m programs, 0 < w -> w <= ew ->
  word_holds w ew mem m -> Forall (Forall (call_ok int_w w ew sg esg)) programs ->
  (forall i p, rd programs i = Some p -> (3 * length p <= own_steps i sched)%nat) ->
  exists mem' ts' h, run_threads ew (acode int_w w ew sg esg) sched mem (start programs) = Some (mem', ts', h) /\ finished ts'.
Proof.
  intros int_w w ew sg esg sched mem m programs Hw Hew HR Hp.
  apply (wait_free ew (acode int_w w ew sg esg) (aspec w) (call_ok int_w w ew sg esg) (word_holds w ew)) with (m := m); [|exact HR|exact Hp].
  intros op Hop. exact (single int_w w ew sg esg Hw Hew op Hop).
Qed.
Print Assumptions C21_wait_free.

(** No update is lost: concurrent additions, subtractions, increments and decrements add up. *)
Theorem C21_sum : forall int_w w ew sg esg sched mem m programs mem' ts' h, 0 < w -> w <= ew ->
  word_holds w ew mem m -> Forall (Forall (call_ok int_w w ew sg esg)) programs ->
  Forall (Forall (fun op => delta op <> None)) programs ->
  run_threads ew (acode int_w w ew sg esg) sched mem (start programs) = Some (mem', ts', h) -> finished ts' ->
  exists m', word_holds w ew mem' m' /\ Z.of_N m' = ((Z.of_N m + total_delta (concat programs)) mod 2 ^ Z.of_N w)%Z.
Proof.
  intros int_w w ew sg esg sched mem m programs mem' ts' h Hw Hew HR Hp Hd E Hf.
  destruct (C21_linearizable int_w w ew sg esg sched mem m programs Hw Hew HR Hp) as (mem1 & ts1 & h1 & m1 & E1 & S1 & _ & Hfin).
  rewrite E in E1. injection E1 as <- <- <-. destruct (Hfin Hf) as (P1 & order & P2 & Hl). exists m1. split; [exact S1|].
  assert (P3 : Permutation (map fst order) (concat programs)) by (rewrite <- P1; apply Permutation_map; exact P2).
  rewrite <- (total_perm _ _ P3). apply (legal_sum w ew Hw Hew order m m1); [destruct HR as (_ & ->); apply mod_pow2_lt| |exact Hl].
  apply Forall_forall. intros x Hx. apply (in_map fst) in Hx. apply (Permutation_in _ P3) in Hx. apply in_concat in Hx as (p & Hp1 & Hp2).
  rewrite Forall_forall in Hp, Hd. specialize (Hp p Hp1). specialize (Hd p Hp1). rewrite Forall_forall in Hp, Hd. split; [exact (proj1 (Hp _ Hp2))|exact (Hd _ Hp2)].
Qed.
Print Assumptions C21_sum.

(** Concurrent increments: the number of increments is added, and the values returned are
    pairwise different as long as there are at most 2^w increments. *)
Theorem C21_increments : forall int_w w ew sg esg sched mem m programs mem' ts' h op, 0 < w -> w <= ew ->
  op = APreInc \/ op = APostInc -> call_ok int_w w ew sg esg op ->
  word_holds w ew mem m -> Forall (Forall (fun o => o = op)) programs ->
  run_threads ew (acode int_w w ew sg esg) sched mem (start programs) = Some (mem', ts', h) -> finished ts' ->
  length (responses h) = length (concat programs) /\
  word_holds w ew mem' ((m + len (concat programs)) mod 2 ^ w) /\
  (len (concat programs) <= 2 ^ w -> NoDup (map snd (responses h))).
Proof.
  intros int_w w ew sg esg sched mem m programs mem' ts' h op Hw Hew Hop Hok HR Hp E Hf.
  assert (Hp1 : Forall (Forall (call_ok int_w w ew sg esg)) programs).
  { eapply Forall_impl; [|exact Hp]. intros p. apply Forall_impl. intros o ->. exact Hok. }
  assert (Hp2 : Forall (Forall (fun o => delta o <> None)) programs).
  { eapply Forall_impl; [|exact Hp]. intros p. apply Forall_impl. intros o ->. destruct Hop; subst op; discriminate. }
  destruct (C21_sum int_w w ew sg esg sched mem m programs mem' ts' h Hw Hew HR Hp1 Hp2 E Hf) as (m' & S' & Em).
  destruct (C21_linearizable int_w w ew sg esg sched mem m programs Hw Hew HR Hp1) as (mem1 & ts1 & h1 & m1 & E1 & S1 & _ & Hfin).
  rewrite E in E1. injection E1 as <- <- <-. destruct (Hfin Hf) as (P1 & order & P2 & Hl).
  assert (L : length (responses h) = length (concat programs)) by (rewrite <- (map_length fst); apply Permutation_length; exact P1).
  split; [exact L|]. split.
  - assert (Et : total_delta (concat programs) = Z.of_N (len (concat programs))).
    { apply Forall_concat in Hp. clear -Hp Hop. induction Hp as [|o l -> Hl IH]; [reflexivity|]. rewrite len_cons. cbn [total_delta fold_right]. fold (total_delta l).
      destruct Hop; subst op; cbn [delta]; lia. }
    rewrite Et, <- N2Z.inj_add in Em. replace ((m + len (concat programs)) mod 2 ^ w) with m'; [exact S'|].
    apply N2Z.inj. rewrite Em, N2Z.inj_mod, N2Z.inj_pow. reflexivity.
  - intros Hle. assert (Ho : Forall (fun x => fst x = op) order).
    { apply Forall_forall. intros x Hx. apply (Permutation_in x P2) in Hx. apply (in_map fst) in Hx. apply (Permutation_in _ P1) in Hx.
      apply Forall_concat in Hp. rewrite Forall_forall in Hp. apply Hp. exact Hx. }
    assert (Lo : length order = length (concat programs)) by (rewrite <- L; apply Permutation_length; exact P2).
    apply (Permutation_NoDup (Permutation_map snd P2)).
    destruct Hop as [->| ->].
    + rewrite (legal_increments w ew Hw Hew APreInc 1 (or_introl (conj eq_refl eq_refl)) order m m1); [|destruct HR as (_ & ->); apply mod_pow2_lt|exact Ho|exact Hl].
      apply (consecutive_nodup w ew Hw Hew). rewrite Lo. exact Hle.
    + rewrite (legal_increments w ew Hw Hew APostInc 0 (or_intror (conj eq_refl eq_refl)) order m m1); [|destruct HR as (_ & ->); apply mod_pow2_lt|exact Ho|exact Hl].
      apply (consecutive_nodup w ew Hw Hew). rewrite Lo. exact Hle.
Qed.
Print Assumptions C21_increments.

(** Two threads incrementing an atomic<uint8_t> at 254, interleaved. *)
Example C21_interleaved :
  exists ts' h,
    run_threads 8 (acode 32 8 8 false false) [0; 1; 1; 0; 0; 1; 1; 1; 1] 254 (start [[APreInc]; [APreInc; APreInc]]) = Some (1, ts', h) /\
    finished ts' /\ responses h = [(APreInc, Some 0); (APreInc, Some 255); (APreInc, Some 1)].
Proof. eexists. eexists. split; [vm_compute; reflexivity|]. split; [repeat constructor|reflexivity]. Qed.
(** A uint8_t stored in a 32-bit word, and a signed 8-bit T, meet the hypotheses. *)
Example C21_call_ok : call_ok 32 8 32 false false (AAddEq 200) /\ call_ok 32 8 8 true true (ASubEq 128) /\ call_ok 32 32 32 true true (AFetchAdd 5).
Proof. repeat split; try (cbn; lia); cbn; intros; try discriminate; auto; try (right; lia). Qed.

(** FINDING: std::atomic<int> arithmetic wraps and never overflows, and so does the atomic
    step here; but the sum that += and ++ return is computed afterwards in T, so for a signed
    T at least as wide as int both are undefined when the value passes the maximum. *)
Theorem C21_signed_sum_refuted : forall int_w w op, 1 < w -> int_w <= w -> op = AAddEq 1 \/ op = APreInc ->
  run_threads w (acode int_w w w true true) [0; 0; 0] (2 ^ (w - 1) - 1) (start [[op]]) = None.
Proof.
  intros int_w w op Hw Hi Hop.
  assert (P : 2 ^ w = 2 * 2 ^ (w - 1)) by (rewrite <- N.pow_succ_r'; f_equal; lia). pose proof (npow2_pos (w - 1)) as P0.
  assert (Hr : run_threads w (acode int_w w w true true) [0; 0; 0] (2 ^ (w - 1) - 1) (start [[op]]) =
    match plus int_w w true (2 ^ (w - 1) - 1) 1 with None => None | Some v => run_threads w (acode int_w w w true true) [0; 0; 0] (2 ^ (w - 1) - 1) (start [[op]]) end).
  { destruct (plus int_w w true (2 ^ (w - 1) - 1) 1) eqn:Ep; [reflexivity|].
    destruct Hop; subst op; cbn [run_threads start map rd tstep cur todo acode exec_prim]; unfold rd, wr; cbn; unfold to_t, wrap;
      rewrite ?(N.mod_small (2 ^ (w - 1) - 1)) by lia; rewrite Ep; reflexivity. }
  rewrite Hr. replace (plus int_w w true (2 ^ (w - 1) - 1) 1) with (@None N); [reflexivity|]. symmetry. unfold plus.
  replace (overflows int_w w true (value w true (2 ^ (w - 1) - 1) + value w true 1)) with true; [reflexivity|]. symmetry.
  assert (V1 : value w true (2 ^ (w - 1) - 1) = (2 ^ Z.of_N (w - 1) - 1)%Z).
  { unfold value. rewrite (testbit_high _ (w - 1) (w - 1)) by lia. cbn [andb]. rewrite N2Z.inj_sub, N2Z.inj_pow by lia. reflexivity. }
  unfold overflows. destruct (N.leb_spec int_w w); [|lia]. cbn [andb]. apply orb_true_iff.
  rewrite V1. replace (Z.of_N w - 1)%Z with (Z.of_N (w - 1)) by lia.
  right. apply Z.leb_le. assert (V2 : value w true 1 = 1%Z).
  { unfold value. destruct (N.testbit 1 (w - 1)) eqn:Eb; [|reflexivity]. exfalso. rewrite (testbit_high 1 1) in Eb by (cbn; lia). discriminate. }
  rewrite V2. lia.
Qed.
Print Assumptions C21_signed_sum_refuted.
