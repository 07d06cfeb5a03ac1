(** C88 atomic<bool>, atomic of an enumeration, atomic of a pointer. *)
From Verif Require Import Base BaseLemmas BitModel BitLemmas ConcModel ConcSpec ConcProofs AtomKindModel AtomKindSpec.
From Coq Require Import Permutation.
Open Scope N_scope.

Lemma bool_single ew op : 0 < ew -> logical op -> exists p k, bcode op = Do p k /\
  forall mem m, word_is mem m -> exists o m', k (snd (exec_prim ew p mem)) = Ret o /\ bspec m op o m' /\ word_is (fst (exec_prim ew p mem)) m'.
Proof.
  intros Hw Hl. assert (One : 1 < 2 ^ ew) by (apply N.pow_gt_1; lia).
  assert (W : forall b, wrap ew (to_elem b) = to_elem b) by (intros []; apply N.mod_small; cbn; lia).
  destruct op as [|b|b|b|b|b|b|b|b|b|b|b|b|b]; try contradiction; do 2 eexists; (split; [reflexivity|]); intros mem m ->; cbn [exec_prim fst snd]; rewrite ?W.
  - exists (Some m), m. destruct m; repeat split.
  - exists None, b. destruct b; repeat split.
  - exists (Some b), b. destruct b; repeat split.
  - exists (Some m), b. destruct m, b; repeat split.
  - exists (Some m), (m && b)%bool. destruct m, b; repeat split.
  - exists (Some m), (m || b)%bool. destruct m, b; repeat split.
  - exists (Some m), (xorb m b). destruct m, b; repeat split.
  - exists (Some (m && b)%bool), (m && b)%bool. destruct m, b; repeat split.
  - exists (Some (m || b)%bool), (m || b)%bool. destruct m, b; repeat split.
  - exists (Some (xorb m b)), (xorb m b). destruct m, b; repeat split.
Qed.

(** atomic<bool> kept in an integer of any width: any number of threads, any schedule, the
    calls are those of one bool in some order. *)
Theorem C88_bool_linearizable : forall ew sched b programs, 0 < ew -> Forall (Forall logical) programs ->
  exists mem ts h b',
    run_threads ew bcode sched (binit b) (start programs) = Some (mem, ts, h) /\ word_is mem b' /\
    linearizable bspec (match b with Some b => b | None => false end) h b' /\
    (finished ts -> Permutation (map fst (responses h)) (concat programs) /\
       exists order, Permutation order (responses h) /\ legal bspec (match b with Some b => b | None => false end) order b').
Proof.
  intros ew sched b programs Hw Hp.
  apply (threads_linearizable ew bcode bspec logical word_is); [|destruct b as [[]|]; reflexivity|exact Hp].
  intros op Hop. exact (bool_single ew op Hw Hop).
Qed.
Print Assumptions C88_bool_linearizable.
(** Every program, with fetch_add, fetch_sub, += and -= too, does what an integer of [ew] bits does. *)
Lemma bool_word ew op : 0 < ew -> exists p k, bcode op = Do p k /\
  forall mem m, mem = m /\ m < 2 ^ ew -> exists o m', k (snd (exec_prim ew p mem)) = Ret o /\ wspec ew m op o m' /\
    fst (exec_prim ew p mem) = m' /\ m' < 2 ^ ew.
Proof.
  intros Hw. assert (One : 1 < 2 ^ ew) by (apply N.pow_gt_1; lia).
  assert (W : forall b, wrap ew (to_elem b) = to_elem b) by (intros []; apply N.mod_small; cbn; lia).
  assert (T : forall m, truth m (to_t m)) by (intro m; unfold truth, to_t; destruct (N.eqb_spec m 0); cbn; intuition congruence).
  assert (B : forall b : bool, (if b then 1 else 0) < 2 ^ ew) by (intros []; lia).
  assert (Sm : forall x : N, wrap ew x < 2 ^ ew) by (intro; apply N.mod_lt; lia).
  assert (An : forall m (b : bool), N.land m (to_elem b) = if (N.odd m && b)%bool then 1 else 0).
  { intros m []; cbn [to_elem]; [|rewrite N.land_0_r, andb_false_r; reflexivity]. change 1 with (N.ones 1) at 1. rewrite N.land_ones, andb_true_r. change (2 ^ 1) with 2.
    rewrite <- N.bit0_mod, N.bit0_odd. destruct (N.odd m); reflexivity. }
  assert (Bt : forall (b : bool) i, N.testbit (to_elem b) i = ((i =? 0) && b)%bool).
  { intros [] i; cbn [to_elem]; [|rewrite N.bits_0, andb_false_r; reflexivity]. rewrite andb_true_r. destruct (N.eqb_spec i 0) as [->|Hi]; [reflexivity|].
    change 1 with (2 ^ 0). apply N.pow2_bits_false. lia. }
  assert (Lt : forall x, (forall i, ew <= i -> N.testbit x i = false) -> x < 2 ^ ew).
  { intros x Hx. destruct (N.eq_dec x 0) as [->|Hn]; [lia|]. apply N.log2_lt_pow2; [lia|]. destruct (N.lt_ge_cases (N.log2 x) ew) as [|G]; [assumption|].
    specialize (Hx _ G). rewrite N.bit_log2 in Hx by exact Hn. discriminate. }
  assert (Hi : forall m i, m < 2 ^ ew -> ew <= i -> N.testbit m i = false).
  { intros m i Hm Hle. destruct (N.eq_dec m 0) as [->|Hn]; [apply N.bits_0|]. apply N.bits_above_log2. apply N.log2_lt_pow2 in Hm; lia. }
  assert (Hb : forall b i, ew <= i -> N.testbit (to_elem b) i = false) by (intros b i Hle; rewrite Bt; destruct (N.eqb_spec i 0); [lia|reflexivity]).
  assert (Sub : forall m (b : bool), m < 2 ^ ew -> (wrap ew (m + 2 ^ ew - to_elem b) + (if b then 1 else 0)) mod 2 ^ ew = m).
  { intros m b Hm. change (if b then 1 else 0) with (to_elem b). unfold wrap. rewrite N.add_mod_idemp_l by lia.
    replace (m + 2 ^ ew - to_elem b + to_elem b) with (m + 1 * 2 ^ ew) by (specialize (B b); change (if b then 1 else 0) with (to_elem b) in B; lia).
    rewrite N.mod_add by lia. apply N.mod_small. exact Hm. }
  destruct op as [|b|b|b|b|b|b|b|b|b|b|b|b|b]; do 2 eexists; (split; [reflexivity|]); intros mem m [-> Hm]; cbn [exec_prim fst snd]; rewrite ?W; do 2 eexists; (split; [reflexivity|]);
    cbn [wspec]; (split; [|split; [reflexivity|]]);
    try (apply Lt; intros i Hle; rewrite ?N.lor_spec, ?N.lxor_spec, (Hi m i Hm Hle), (Hb b i Hle); reflexivity);
    try (rewrite An; apply B); try (rewrite W; apply B); try exact Hm; try apply Sm; try apply (B b).
  - split; [reflexivity|]. exists (to_t m). now split.
  - now split.
  - now split.
  - split; [reflexivity|]. exists (to_t m). now split.
  - split; [reflexivity|]. exists (to_t m). now split.
  - split; [apply Sub, Hm|split; [apply Sm|]]. exists (to_t m). now split.
  - split; [reflexivity|]. exists (to_t m). split; [apply T|]. destruct (to_t m), b; reflexivity.
  - split; [apply Sub, Hm|split; [apply Sm|]]. exists (to_t m). split; [apply T|]. destruct (to_t m), b; reflexivity.
  - split; [apply An|]. exists (to_t m). now split.
  - split; [intro i; rewrite N.lor_spec, Bt; reflexivity|]. exists (to_t m). now split.
  - split; [intro i; rewrite N.lxor_spec, Bt; reflexivity|]. exists (to_t m). now split.
  - split; [apply An|]. exists (to_t m). now split.
  - split; [intro i; rewrite N.lor_spec, Bt; reflexivity|]. exists (to_t m). now split.
  - split; [intro i; rewrite N.lxor_spec, Bt; reflexivity|]. exists (to_t m). now split.
Qed.
Theorem C88_bool_word : forall ew sched b programs, 0 < ew ->
  exists mem ts h, run_threads ew bcode sched (binit b) (start programs) = Some (mem, ts, h) /\
    linearizable (wspec ew) (match b with Some true => 1 | _ => 0 end) h mem /\
    (finished ts -> Permutation (map fst (responses h)) (concat programs) /\
       exists order, Permutation order (responses h) /\ legal (wspec ew) (match b with Some true => 1 | _ => 0 end) order mem).
Proof.
  intros ew sched b programs Hw.
  destruct (threads_linearizable ew bcode (wspec ew) (fun _ => True) (fun mem m => mem = m /\ m < 2 ^ ew)) with
    (sched := sched) (mem := binit b) (m := match b with Some true => 1 | _ => 0 end) (programs := programs) as (mem & ts & h & m & E & [-> _] & L & F).
  - intros op _. exact (bool_word ew op Hw).
  - assert (1 < 2 ^ ew) by (apply N.pow_gt_1; lia). destruct b as [[]|]; cbn; split; try reflexivity; lia.
  - apply Forall_forall. intros p _. now apply Forall_forall.
  - exists m, ts, h. now repeat split; try apply F.
Qed.
Print Assumptions C88_bool_word.
(** Every operation of a bool that std::atomic has compiles, with either representation. *)
Theorem C88_bool_compiles : forall same m, std_has Boolean m = true -> compiles Boolean same m = true.
Proof. intros [] []; cbn; congruence. Qed.
Print Assumptions C88_bool_compiles.
Theorem C88_integer_compiles : forall same m, compiles Integer same m = true.
Proof. intros [] []; reflexivity. Qed.
Print Assumptions C88_integer_compiles.
(** An enumeration or a pointer kept as itself can be loaded, stored and exchanged. *)
Theorem C88_same_compiles_partial : forall k m, In m [MDefault; MFromT; MLoad; MStore; MExchange] -> compiles k true m = true.
Proof. intros [] [] H; cbn in *; intuition congruence. Qed.
Print Assumptions C88_same_compiles_partial.
(** What compiles, exactly, as far as this class decides: of bool everything except ++ and --, however it is kept; of types
    kept as themselves also what their operators allow. *)
Theorem C88_exactly : forall m,
  (forall same, compiles Boolean same m = true <-> m <> MIncDec) /\
  (compiles Unscoped true m = true <-> ~ In m [MAddEq; MSubEq; MIncDec; MBitsEq]) /\
  (compiles Scoped true m = true <-> In m [MDefault; MFromT; MLoad; MStore; MExchange]) /\
  (compiles Pointer true m = true <-> In m [MDefault; MFromT; MLoad; MStore; MExchange; MFetchSub; MIncDec]).
Proof. intros []; (split; [intros []|split; [|split]]); cbn; intuition congruence. Qed.
Print Assumptions C88_exactly.
(** Kept as an integer, an enumeration can only be loaded and stored... *)
Theorem C88_enum_refuted : forall k, k = Unscoped \/ k = Scoped -> forall m,
  compiles k false m = true <-> In m [MDefault; MFromT; MLoad; MStore].
Proof. intros k [->| ->] []; cbn; intuition congruence. Qed.
Print Assumptions C88_enum_refuted.
(** ... and a pointer not even that. *)
Theorem C88_pointer_refuted : forall m, compiles Pointer false m = true <-> m = MDefault.
Proof. intros []; cbn; intuition congruence. Qed.
Print Assumptions C88_pointer_refuted.
(** Nor can an offset be added to a pointer kept as itself, although std::atomic can. *)
Theorem C88_offset_refuted : forall same m, In m [MFetchAdd; MAddEq; MSubEq] -> std_has Pointer m = true /\ compiles Pointer same m = false.
Proof. intros [] [] H; cbn in *; intuition congruence. Qed.
Print Assumptions C88_offset_refuted.
(** fetch_add of a bool compiles if it is kept as an integer, and then the value is no longer a
    bool: true + true - true is true, and true + true masked with true is false. *)
Theorem C88_bool_add_refuted : forall ew sched, 2 <= ew -> sched = repeat 0 9 ->
  (exists ts h, run_threads ew bcode sched (binit (Some true)) (start [[BFetchAdd true; BFetchSub true; BLoad]]) = Some (1, ts, h) /\
     responses h = [(BFetchAdd true, Some true); (BFetchSub true, Some true); (BLoad, Some true)] /\
     ~ exists m, legal bspec true (responses h) m) /\
  (exists ts h, run_threads ew bcode sched (binit (Some true)) (start [[BFetchAdd true; BAndEq true; BLoad]]) = Some (0, ts, h) /\
     responses h = [(BFetchAdd true, Some true); (BAndEq true, Some true); (BLoad, Some false)] /\
     ~ exists m, legal bspec true (responses h) m).
Proof.
  intros ew sched Hw ->. assert (P : 2 ^ 2 <= 2 ^ ew) by (apply N.pow_le_mono_r; lia). change (2 ^ 2) with 4 in P.
  assert (W1 : wrap ew 1 = 1) by (apply N.mod_small; lia). assert (W2 : wrap ew (1 + 1) = 2) by (apply N.mod_small; lia).
  assert (W3 : wrap ew (2 + 2 ^ ew - 1) = 1) by (unfold wrap; replace (2 + 2 ^ ew - 1) with (1 + 1 * 2 ^ ew) by lia; rewrite N.mod_add by lia; apply N.mod_small; lia).
  assert (Ex : forall p m, exec_prim ew p m = match p with PLoad => (m, m) | PStore v => (wrap ew v, 0) | PExchange v => (wrap ew v, m) | PAdd v => (wrap ew (m + wrap ew v), m)
     | PSub v => (wrap ew (m + 2 ^ ew - wrap ew v), m) | PAnd v => (N.land m (wrap ew v), m) | POr v => (N.lor m (wrap ew v), m) | PXor v => (N.lxor m (wrap ew v), m) end) by reflexivity.
  assert (RW : forall t, rd [t] 0 = Some (t : thread bop (option bool))) by reflexivity.
  assert (WW : forall t u, wr [t] 0 u = Some [u : thread bop (option bool)]) by reflexivity.
  cbn [repeat]. split.
  - do 2 eexists. split; [|split].
    + cbn [start map binit to_elem]. do 9 (cbn [run_threads]; rewrite RW; unfold tstep at 1; cbn [cur todo bcode to_elem]; rewrite ?Ex, ?W1, ?W2, ?W3; rewrite WW). cbn [run_threads app]. reflexivity.
    + reflexivity.
    + cbn. intros (m & m1 & (A1 & _) & m2 & (A2 & A3) & m3 & (-> & A4) & _). injection A3 as <-. injection A4 as <-. unfold nonzero in *. cbn in *.
      destruct A2 as [A2 _]. specialize (A2 eq_refl). apply A2. reflexivity.
  - do 2 eexists. split; [|split].
    + cbn [start map binit to_elem]. do 9 (cbn [run_threads]; rewrite RW; unfold tstep at 1; cbn [cur todo bcode to_elem]; rewrite ?Ex, ?W1, ?W2, ?W3; rewrite WW). cbn [run_threads app]. reflexivity.
    + reflexivity.
    + cbn. intros (m & m1 & (A1 & _) & m2 & (A2 & A3) & m3 & (-> & A4) & _). injection A3 as A3. injection A4 as A4. congruence.
Qed.
Print Assumptions C88_bool_add_refuted.
Example C88_example : exists ts h,
  run_threads 32 bcode [0; 1; 0; 1; 0; 1; 1; 1; 1] (binit None) (start [[BExchange true]; [BExchange true; BXorEq true]]) = Some (0, ts, h) /\
  responses h = [(BExchange true, Some false); (BExchange true, Some true); (BXorEq true, Some false)].
Proof. do 2 eexists. split; reflexivity. Qed.
