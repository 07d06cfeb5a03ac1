(** C21 for signed types as wide as int or wider. *)
From Verif Require Import Base BaseLemmas BitModel BitLemmas ConcModel ConcSpec AtomicModel AtomicSpec AtomicProofs AtomicSignedSpec AtomicSignedProofs.
From Coq Require Import Permutation.
Open Scope N_scope.

(** C21: for a signed T as wide as int or wider, += -= ++x and --x do what they do for other types exactly if
    the result is a value of T; otherwise they are undefined. *)
Theorem C21_signed_exactly iw w m op x : 1 < w -> iw <= w -> m < 2 ^ w -> argument op < 2 ^ w -> sum_of w m op = Some x ->
  let r := run_threads w (acode iw w w true true) [0; 0; 0] m (start [[op]]) in
  (fits w x -> exists ts h, r = Some (fst (aeffect w m op), ts, h) /\ finished ts /\ responses h = [(op, snd (aeffect w m op))]) /\
  (~ fits w x -> r = None).
Proof.
  intros Hw Hi Hm Ha Hx. pose proof (half w ltac:(lia)) as P. assert (T : 1 < 2 ^ w) by (apply N.pow_gt_1; lia).
  assert (Pl : forall b, b < 2 ^ w -> forall x, (signed w m + signed w b)%Z = x -> (fits w x -> plus iw w true m b = Some ((m + b) mod 2 ^ w)) /\ (~ fits w x -> plus iw w true m b = None)).
  { intros b Hb y <-. unfold plus. rewrite !value_signed by (try assumption; lia). destruct (overflows iw w true (signed w m + signed w b)) eqn:O.
    - split; [intros F; apply (overflows_fits iw) in F; [congruence|lia|assumption]|reflexivity].
    - apply overflows_fits in O; [|lia|assumption]. split; [intros _|contradiction]. rewrite <- !value_signed by (try assumption; lia). f_equal. rewrite Z.add_mod by (apply Z.pow_nonzero; lia).
      rewrite !value_mod, <- Z.add_mod by (apply Z.pow_nonzero; lia). rewrite <- N2Z.inj_add. apply toN_mod. }
  assert (Mi : forall b, b < 2 ^ w -> forall x, (signed w m - signed w b)%Z = x -> (fits w x -> minus iw w true m b = Some ((m + (2 ^ w - b)) mod 2 ^ w)) /\ (~ fits w x -> minus iw w true m b = None)).
  { intros b Hb y <-. unfold minus. rewrite !value_signed by (try assumption; lia). destruct (overflows iw w true (signed w m - signed w b)) eqn:O.
    - split; [intros F; apply (overflows_fits iw) in F; [congruence|lia|assumption]|reflexivity].
    - apply overflows_fits in O; [|lia|assumption]. split; [intros _|contradiction]. rewrite <- !value_signed by (try assumption; lia). f_equal. rewrite Zminus_mod, !value_mod, <- Zminus_mod. now apply sub_toN. }
  assert (S1 : signed w 1 = 1%Z) by now apply signed_1.
  assert (Te : forall v, v < 2 ^ w -> wrap w (to_elem w w true v) = v).
  { intros v Hv. unfold to_elem, wrap. destruct (true && _); [|now apply N.mod_small]. replace (v + 2 ^ w - 2 ^ w) with v by lia. rewrite N.mod_mod by lia. now apply N.mod_small. }
  cbv zeta. destruct op as [| | | | | |v|v| | | | | | | | | |]; try discriminate Hx; cbn [sum_of argument] in *; injection Hx as Hx.
  - rewrite (one_call iw w (AAddEq v) (PAdd (to_elem w w true v)) (fun r => plus iw w true (to_t w r) v) m eq_refl). cbn [exec_prim fst snd aeffect]. unfold to_t at 1 2. rewrite Te by assumption. unfold wrap. rewrite (N.mod_small m) by assumption.
    destruct (Pl v Ha x Hx) as [A B]. split; [intros F; rewrite (A F)|intros F; now rewrite (B F)]. eexists _, _. split; [reflexivity|]. split; [repeat constructor|]. cbn. rewrite N.mod_mod by lia. reflexivity.
  - rewrite (one_call iw w (ASubEq v) (PSub (to_elem w w true v)) (fun r => minus iw w true (to_t w r) v) m eq_refl). cbn [exec_prim fst snd aeffect]. unfold to_t at 1 2. rewrite Te by assumption. unfold wrap. rewrite (N.mod_small m) by assumption.
    destruct (Mi v Ha x Hx) as [A B]. replace (m + 2 ^ w - v) with (m + (2 ^ w - v)) by lia. split; [intros F; rewrite (A F)|intros F; now rewrite (B F)]. eexists _, _. split; [reflexivity|]. split; [repeat constructor|]. cbn. rewrite N.mod_mod by lia. reflexivity.
  - rewrite (one_call iw w APreInc (PAdd 1) (fun r => plus iw w true r 1) m eq_refl). cbn [exec_prim fst snd aeffect]. unfold wrap. rewrite (N.mod_small 1) by assumption.
    destruct (Pl 1 T x ltac:(lia)) as [A B]. split; [intros F; rewrite (A F)|intros F; now rewrite (B F)]. eexists _, _. split; [reflexivity|]. split; [repeat constructor|]. cbn -[N.add]. rewrite N.mod_mod by lia. reflexivity.
  - rewrite (one_call iw w APreDec (PSub 1) (fun r => minus iw w true r 1) m eq_refl). cbn [exec_prim fst snd aeffect]. unfold wrap. rewrite (N.mod_small 1) by assumption.
    destruct (Mi 1 T x ltac:(lia)) as [A B]. replace (m + 2 ^ w - 1) with (m + (2 ^ w - 1)) by lia. split; [intros F; rewrite (A F)|intros F; now rewrite (B F)]. eexists _, _. split; [reflexivity|]. split; [repeat constructor|]. cbn -[N.add N.sub]. rewrite N.mod_mod by lia. reflexivity.
Qed.
Print Assumptions C21_signed_exactly.
(** A 32-bit int at -2^31 and at 5: -= 1 and --x are undefined, -= -7 and += -7 are not. *)
Example C21_signed_cases :
  sum_of 32 (2 ^ 31) (ASubEq 1) = Some (-2147483649)%Z /\ ~ fits 32 (-2147483649) /\ sum_of 32 (2 ^ 31) APreDec = Some (-2147483649)%Z /\
  sum_of 32 (2 ^ 31) (ASubEq (2 ^ 32 - 7)) = Some (-2147483641)%Z /\ fits 32 (-2147483641) /\ sum_of 32 5 (AAddEq (2 ^ 32 - 7)) = Some (-2)%Z /\ fits 32 (-2).
Proof. unfold fits. repeat split; try (vm_compute; reflexivity); try (vm_compute; discriminate). intros [H _]. revert H. vm_compute. intros H. now apply H. Qed.

(** C21 for every type: as long as no sum overflows the calls are linearizable, with the same effects as for
    the types in C21_linearizable. *)
Theorem C21_linearizable_defined : forall int_w w ew sg esg sched mem m programs mem' ts' h, 0 < w -> w <= ew ->
  word_holds w ew mem m -> Forall (Forall (fun op => argument op < 2 ^ w)) programs ->
  run_threads ew (acode int_w w ew sg esg) sched mem (start programs) = Some (mem', ts', h) ->
  exists m', word_holds w ew mem' m' /\ linearizable (aspec w) m h m' /\
    (finished ts' -> Permutation (map fst (responses h)) (concat programs) /\
       exists order, Permutation order (responses h) /\ legal (aspec w) m order m').
Proof. intros iw w ew sg esg sched mem m programs mem' ts' h Hw Hew. exact (defined_linearizable iw w ew sg esg Hw Hew sched mem m programs mem' ts' h). Qed.
Print Assumptions C21_linearizable_defined.

(** A counter of a signed type, whatever its width: if all changes up together, and all changes down together,
    would leave it in range, then nothing overflows in any schedule, and in the end it is the sum of all changes. *)
Theorem C21_signed_counter : forall int_w w sched m programs, 1 < w -> m < 2 ^ w ->
  Forall (Forall (fun op => argument op < 2 ^ w /\ change w op <> None)) programs ->
  (signed w m + ups w (concat programs) < Z.of_N (2 ^ (w - 1)))%Z ->
  (- Z.of_N (2 ^ (w - 1)) <= signed w m + downs w (concat programs))%Z ->
  exists m' ts' h, run_threads w (acode int_w w w true true) sched m (start programs) = Some (m', ts', h) /\
    (finished ts' -> m' < 2 ^ w /\ signed w m' = (signed w m + net w (concat programs))%Z).
Proof. intros iw w sched m programs Hw. exact (counter_run iw w Hw sched m programs). Qed.
Print Assumptions C21_signed_counter.
(** Two threads with an int at 3: ++x and x -= 10; x += -4 and x--. *)
Example C21_signed_counter_case :
  let programs := [[APreInc; ASubEq 10]; [AAddEq (2 ^ 32 - 4); APostDec]] in
  Forall (Forall (fun op => argument op < 2 ^ 32 /\ change 32 op <> None)) programs /\
  (signed 32 3 + ups 32 (concat programs) < Z.of_N (2 ^ (32 - 1)))%Z /\ (- Z.of_N (2 ^ (32 - 1)) <= signed 32 3 + downs 32 (concat programs))%Z /\
  (signed 32 3 + net 32 (concat programs) = -11)%Z /\
  option_map (fun r => signed 32 (fst (fst r))) (run_threads 32 (acode 32 32 32 true true) [0; 1; 1; 0; 0; 1; 1; 0; 1; 0; 0; 1] 3 (start programs)) = Some (-11)%Z.
Proof.
  cbv zeta. split; [|split; [vm_compute; reflexivity|split; [vm_compute; discriminate|split; vm_compute; reflexivity]]].
  assert (K : forall op, argument op <? 2 ^ 32 = true -> (if change 32 op then true else false) = true -> argument op < 2 ^ 32 /\ change 32 op <> None).
  { intros op A B. split; [now apply N.ltb_lt|]. intros E. now rewrite E in B. }
  apply Forall_cons; [|apply Forall_cons; [|apply Forall_nil]]; (apply Forall_cons; [|apply Forall_cons; [|apply Forall_nil]]); apply K; vm_compute; reflexivity.
Qed.
