(** C81, C82 and C83: threads that share several atomic and atomic_bitset objects. *)
From Coq Require Import Permutation.
From Verif Require Import Base BitModel BitsetModel BitsetSpec BitsetProps ConcModel RelaxedModel AtomicModel AtomicSpec AtomicBitsetModel AtomicBitsetSpec AtomicProps.
From Verif Require Import MultiModel MultiSpec MultiProofs MultiProofs2 MultiProofs3 MultiProofs4 MultiProofs5.
Open Scope nat_scope.

(** ** C81: calls without a memory order *)
(** If no call asks for a weaker order, there is one order of all calls, on all objects, that agrees
    with the program of each thread and gives every reply. *)
Theorem C81_sequentially_consistent : forall objs st programs contents n evss ts outss,
  shared_run objs st programs contents n evss ts outss ->
  (forall c, In c (concat programs) -> wanted (asked c) = SeqCst) ->
  Forall (fun t => ~ gone_wrong t) ts /\
  (forall i p, nth_error programs i = Some p -> exists rest, p = map fst (replies ts outss i) ++ rest) /\
  exists s st', merges s (map (replies ts outss) (seq 0 (length programs))) /\ in_turn objs st (map snd s) st' /\
    forall x, represents (objs x) (contents x (n x)) (st' x).
Proof.
  intros objs st programs contents n evss ts outss [Ty Hi Hg Hr X] Hsc.
  destruct (consistent objs Ty contents n programs evss ts outss st Hi Hg Hr X Hsc) as [NG C]. split; [exact NG|]. split; [exact (replies_prefix _ _ _ _ _ Hr)|exact C].
Qed.
Print Assumptions C81_sequentially_consistent.
(** Conversely every order of the calls, with whatever memory orders, is the outcome of some run. *)
Theorem C81_every_order_possible : forall objs st programs words s,
  (forall x, type_ok (objs x)) -> (forall x, represents (objs x) (words x) (st x)) -> Forall (Forall (good_call objs)) programs -> merges s programs ->
  exists contents n evss outss s' st', (forall x, contents x 0 = words x) /\
    shared_run objs st programs contents n evss (mstart (map (fun _ => []) programs)) outss /\
    map (fun e => (fst e, fst (snd e))) s' = s /\ merges s' outss /\ in_turn objs st (map snd s') st' /\
    forall x, represents (objs x) (contents x (n x)) (st' x).
Proof.
  intros objs st programs words s Ty Hr Hg Hm.
  destruct (any_order objs Ty words st programs s Hr Hg Hm) as (contents & n & evss & outss & s' & st' & H0 & H1 & H2 & H3 & H4 & H5 & H6).
  exists contents, n, evss, outss, s', st'. split; [exact H0|]. split; [|auto]. split; try assumption. intros x. rewrite H0. apply Hr.
Qed.
Print Assumptions C81_every_order_possible.
(** So two threads that each announce themselves and then look for the other cannot both miss it. *)
Theorem C81_store_buffering : forall objs st contents n evss ts outss x y iw w ew sg esg iw' w' ew' sg' esg' vx vy a b r0 r1,
  shared_run objs st [[Call x (IntCall (ICall (AStore a) None)); Call y (IntCall (ICall ALoad None))];
                      [Call y (IntCall (ICall (AStore b) None)); Call x (IntCall (ICall ALoad None))]] contents n evss ts outss ->
  objs x = Int iw w ew sg esg -> objs y = Int iw' w' ew' sg' esg' -> x <> y -> st x = IntState vx -> st y = IntState vy -> a <> vx -> b <> vy ->
  nth_error (replies ts outss 0) 1 = Some (Call y (IntCall (ICall ALoad None)), IntReply (Some r0)) ->
  nth_error (replies ts outss 1) 1 = Some (Call x (IntCall (ICall ALoad None)), IntReply (Some r1)) ->
  ~ (r0 = vy /\ r1 = vx).
Proof. exact store_buffering. Qed.
Print Assumptions C81_store_buffering.

(** ** C82: publication through a flag *)
(** Whatever the memory orders, nothing undefined happens. *)
Theorem C82_defined : forall objs st programs contents n evss ts outss, shared_run objs st programs contents n evss ts outss ->
  Forall (fun t => ~ gone_wrong t) ts /\ forall i p, nth_error programs i = Some p -> exists rest, p = map fst (replies ts outss i) ++ rest.
Proof.
  intros objs st programs contents n evss ts outss [Ty Hi Hg Hr X]. split; [exact (no_wrong objs Ty contents n programs evss ts outss st Hi Hg Hr X)|exact (replies_prefix _ _ _ _ _ Hr)].
Qed.
Print Assumptions C82_defined.
(** The rules about memory orders are needed: a call that breaks them has no defined behaviour, or does not
    exist.  So set() and reset() of all bits, which are stores, cannot be given memory_order_acq_rel. *)
Theorem C82_order_needed : forall objs c, ~ order_ok (asked c) -> code objs c = MBad.
Proof. exact order_needed. Qed.
Print Assumptions C82_order_needed.
Example C82_order_needed_example : ~ order_ok (BitsCall (BCall OResetAll (Some AcqRel))) /\ order_ok (BitsCall (BCall (OReset 1) (Some AcqRel))) /\
  ~ order_ok (IntCall (ICall ALoad (Some Release))) /\ ~ order_ok (IntCall (ICall APreInc (Some Relaxed))).
Proof. unfold order_ok. cbn. intuition congruence. Qed.
(** A bit of an atomic_bitset as a flag: if the calls that give it the value [v] release, an acquiring
    call whose reply tells that it is [v] comes after such a call. *)
Theorem C82_flag_bit : forall objs st programs contents n evss ts outss f pl nb wb sw same64 m0 i v tb jb c b o,
  shared_run objs st programs contents n evss ts outss -> objs f = Bits pl nb wb sw same64 -> (i < nb)%N -> st f = BitsState m0 -> bit m0 i = negb v ->
  (forall c b, In c (concat programs) -> target c = f -> asked c = BitsCall b ->
     bits_access (bits_op b) <> Replaces /\ (becomes wb (bits_op b) i (negb v) = v -> is_release (wanted (asked c)) = true)) ->
  nth_error (replies ts outss tb) jb = Some (c, BitsReply o) -> target c = f -> asked c = BitsCall b ->
  is_acquire (wanted (asked c)) = true -> tells nb wb i v (bits_op b) o ->
  exists ta ja c' b' o', nth_error (replies ts outss ta) ja = Some (c', o') /\ target c' = f /\ asked c' = BitsCall b' /\
    becomes wb (bits_op b') i (negb v) = v /\ happens_before evss (ta, ja) (tb, jb).
Proof.
  intros objs st programs contents n evss ts outss f pl nb wb sw same64 m0 i v tb jb c b o R Ef Hi Es Hb Hc.
  pose proof (first_bit _ _ _ _ _ _ _ _ _ _ _ _ _ _ _ _ R Ef Es Hi) as H0. rewrite Hb in H0. destruct R as [Ty HI Hg Hr X].
  exact (publish objs Ty contents n programs evss ts outss st HI Hg Hr X f pl nb wb sw same64 Ef i v Hi H0 Hc tb jb c b o).
Qed.
Print Assumptions C82_flag_bit.
(** Any object as a flag: if the calls that modify it release, an acquiring call whose reply is not one
    that the initial value explains comes after one of them. *)
Theorem C82_flag_value : forall objs st programs contents n evss ts outss f tb jb c o,
  shared_run objs st programs contents n evss ts outss ->
  nth_error (replies ts outss tb) jb = Some (c, o) -> target c = f -> access_of (asked c) <> Replaces -> is_acquire (wanted (asked c)) = true ->
  (forall c', In c' (concat programs) -> target c' = f -> access_of (asked c') <> Reads -> is_release (wanted (asked c')) = true) ->
  ~ (exists s', effect (objs f) (st f) (asked c) o s') ->
  exists ta ja c' o', nth_error (replies ts outss ta) ja = Some (c', o') /\ target c' = f /\ access_of (asked c') <> Reads /\ happens_before evss (ta, ja) (tb, jb).
Proof.
  intros objs st programs contents n evss ts outss f tb jb c o [Ty HI Hg Hr X].
  exact (publish_value objs Ty contents n programs evss ts outss st HI Hg Hr X f tb jb c o).
Qed.
Print Assumptions C82_flag_value.
(** What happens before is seen: the later call sees the effect of the earlier one, or of a still later
    modification. *)
Theorem C82_seen : forall objs st programs contents n evss ts outss ta ja ca oa tb jb cb ob x,
  shared_run objs st programs contents n evss ts outss ->
  nth_error (replies ts outss ta) ja = Some (ca, oa) -> nth_error (replies ts outss tb) jb = Some (cb, ob) -> target ca = x -> target cb = x ->
  access_of (asked ca) <> Reads -> access_of (asked cb) <> Replaces -> happens_before evss (ta, ja) (tb, jb) ->
  exists k1 k2 s1 s1' s2 s2', 1 <= k1 <= k2 /\ k2 <= n x /\
    represents (objs x) (contents x (k1 - 1)) s1 /\ effect (objs x) s1 (asked ca) oa s1' /\ represents (objs x) (contents x k1) s1' /\
    represents (objs x) (contents x k2) s2 /\ effect (objs x) s2 (asked cb) ob s2'.
Proof.
  intros objs st programs contents n evss ts outss ta ja ca oa tb jb cb ob x [Ty HI Hg Hr X].
  exact (seen_after objs Ty contents n programs evss ts outss st HI Hg Hr X ta ja ca oa tb jb cb ob x).
Qed.
Print Assumptions C82_seen.
(** A message: one thread stores [v] and then sets the flag; a thread that finds the flag set and then
    loads gets [v], even if the store and the load are relaxed. *)
Theorem C82_message : forall objs st programs contents n evss ts outss f pl nb wb sw same64 m0 i x iw w ew sg esg ta ja v mo oa tb jb cb bb ob kb il ol,
  shared_run objs st programs contents n evss ts outss -> objs f = Bits pl nb wb sw same64 -> (i < nb)%N -> st f = BitsState m0 -> bit m0 i = false ->
  (forall c b, In c (concat programs) -> target c = f -> asked c = BitsCall b ->
     bits_access (bits_op b) <> Replaces /\ (becomes wb (bits_op b) i false = true -> is_release (wanted (asked c)) = true)) ->
  objs x = Int iw w ew sg esg -> nth_error (replies ts outss ta) ja = Some (Call x (IntCall (ICall (AStore v) mo)), oa) ->
  (forall t j c o, nth_error (replies ts outss t) j = Some (c, o) -> target c = x -> access_of (asked c) <> Reads -> (t, j) = (ta, ja)) ->
  (forall t j c b o, nth_error (replies ts outss t) j = Some (c, o) -> target c = f -> asked c = BitsCall b ->
     becomes wb (bits_op b) i false = true -> t = ta /\ ja < j) ->
  nth_error (replies ts outss tb) jb = Some (cb, BitsReply ob) -> target cb = f -> asked cb = BitsCall bb ->
  is_acquire (wanted (asked cb)) = true -> tells nb wb i true (bits_op bb) ob ->
  jb < kb -> nth_error (replies ts outss tb) kb = Some (Call x (IntCall il), ol) -> int_op il = ALoad ->
  ol = IntReply (Some v).
Proof.
  intros until ol. intros R. revert f pl nb wb sw same64 m0 i x iw w ew sg esg ta ja v mo oa tb jb cb bb ob kb il ol.
  exact (message objs st programs contents n evss ts outss R).
Qed.
Print Assumptions C82_message.

(** ** C83: a bit as a lock *)
(** Of two calls that found the bit clear and set it, one comes after the end of the critical section
    of the other. *)
Theorem C83_mutual_exclusion : forall objs st programs contents n evss ts outss f pl nb w sw same64 m0 i ta ja ca tb jb cb,
  shared_run objs st programs contents n evss ts outss -> objs f = Bits pl nb w sw same64 -> (i < nb)%N -> st f = BitsState m0 -> bit m0 i = false ->
  (forall c, In c (concat programs) -> protocol f w i c) -> (forall t, disciplined f w i (replies ts outss t)) ->
  nth_error (replies ts outss ta) ja = Some ca -> locked f w i ca -> nth_error (replies ts outss tb) jb = Some cb -> locked f w i cb -> (ta, ja) <> (tb, jb) ->
  (exists u, section_end f w i (replies ts outss ta) ja u /\ happens_before evss (ta, u) (tb, jb)) \/
  (exists u, section_end f w i (replies ts outss tb) jb u /\ happens_before evss (tb, u) (ta, ja)).
Proof.
  intros objs st programs contents n evss ts outss f pl nb w sw same64 m0 i ta ja ca tb jb cb R Ef Hi Es Hb Hc Hd.
  pose proof (first_bit _ _ _ _ _ _ _ _ _ _ _ _ _ _ _ _ R Ef Es Hi) as H0. rewrite Hb in H0. destruct R as [Ty HI Hg Hr X].
  exact (mutual_exclusion objs Ty contents n programs evss ts outss st HI Hg Hr X f pl nb w sw same64 Ef i Hi H0 Hc Hd ta ja ca tb jb cb).
Qed.
Print Assumptions C83_mutual_exclusion.
(** Calls that two threads make while holding the lock never race. *)
Theorem C83_race_free : forall objs st programs contents n evss ts outss f pl nb w sw same64 m0 i ta la ka tb lb kb,
  shared_run objs st programs contents n evss ts outss -> objs f = Bits pl nb w sw same64 -> (i < nb)%N -> st f = BitsState m0 -> bit m0 i = false ->
  (forall c, In c (concat programs) -> protocol f w i c) -> (forall t, disciplined f w i (replies ts outss t)) ->
  holding f w i (replies ts outss ta) la ka -> holding f w i (replies ts outss tb) lb kb -> ta <> tb ->
  happens_before evss (ta, ka) (tb, kb) \/ happens_before evss (tb, kb) (ta, ka).
Proof. exact race_free. Qed.
Print Assumptions C83_race_free.

(** ** Examples *)
(** Object 0 is an atomic_bitset<3> with uint8_t words, the others are atomic<uint8_t>. *)
Definition ex_objs (x : nat) : object_type := if x =? 0 then Bits lp64 3 8 64 false else Int 32 8 8 false false.
Definition ex_start (x : nat) : obj_state := if x =? 0 then BitsState [false; false; false] else IntState 0%N.
Definition bits (op : abop) (mo : memory_order) : call := Call 0 (BitsCall (BCall op (Some mo))).
Definition int (x : nat) (op : aop) (mo : option memory_order) : call := Call x (IntCall (ICall op mo)).
Definition ev (x : nat) (p : prim) (mo : memory_order) (r : N) (k : nat) : mevent := {| object := x; order := mo; what := {| performed := p; got := r; place := k |} |}.
Lemma ex_types x : type_ok (ex_objs x).
Proof. unfold ex_objs. destruct (x =? 0); [exact ab_example_sizes|cbn; lia]. Qed.
Lemma ex_starts x : represents (ex_objs x) 0 (ex_start x).
Proof. unfold ex_objs, ex_start. destruct (x =? 0); cbn; split; reflexivity. Qed.
Ltac good := repeat constructor; cbn; try discriminate; try lia.
Ltac runs := unfold mstart; cbn [map]; repeat (apply map_more; [repeat first [apply mp_return|apply mp_call; cbn|apply mp_do|apply mp_stop]|]); apply map_none.
Ltac merged := intros [|[|i]]; [reflexivity|reflexivity|destruct i; reflexivity].

(** Both threads announce themselves and look for the other, with release and acquire orders instead of
    the default: both can miss it. *)
Example C81_weaker_orders :
  let programs := [[int 1 (AStore 1) (Some Release); int 2 ALoad (Some Acquire)]; [int 2 (AStore 1) (Some Release); int 1 ALoad (Some Acquire)]] in
  exists contents n evss,
    shared_run ex_objs ex_start programs contents n evss [MThread None []; MThread None []]
      [[(int 1 (AStore 1) (Some Release), IntReply None); (int 2 ALoad (Some Acquire), IntReply (Some 0%N))];
       [(int 2 (AStore 1) (Some Release), IntReply None); (int 1 ALoad (Some Acquire), IntReply (Some 0%N))]].
Proof.
  exists (fun _ k => if k =? 0 then 0%N else 1%N), (fun x => match x with 1 | 2 => 1 | _ => 0 end),
    [[ev 1 (PStore 1) Release 0%N 1; ev 2 PLoad Acquire 0%N 0]; [ev 2 (PStore 1) Release 0%N 1; ev 1 PLoad Acquire 0%N 0]].
  split; [exact ex_types|exact ex_starts|good|runs|].
  apply unsynchronized.
  - intros x. destruct x as [|[|[|x]]]; cbn; split; cbn; try (intros e I; cbn in I; decompose [or] I; subst; try contradiction; cbn; try discriminate; intros; try (split; [lia|]); reflexivity);
      try apply Permutation_refl; repeat constructor; cbn; intros; discriminate.
  - intros a b (ea & eb & i & j & Ea & Eb & _ & _ & _ & Wi & Rj & L & _).
    assert (Ia : exists a, event_at [[ev 1 (PStore 1) Release 0%N 1; ev 2 PLoad Acquire 0%N 0]; [ev 2 (PStore 1) Release 0%N 1; ev 1 PLoad Acquire 0%N 0]] a = Some ea) by eauto.
    assert (Ib : exists a, event_at [[ev 1 (PStore 1) Release 0%N 1; ev 2 PLoad Acquire 0%N 0]; [ev 2 (PStore 1) Release 0%N 1; ev 1 PLoad Acquire 0%N 0]] a = Some eb) by eauto.
    apply event_at_in in Ia, Ib. cbn in Ia, Ib. decompose [or] Ia; subst; try contradiction; try discriminate Wi; cbn in Wi; injection Wi as <-;
      decompose [or] Ib; subst; try contradiction; try discriminate Rj; cbn in Rj; injection Rj as <-; lia.
  - cbn. intros e I. decompose [or] I; subst; try contradiction; discriminate.
Qed.
(** With the default order one of them sees the other: this run meets the hypotheses of C81. *)
Example C81_nonvacuous :
  let programs := [[int 1 (AStore 1) None; int 2 ALoad None]; [int 2 (AStore 1) None; int 1 ALoad None]] in
  (exists contents n evss,
    shared_run ex_objs ex_start programs contents n evss [MThread None []; MThread None []]
      [[(int 1 (AStore 1) None, IntReply None); (int 2 ALoad None, IntReply (Some 0%N))];
       [(int 2 (AStore 1) None, IntReply None); (int 1 ALoad None, IntReply (Some 1%N))]]) /\
  forall c, In c (concat programs) -> wanted (asked c) = SeqCst.
Proof.
  split; [|intros c I; cbn in I; decompose [or] I; subst; try contradiction; reflexivity].
  set (evss := [[ev 1 (PStore 1) SeqCst 0%N 1; ev 2 PLoad SeqCst 0%N 0]; [ev 2 (PStore 1) SeqCst 0%N 1; ev 1 PLoad SeqCst 1%N 1]]).
  exists (fun _ k => if k =? 0 then 0%N else 1%N), (fun x => bumps (fun _ => 0) (concat evss) x), evss.
  split; [exact ex_types|exact ex_starts|good|runs|].
  apply (timed_execution [(0, ev 1 (PStore 1) SeqCst 0%N 1); (0, ev 2 PLoad SeqCst 0%N 0); (1, ev 2 (PStore 1) SeqCst 0%N 1); (1, ev 1 PLoad SeqCst 1%N 1)] evss); [merged|].
  cbn. repeat split; reflexivity.
Qed.

(** A message with relaxed orders only can be missed: the flag is set, the value is not there. *)
Definition message_programs (r a : memory_order) : list (list call) :=
  [[int 1 (AStore 5) (Some Relaxed); bits (OSet 1 true) r]; [bits OLoad a; int 1 ALoad (Some Relaxed)]].
Example C82_relaxed_flag : exists contents n evss,
    shared_run ex_objs ex_start (message_programs Relaxed Relaxed) contents n evss [MThread None []; MThread None []]
      [[(int 1 (AStore 5) (Some Relaxed), IntReply None); (bits (OSet 1 true) Relaxed, BitsReply (RBits [0%N]))];
       [(bits OLoad Relaxed, BitsReply (RBits [2%N])); (int 1 ALoad (Some Relaxed), IntReply (Some 0%N))]].
Proof.
  exists (fun x k => if k =? 0 then 0%N else if x =? 0 then 2%N else 5%N), (fun x => match x with 0 | 1 => 1 | _ => 0 end),
    [[ev 1 (PStore 5) Relaxed 0%N 1; ev 0 (POr 2) Relaxed 0%N 1]; [ev 0 PLoad Relaxed 2%N 1; ev 1 PLoad Relaxed 0%N 0]].
  split; [exact ex_types|exact ex_starts|good|runs|].
  apply unsynchronized.
  - intros x. destruct x as [|[|x]]; cbn; split; cbn; try (intros e I; cbn in I; decompose [or] I; subst; try contradiction; cbn; try discriminate; intros; try (split; [lia|]); reflexivity);
      try apply Permutation_refl; repeat constructor; cbn; intros; discriminate.
  - intros a b (ea & eb & i & j & Ea & Eb & _ & Rl & _).
    assert (Ia : exists a, event_at [[ev 1 (PStore 5) Relaxed 0%N 1; ev 0 (POr 2) Relaxed 0%N 1]; [ev 0 PLoad Relaxed 2%N 1; ev 1 PLoad Relaxed 0%N 0]] a = Some ea) by eauto.
    apply event_at_in in Ia. cbn in Ia. decompose [or] Ia; subst; try contradiction; discriminate Rl.
  - cbn. intros e I. decompose [or] I; subst; try contradiction; discriminate.
Qed.
(** With a releasing set and an acquiring load the message arrives, in this run and, by C82, in any other. *)
Example C82_nonvacuous : exists contents n evss,
    shared_run ex_objs ex_start (message_programs Release Acquire) contents n evss [MThread None []; MThread None []]
      [[(int 1 (AStore 5) (Some Relaxed), IntReply None); (bits (OSet 1 true) Release, BitsReply (RBits [0%N]))];
       [(bits OLoad Acquire, BitsReply (RBits [2%N])); (int 1 ALoad (Some Relaxed), IntReply (Some 5%N))]].
Proof.
  set (evss := [[ev 1 (PStore 5) Relaxed 0%N 1; ev 0 (POr 2) Release 0%N 1]; [ev 0 PLoad Acquire 2%N 1; ev 1 PLoad Relaxed 5%N 1]]).
  exists (fun x k => if k =? 0 then 0%N else if x =? 0 then 2%N else 5%N), (fun x => bumps (fun _ => 0) (concat evss) x), evss.
  split; [exact ex_types|exact ex_starts|good|runs|].
  apply (timed_execution [(0, ev 1 (PStore 5) Relaxed 0%N 1); (0, ev 0 (POr 2) Release 0%N 1); (1, ev 0 PLoad Acquire 2%N 1); (1, ev 1 PLoad Relaxed 5%N 1)] evss); [merged|].
  cbn. repeat split; reflexivity.
Qed.
Example C82_message_applies : forall contents n evss o,
    shared_run ex_objs ex_start (message_programs Release Acquire) contents n evss [MThread None []; MThread None []]
      [[(int 1 (AStore 5) (Some Relaxed), IntReply None); (bits (OSet 1 true) Release, BitsReply (RBits [0%N]))];
       [(bits OLoad Acquire, BitsReply (RBits [2%N])); (int 1 ALoad (Some Relaxed), IntReply o)]] -> o = Some 5%N.
Proof.
  intros contents n evss o R. enough (E : IntReply o = IntReply (Some 5%N)) by congruence.
  refine (C82_message _ _ _ _ _ _ _ _ 0 lp64 3%N 8%N 64%N false _ 1%N 1 32%N 8%N 8%N false false 0 0 5%N (Some Relaxed) _ 1 0 _ _ _ 1 _ _ R
    eq_refl _ eq_refl eq_refl _ eq_refl eq_refl _ _ eq_refl eq_refl eq_refl eq_refl _ _ eq_refl eq_refl); try (cbn; lia).
  - cbn. intros c b I. decompose [or] I; subst; try contradiction; intros T A; try discriminate T; injection A as <-; (split; [discriminate|]); cbn; intros; congruence.
  - intros [|[|t]] [|[|[|j]]] c o' E T A; cbn in E; try discriminate E; try (destruct t; discriminate E); injection E as <- <-; try discriminate T; try (exfalso; now apply A); reflexivity.
  - intros [|[|t]] [|[|[|j]]] c b o' E T A B; cbn in E; try discriminate E; try (destruct t; discriminate E); injection E as <- <-; try discriminate T; injection A as <-; try discriminate B; split; [reflexivity|lia].
  - intros m Lm (s & E & V & Ti & H). injection E as <-. specialize (H 1%N ltac:(lia)). cbn in H. congruence.
Qed.

(** Bit 1 as a lock: the first thread takes it, the second fails, tries again and gets it; each
    thread works on object 1 while it has the lock. *)
Definition try_lock := bits (OSet 1 true) Acquire.
Definition unlock := bits (OReset 1) Release.
Definition lock_replies : list (list (call * reply)) :=
  [[(try_lock, BitsReply (RBits [0%N])); (int 1 (AStore 5) (Some Relaxed), IntReply None); (unlock, BitsReply (RBits [2%N]))];
   [(try_lock, BitsReply (RBits [2%N])); (try_lock, BitsReply (RBits [0%N])); (int 1 ALoad (Some Relaxed), IntReply (Some 5%N)); (unlock, BitsReply (RBits [2%N]))]].
Example C83_nonvacuous :
  let programs := map (map fst) lock_replies in
  (exists contents n evss, shared_run ex_objs ex_start programs contents n evss [MThread None []; MThread None []] lock_replies) /\
  (forall c, In c (concat programs) -> protocol 0 8 1 c) /\
  (forall t, disciplined 0 8 1 (replies [@MThread call reply None []; MThread None []] lock_replies t)) /\
  holding 0 8 1 (replies [@MThread call reply None []; MThread None []] lock_replies 0) 0 1 /\
  holding 0 8 1 (replies [@MThread call reply None []; MThread None []] lock_replies 1) 1 2.
Proof.
  assert (NL : ~ clears 8 1 (OSet 1 true)) by (intros H; discriminate (H true)).
  assert (K : forall mo r, locked 0 8 1 (bits (OSet 1 true) mo, BitsReply (RBits [r])) <-> saw_clear 8 1 (RBits [r]) = true).
  { intros mo r. split; [intros (_ & b & o & A & O & _ & S); injection O as <-; exact S|]. intros S. split; [reflexivity|]. eexists. eexists. cbn. repeat split. exact S. }
  assert (NU : forall mo o, ~ unlocked 0 8 1 (bits (OSet 1 true) mo, o)) by (intros mo o (_ & b & A & C); injection A as <-; exact (NL C)).
  assert (NI : forall op mo o, ~ unlocked 0 8 1 (int 1 op mo, o)) by (intros op mo o (T & _); discriminate T).
  cbn [map lock_replies fst]. split; [|split; [|split; [|split]]].
  - set (evss := [[ev 0 (POr 2) Acquire 0%N 1; ev 1 (PStore 5) Relaxed 0%N 1; ev 0 (PAnd 253) Release 2%N 3];
                  [ev 0 (POr 2) Acquire 2%N 2; ev 0 (POr 2) Acquire 0%N 4; ev 1 PLoad Relaxed 5%N 1; ev 0 (PAnd 253) Release 2%N 5]]).
    exists (fun x k => if x =? 0 then (match k with 1 | 2 | 4 => 2%N | _ => 0%N end) else if k =? 0 then 0%N else 5%N). eexists. exists evss.
    split; [exact ex_types|intros x; destruct x; apply (ex_starts)|good|runs|].
    apply (timed_execution [(0, ev 0 (POr 2) Acquire 0%N 1); (1, ev 0 (POr 2) Acquire 2%N 2); (0, ev 1 (PStore 5) Relaxed 0%N 1); (0, ev 0 (PAnd 253) Release 2%N 3);
      (1, ev 0 (POr 2) Acquire 0%N 4); (1, ev 1 PLoad Relaxed 5%N 1); (1, ev 0 (PAnd 253) Release 2%N 5)] evss); [merged|].
    cbn. repeat split; reflexivity.
  - intros c I. cbn in I. decompose [or] I; subst; try contradiction; intros T; try discriminate T; eexists; (split; [reflexivity|]); cbn; (split; [discriminate|]); auto.
    + right. left. split; [intros b; reflexivity|reflexivity].
    + right. left. split; [intros b; reflexivity|reflexivity].
  - intros [|[|t]] j co E U; [| |destruct t; destruct j; discriminate].
    + destruct j as [|[|[|j]]]; cbn in E; try (destruct j; discriminate E); injection E as <-; try (exfalso; eapply NU; exact U); try (exfalso; eapply NI; exact U).
      exists 0. eexists. split; [lia|]. split; [reflexivity|]. split; [apply K; reflexivity|]. intros m co2 B E. assert (m = 1) as -> by lia. cbn in E. injection E as <-. apply NI.
    + destruct j as [|[|[|[|j]]]]; cbn in E; try (destruct j; discriminate E); injection E as <-; try (exfalso; eapply NU; exact U); try (exfalso; eapply NI; exact U).
      exists 1. eexists. split; [lia|]. split; [reflexivity|]. split; [apply K; reflexivity|]. intros m co2 B E. assert (m = 2) as -> by lia. cbn in E. injection E as <-. apply NI.
  - split; [lia|]. split; [eexists; split; [reflexivity|apply K; reflexivity]|]. intros m co B E. assert (m = 1) as -> by lia. cbn in E. injection E as <-. apply NI.
  - split; [lia|]. split; [eexists; split; [reflexivity|apply K; reflexivity]|]. intros m co B E. assert (m = 2) as -> by lia. cbn in E. injection E as <-. apply NI.
Qed.
