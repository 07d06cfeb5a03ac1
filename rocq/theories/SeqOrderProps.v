(** * C152: the memory orders of a sequence lock *)
From Coq Require Import Permutation.
From Verif Require Import Base BitModel ConcModel RelaxedModel AtomicModel AtomicSpec AtomicBitsetModel AtomicBitsetSpec MultiModel MultiSpec MultiProofs MultiProofs4 MultiProofs5 MultiProps.
From Verif Require Import RaceSpec RaceProps PetersonSpec PetersonProofs PetersonProps RingSpec SeqOrderSpec SeqOrderProofs.
Open Scope nat_scope.

(** A reader that finds the same even number before and after reads one version, if the writer releases when
    it finishes a version and when it modifies a word, and the reader acquires when it loads the counter first
    and when it reads the words; or else the counter came round.  The other calls may have any order. *)
Theorem C152_one_version : forall objs st programs contents n evss ts outss seq w word p t l l' v,
  shared_run objs st programs contents n evss ts outss ->
  let rs := replies ts outss in seqlock seq w word objs st rs p -> t <> p -> finds_twice seq (rs t) l l' v ->
  finishes_with_release seq (rs p) -> writes_with_release word (rs p) -> begins_with_acquire (rs t) l -> reads_with_acquire word (rs t) l l' ->
  one_version seq w word objs st (rs p) (rs t) l l' v \/ came_round seq w (rs p) v.
Proof. intros objs st programs contents n evss ts outss seq w word p t l l' v R rs G N F A B C D. eapply version; eassumption. Qed.
Print Assumptions C152_one_version.
(** So it does with the default order everywhere. *)
Theorem C152_default_order : forall objs st programs contents n evss ts outss seq w word p t l l' v,
  shared_run objs st programs contents n evss ts outss ->
  (forall c, In c (concat programs) -> target c = seq \/ word (target c) = true -> wanted (asked c) = SeqCst) ->
  let rs := replies ts outss in seqlock seq w word objs st rs p -> t <> p -> finds_twice seq (rs t) l l' v ->
  one_version seq w word objs st (rs p) (rs t) l l' v \/ came_round seq w (rs p) v.
Proof.
  intros objs st programs contents n evss ts outss seq w word p t l l' v R D rs G N F.
  assert (In_ : forall t k co, nth_error (rs t) k = Some co -> In (fst co) (concat programs)) by (intros t0 k co; apply (r_in objs st programs contents n evss ts outss R)).
  eapply version; try eassumption.
  - intros k co E T _ _. rewrite (D (fst co)); eauto.
  - intros k co E T _. rewrite (D (fst co)); eauto.
  - intros co E. destruct F as (_ & _ & c & c' & E1 & F1 & _). assert (co = c) as -> by (fold rs in E; congruence). rewrite (D (fst c)); eauto. left. apply F1.
  - intros k co _ E T. rewrite (D (fst co)); eauto.
Qed.
Print Assumptions C152_default_order.

(** ** Weaker orders *)
(** Atomic 1 is the counter, atomics 3 and 4 are the words. *)
Definition words34 (x : nat) : bool := (x =? 3) || (x =? 4).
Definition tried (fin ws bg wl : memory_order) (v a b : N) : list (list (call * reply)) :=
  [[(int 1 (AStore 1) (Some Relaxed), IntReply None); (int 3 (AStore 1) (Some ws), IntReply None); (int 4 (AStore 1) (Some ws), IntReply None); (int 1 (AStore 2) (Some fin), IntReply None)];
   [(int 1 ALoad (Some bg), IntReply (Some v)); (int 3 ALoad (Some wl), IntReply (Some a)); (int 4 ALoad (Some wl), IntReply (Some b)); (int 1 ALoad (Some Relaxed), IntReply (Some v))]].
Definition tried_events (fin ws bg wl : memory_order) (v a b : N) : list (list mevent) :=
  [[ev 1 (PStore 1) Relaxed 0%N 1; ev 3 (PStore 1) ws 0%N 1; ev 4 (PStore 1) ws 0%N 1; ev 1 (PStore 2) fin 0%N 2];
   [ev 1 PLoad bg v (N.to_nat v); ev 3 PLoad wl a (N.to_nat a); ev 4 PLoad wl b (N.to_nat b); ev 1 PLoad Relaxed v (N.to_nat v)]].
Lemma tried_seqlock fin ws bg wl v a b : seqlock 1 8 words34 ex_objs ex_start (replies [@MThread call reply None []; MThread None []] (tried fin ws bg wl v a b)) 0.
Proof.
  split.
  - split; [reflexivity|]. do 4 eexists. reflexivity.
  - reflexivity.
  - unfold replies; cbn [nth tried nth_error pending mcur app]. intros k co E T. at_index E; try discriminate T; right; left; (split; [reflexivity|eexists; split; [reflexivity|now left]]).
  - unfold replies; cbn [nth tried nth_error pending mcur app]. intros k co E T. at_index E; try discriminate T; right; reflexivity.
  - intros [|[|t]] k co N E T; [contradiction| |].
    + unfold replies in E. cbn [nth tried nth_error pending mcur app] in E. at_index E; reflexivity.
    + unfold replies in E. cbn in E. destruct t; cbn in E; destruct k; discriminate E.
Qed.
(** Any three of the four conditions are not enough: the reader may then find words that are not those of the
    version, without the counter having come round. *)
Theorem C152_all_needed_refuted : forall weak, weak < 4 ->
  exists programs contents n evss outss l l' v, let ts := [MThread None []; MThread None []] in let rs := replies ts outss in
  shared_run ex_objs ex_start programs contents n evss ts outss /\ seqlock 1 8 words34 ex_objs ex_start rs 0 /\ finds_twice 1 (rs 1) l l' v /\
  (weak <> 0 -> finishes_with_release 1 (rs 0)) /\ (weak <> 1 -> writes_with_release words34 (rs 0)) /\
  (weak <> 2 -> begins_with_acquire (rs 1) l) /\ (weak <> 3 -> reads_with_acquire words34 (rs 1) l l') /\
  ~ one_version 1 8 words34 ex_objs ex_start (rs 0) (rs 1) l l' v /\ ~ came_round 1 8 (rs 0) v.
Proof.
  intros weak Wk.
  set (fin := if weak =? 0 then Relaxed else Release). set (ws := if weak =? 1 then Relaxed else Release).
  set (bg := if weak =? 2 then Relaxed else Acquire). set (wl := if weak =? 3 then Relaxed else Acquire).
  set (v := if Nat.even weak then 2%N else 0%N). set (b := if Nat.even weak then 0%N else 1%N).
  exists (map (map fst) (tried fin ws bg wl v 0 b)), (fun x k => match x, k with 1, 1 => 1%N | 1, 2 => 2%N | 3, 1 => 1%N | 4, 1 => 1%N | _, _ => 0%N end), (fun x => match x with 1 => 2 | 3 | 4 => 1 | _ => 0 end),
    (tried_events fin ws bg wl v 0 b), (tried fin ws bg wl v 0 b), 0, 3, v. cbn zeta.
  split; [|split; [apply tried_seqlock|split; [|split; [|split; [|split; [|split; [|split]]]]]]].
  - destruct weak as [|[|[|[|?]]]]; [| | | |lia]; cbn in fin, ws, bg, wl, v, b; subst fin ws bg wl v b;
      (split; [exact ex_types|intros [|[|[|[|[|x]]]]]; apply ex_starts|good|unfold tried, tried_events; cbn [map fst]; runs|]); apply unsynchronized.
    all: try (cbn; intros e I; decompose [or] I; subst; try contradiction; discriminate).
    all: try (intros x; destruct x as [|[|[|[|[|x]]]]]; cbn; split; cbn; try (intros e I; cbn in I; decompose [or] I; subst; try contradiction; cbn; try discriminate; intros; try (split; [lia|]); reflexivity);
        try apply Permutation_refl; repeat constructor; cbn; intros; try discriminate; repeat match goal with H : Some _ = Some _ |- _ => injection H as <- end; lia).
    all: intros a b (ea & eb & i & j & Ea & Eb & Ob & Rl & Ac & Wi & Rj & L & _);
      (assert (Ia : exists a, event_at (tried_events _ _ _ _ _ _ _) a = Some ea) by eauto); (assert (Ib : exists a, event_at (tried_events _ _ _ _ _ _ _) a = Some eb) by eauto);
      apply event_at_in in Ia, Ib; cbn in Ia, Ib; decompose [or] Ia; subst; try contradiction; try discriminate Rl; decompose [or] Ib; subst; try contradiction; try discriminate Ac; try discriminate;
      cbn in Wi, Rj; injection Wi as <-; injection Rj as <-; lia.
  - split; [lia|]. split; [unfold v; now destruct (Nat.even weak)|]. do 2 eexists. split; [reflexivity|]. split; [split; [reflexivity|eexists; repeat split; reflexivity]|]. split; [reflexivity|]. split; [reflexivity|eexists; repeat split; reflexivity].
  - intros Nw k co E T A O. unfold replies in E. cbn [nth tried nth_error pending mcur app] in E. at_index E; try discriminate T; try discriminate O. cbn. unfold fin. now rewrite (proj2 (Nat.eqb_neq _ _) Nw).
  - intros Nw k co E T A. unfold replies in E. cbn [nth tried nth_error pending mcur app] in E. at_index E; try discriminate T; cbn; unfold ws; now rewrite (proj2 (Nat.eqb_neq _ _) Nw).
  - intros Nw co E. unfold replies in E. cbn in E. injection E as <-. cbn. unfold bg. now rewrite (proj2 (Nat.eqb_neq _ _) Nw).
  - intros Nw k co Lk E T. unfold replies in E. cbn [nth tried nth_error pending mcur app] in E. at_index E; try discriminate T; cbn; unfold wl; now rewrite (proj2 (Nat.eqb_neq _ _) Nw).
  - intros (q & st' & _ & V & A & B). unfold replies in V, A, B. cbn [nth tried nth_error pending mcur app] in V, A, B.
    pose proof (B 1 _ ltac:(lia) eq_refl eq_refl) as B1. pose proof (B 2 _ ltac:(lia) eq_refl eq_refl) as B2. clear B. cbn in B1, B2.
    destruct (st' 3) as [|m3] eqn:E3; [contradiction|]. destruct (st' 4) as [|m4] eqn:E4; [contradiction|]. unfold aspec in B1, B2. cbn in B1, B2.
    assert (X3 : m3 = 0%N) by congruence. assert (X4 : m4 = b) by congruence. clear B1 B2. subst m3 m4.
    unfold v in V. unfold b in E4. destruct (Nat.even weak).
    + do 4 (destruct q as [|q]; [vm_compute in V; discriminate V|]). clear V.
      assert (A' : exists s, effect (ex_objs 3) (ex_start 3) (asked (int 3 (AStore 1) (Some ws))) (IntReply None) s /\ exists s', forall x, update (update ex_start 3 s) 4 s' x = st' x).
      { destruct q; cbn in A; destruct A as (s & A1 & s' & _ & A3); exists s; (split; [exact A1|]); exists s'; exact A3. }
      clear A. destruct A' as (s & A1 & s' & A3). specialize (A3 3). change (update (update ex_start 3 s) 4 s' 3) with s in A3. rewrite A3, E3 in A1. unfold aspec in A1. vm_compute in A1. discriminate A1.
    + destruct q as [|q]; [specialize (A 4); rewrite E4 in A; discriminate A|]. do 3 (destruct q as [|q]; [vm_compute in V; discriminate V|]). destruct q; vm_compute in V; discriminate V.
  - intros (h & _ & C). unfold replies in C. cbn [nth tried nth_error pending mcur app] in C.
    assert (X : (Z.of_nat h + 256 <= 2)%Z); [|lia]. revert C. change (range 8) with 256%Z. change (changed 1 _ _) with 2. exact (fun x => x).
Qed.
Print Assumptions C152_all_needed_refuted.

(** ** Example *)
(** The words are atomic_bitset 0 and atomic 3.  The writer writes two versions, and looks at a word itself; the
    reader reads the first version after a try that fails. *)
Definition words03 (x : nat) : bool := (x =? 0) || (x =? 3).
Definition kept : list (list (call * reply)) :=
  [[(int 1 APreInc None, IntReply (Some 1%N)); (bits (OSet 1 true) Release, BitsReply (RBits [0%N])); (int 3 (AFetchAdd 7) (Some Release), IntReply (Some 0%N)); (int 1 (AStore 2) (Some Release), IntReply None);
    (int 3 ALoad (Some Relaxed), IntReply (Some 7%N)); (int 1 (AStore 3) (Some Relaxed), IntReply None); (int 3 (AStore 9) (Some Release), IntReply None); (int 1 (AFetchAdd 1) (Some Release), IntReply (Some 3%N))];
   [(int 1 ALoad (Some Acquire), IntReply (Some 1%N)); (int 1 ALoad (Some Acquire), IntReply (Some 2%N)); (bits OLoad Acquire, BitsReply (RBits [2%N])); (int 3 ALoad (Some Acquire), IntReply (Some 7%N)); (int 1 ALoad (Some Relaxed), IntReply (Some 2%N))]].
Definition kept_events : list (nat * mevent) :=
  [(0, ev 1 (PAdd 1) SeqCst 0%N 1); (1, ev 1 PLoad Acquire 1%N 1); (0, ev 0 (POr 2) Release 0%N 1); (0, ev 3 (PAdd 7) Release 0%N 1); (0, ev 1 (PStore 2) Release 0%N 2);
   (1, ev 1 PLoad Acquire 2%N 2); (0, ev 3 PLoad Relaxed 7%N 1); (1, ev 0 PLoad Acquire 2%N 1); (1, ev 3 PLoad Acquire 7%N 1); (1, ev 1 PLoad Relaxed 2%N 2);
   (0, ev 1 (PStore 3) Relaxed 0%N 3); (0, ev 3 (PStore 9) Release 0%N 2); (0, ev 1 (PAdd 1) Release 3%N 4)].
Definition kept_contents (x k : nat) : N := match x, k with 1, _ => N.of_nat k | 3, 1 => 7%N | 3, 2 => 9%N | 0, 1 => 2%N | _, _ => 0%N end.
Example C152_nonvacuous :
  let programs := map (map fst) kept in let ts := [MThread None []; MThread None []] in let rs := replies ts kept in
  (exists n, shared_run ex_objs ex_start programs kept_contents n (by_thread kept_events) ts kept) /\
  seqlock 1 8 words03 ex_objs ex_start rs 0 /\ finds_twice 1 (rs 1) 1 4 2 /\
  finishes_with_release 1 (rs 0) /\ writes_with_release words03 (rs 0) /\ begins_with_acquire (rs 1) 1 /\ reads_with_acquire words03 (rs 1) 1 4 /\ ~ came_round 1 8 (rs 0) 2.
Proof.
  cbn zeta. split; [|split; [|split; [|split; [|split; [|split; [|split]]]]]].
  - eexists. split; [exact ex_types|intros [|[|[|[|x]]]]; cbn; split; reflexivity|good|unfold kept, by_thread; cbn; runs|].
    apply (timed_execution kept_events); [merged|]. cbn. repeat split; reflexivity.
  - split.
    + split; [reflexivity|]. do 4 eexists. reflexivity.
    + reflexivity.
    + unfold replies; cbn [nth kept nth_error pending mcur app]. intros k co E T. at_index E; try discriminate T; right; unfold increases.
      1, 4: right; split; [reflexivity|]; eexists; split; [reflexivity|]; cbn; tauto.
      all: left; split; [reflexivity|eexists; split; [reflexivity|now left]].
    + unfold replies; cbn [nth kept nth_error pending mcur app]. intros k co E T. at_index E; try discriminate T; try (left; reflexivity); right; reflexivity.
    + intros [|[|t]] k co N E T; [contradiction| |].
      * unfold replies in E. cbn [nth kept nth_error pending mcur app] in E. at_index E; reflexivity.
      * unfold replies in E. cbn in E. destruct t; cbn in E; destruct k; discriminate E.
  - split; [lia|]. split; [reflexivity|]. do 2 eexists. split; [reflexivity|]. split; [split; [reflexivity|eexists; repeat split; reflexivity]|]. split; [reflexivity|]. split; [reflexivity|eexists; repeat split; reflexivity].
  - intros k co E T A O. unfold replies in E. cbn [nth kept nth_error pending mcur app] in E. at_index E; try discriminate T; try discriminate O; reflexivity.
  - intros k co E T A. unfold replies in E. cbn [nth kept nth_error pending mcur app] in E. at_index E; try discriminate T; try reflexivity; now destruct A.
  - intros co E. unfold replies in E. cbn in E. injection E as <-. reflexivity.
  - intros k co Lk E T. unfold replies in E. cbn [nth kept nth_error pending mcur app] in E. at_index E; try discriminate T; try lia; reflexivity.
  - intros (h & _ & C). assert (X : (Z.of_nat h + 256 <= 4)%Z) by exact C. lia.
Qed.
