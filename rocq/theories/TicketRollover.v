(** Many rounds of one thread on a lock made of two counters: what the other thread may find meanwhile. *)
From Coq Require Import Permutation.
From Verif Require Import Base BitModel ConcModel RelaxedModel AtomicModel AtomicSpec AtomicBitsetModel AtomicBitsetSpec MultiModel MultiSpec MultiProofs MultiProofs4 MultiProofs5 MultiProps.
From Verif Require Import RaceSpec PetersonSpec RingSpec CountSpec TicketOrderSpec.
Open Scope nat_scope.

(** ** Synchronization within threads only *)
Lemma hb_within evss : (forall a b, synchronizes evss a b -> sequenced a b) -> forall a b, happens_before evss a b -> sequenced a b.
Proof. intros N a b. induction 1 as [a b H|a b H|a b c _ IH1 _ IH2]; [exact H|now apply N in H|]. destruct IH1, IH2. split; [congruence|lia]. Qed.
Lemma synchronized_within w contents n evss : (forall x, execution (w x) (contents x) (n x) (map (on x) evss)) -> (forall a b, synchronizes evss a b -> sequenced a b) ->
  (forall e, In e (concat evss) -> order e <> SeqCst) -> mexecution w contents n evss.
Proof.
  intros X NS SC. split; [exact X| |].
  - intros [t j] [t' j'] ea eb H Ea Eb O. apply hb_within in H; [|exact NS]. destruct H as [Et L]. cbn in Et, L. subst t'.
    unfold event_at in *. cbn in *. destruct (nth_error evss t) as [evs|] eqn:E; [|discriminate].
    pose proof (coherence _ _ _ _ (X (object ea))) as F. rewrite Forall_forall in F.
    apply (on_pairs (object ea) evs) with (p := j) (q := j'); auto. apply F. apply in_map. eapply nth_error_In. exact E.
  - exists []. split; [|constructor]. intros i. cbn. destruct (nth_error evss i) as [evs|] eqn:E.
    + symmetry. apply nth_error_nth. rewrite nth_error_map, E. cbn. f_equal.
      assert (S : forall e, In e evs -> order e <> SeqCst) by (intros e I; apply SC; apply in_concat; eauto using nth_error_In).
      clear - S. induction evs as [|e evs IH]; cbn; [reflexivity|]. unfold is_seq_cst at 1. destruct (order e) eqn:Eo; try (apply IH; intros; apply S; now right).
      exfalso. apply (S e); [now left|exact Eo].
    + symmetry. apply nth_overflow. rewrite map_length. now apply nth_error_None.
Qed.

(** ** The execution *)
(** The counters are atomics 1 and 2 of [w] bits.  The first thread makes [K] = 2^w rounds, without leaving in the last:
    call number 3 j draws the number j, call 3 j + 1 finds it and call 3 j + 2 leaves. *)
Section Rounds.
Variable w : N.
Notation K := (N.to_nat (2 ^ w)).
Definition counters (x : nat) : object_type := Int 32 w w false false.
Definition zeros (x : nat) : obj_state := IntState 0%N.
Definition nth_call (i : nat) : call * reply :=
  let j := N.of_nat (i / 3) in
  match i mod 3 with
  | 0 => (int 1 (AFetchAdd 1) (Some Relaxed), IntReply (Some j))
  | 1 => (int 2 ALoad (Some Acquire), IntReply (Some j))
  | _ => (int 2 (AStore (j + 1)) (Some Release), IntReply None)
  end.
Definition nth_event (i : nat) : mevent :=
  let j := N.of_nat (i / 3) in
  match i mod 3 with
  | 0 => ev 1 (PAdd 1) Relaxed j (S (i / 3))
  | 1 => ev 2 PLoad Acquire j (i / 3)
  | _ => ev 2 (PStore (j + 1)) Release 0%N (S (i / 3))
  end.
Notation m := (3 * K - 1).
Definition many : list (list (call * reply)) :=
  [map nth_call (seq 0 m); [(int 1 (AFetchAdd 1) (Some Relaxed), IntReply (Some 0%N)); (int 2 ALoad (Some Acquire), IntReply (Some 0%N))]].
Definition many_events : list (list mevent) :=
  [map nth_event (seq 0 m); [ev 1 (PAdd 1) Relaxed 0%N (S K); ev 2 PLoad Acquire 0%N 0]].
Definition many_contents (x k : nat) : N := (N.of_nat k mod 2 ^ w)%N.
Definition many_n (x : nat) : nat := match x with 1 => S K | 2 => K - 1 | _ => 0 end.

Context (Pw : (0 < w)%N).
Lemma K2 : 2 <= K.
Proof. assert (2 ^ 1 <= 2 ^ w)%N by (apply N.pow_le_mono_r; lia). change (2 ^ 1)%N with 2%N in H. lia. Qed.
Lemma third i : i < m -> i / 3 < K /\ (i mod 3 = 2 -> S (i / 3) < K) /\ i = 3 * (i / 3) + i mod 3 /\ i mod 3 < 3.
Proof. intros L. pose proof (Nat.div_mod i 3 ltac:(lia)) as D. pose proof (Nat.mod_upper_bound i 3 ltac:(lia)). pose proof K2. lia. Qed.
Lemma small j : j < K -> (N.of_nat j mod 2 ^ w)%N = N.of_nat j.
Proof. intros L. apply N.mod_small. lia. Qed.
Lemma at_call i co : nth_error (map nth_call (seq 0 m)) i = Some co <-> i < m /\ co = nth_call i.
Proof.
  rewrite nth_error_map. split.
  - destruct (nth_error (seq 0 m) i) as [i'|] eqn:E; [|discriminate]. cbn. intros [= <-]. assert (L : i < m) by (rewrite <- (seq_length m 0); apply nth_error_Some; congruence).
    split; [exact L|]. rewrite (nth_error_nth' _ 0) in E by (now rewrite seq_length). rewrite seq_nth in E by exact L. now injection E as <-.
  - intros [L ->]. rewrite (nth_error_nth' _ 0) by (now rewrite seq_length). now rewrite seq_nth.
Qed.
Lemma at_ev i e : nth_error (map nth_event (seq 0 m)) i = Some e -> i < m /\ e = nth_event i.
Proof.
  rewrite nth_error_map. destruct (nth_error (seq 0 m) i) as [i'|] eqn:E; [|discriminate]. cbn. intros [= <-]. assert (L : i < m) by (rewrite <- (seq_length m 0); apply nth_error_Some; congruence).
  split; [exact L|]. rewrite (nth_error_nth' _ 0) in E by (now rewrite seq_length). rewrite seq_nth in E by exact L. now injection E as <-.
Qed.
Lemma one_step_runs i rest evs t' outs : i / 3 < K -> mperforms (code counters) (MThread None rest) evs t' outs ->
  mperforms (code counters) (MThread None (fst (nth_call i) :: rest)) (nth_event i :: evs) t' (nth_call i :: outs).
Proof.
  intros L H. unfold nth_call, nth_event. assert (Tt : to_t w (N.of_nat (i / 3)) = N.of_nat (i / 3)) by (unfold to_t; now apply small).
  clear L. revert Tt. generalize (i / 3). intros q Tt. destruct (i mod 3) as [|[|r]]; cbn [fst]; apply mp_call; cbn; apply mp_do; rewrite ?Tt; apply mp_return; exact H.
Qed.
Lemma rounds_run c : forall s, s + c <= m -> mperforms (code counters) (MThread None (map fst (map nth_call (seq s c)))) (map nth_event (seq s c)) (MThread None []) (map nth_call (seq s c)).
Proof. induction c as [|c IH]; intros s L; cbn; [apply mp_stop|]. apply one_step_runs; [apply third; lia|apply IH; lia]. Qed.
(** Where the modifications stand. *)
Lemma places_seq c : forall x, map place (filter modifies (on x (map nth_event (seq 0 (3 * c))))) = match x with 1 | 2 => seq 1 c | _ => [] end.
Proof.
  induction c as [|c IH]; intros x; [destruct x as [|[|[|x]]]; reflexivity|].
  replace (3 * S c) with (3 * c + 3) by lia. rewrite seq_app, map_app. unfold on in *. rewrite filter_app, map_app, filter_app, map_app, IH. cbn [seq map plus Nat.add].
  assert (D : forall r, r < 3 -> (r + 3 * c) / 3 = c /\ (r + 3 * c) mod 3 = r).
  { intros r L. replace (r + 3 * c) with (r + c * 3) by lia. rewrite Nat.div_add, Nat.mod_add by lia. now rewrite Nat.div_small, Nat.mod_small by lia. }
  unfold nth_event. change (3 * c) with (0 + 3 * c). change (S (0 + 3 * c)) with (1 + 3 * c). change (S (1 + 3 * c)) with (2 + 3 * c).
  destruct (D 0 ltac:(lia)) as [-> ->], (D 1 ltac:(lia)) as [-> ->], (D 2 ltac:(lia)) as [-> ->].
  destruct x as [|[|[|x]]]; cbn [filter ev object Nat.eqb map what modifies performed place app]; rewrite ?app_nil_r; try reflexivity; change (seq 1 c ++ [S c] = seq 1 (S c)); rewrite seq_S; reflexivity.
Qed.
Lemma places_all x : map place (filter modifies (on x (map nth_event (seq 0 m)))) = match x with 1 => seq 1 K | 2 => seq 1 (K - 1) | _ => [] end.
Proof.
  pose proof K2. replace m with (3 * (K - 1) + 2) by lia. set (c := K - 1). rewrite seq_app, map_app. unfold on. rewrite filter_app, map_app, filter_app, map_app. fold (on x (map nth_event (seq 0 (3 * c)))). rewrite places_seq.
  assert (D : forall r, r < 3 -> (r + 3 * c) / 3 = c /\ (r + 3 * c) mod 3 = r).
  { intros r L. replace (r + 3 * c) with (r + c * 3) by lia. rewrite Nat.div_add, Nat.mod_add by lia. now rewrite Nat.div_small, Nat.mod_small by lia. }
  cbn [seq map]. unfold nth_event. change (0 + 3 * c) with (0 + 3 * c). change (S (0 + 3 * c)) with (1 + 3 * c).
  destruct (D 0 ltac:(lia)) as [-> ->], (D 1 ltac:(lia)) as [-> ->].
  destruct x as [|[|[|x]]]; cbn [filter ev object Nat.eqb map what modifies performed place app]; rewrite ?app_nil_r; try reflexivity.
  replace K with (S c) by lia. now rewrite seq_S.
Qed.
Lemma coherent_rounds i i' : i < i' -> i' < m -> object (nth_event i) = object (nth_event i') -> coherent (what (nth_event i)) (what (nth_event i')).
Proof.
  intros L L'. destruct (third i ltac:(lia)) as (_ & _ & D & B), (third i' L') as (_ & _ & D' & B'). unfold nth_event.
  revert D D' B B'. generalize (i / 3) (i mod 3) (i' / 3) (i' mod 3). intros q r q' r' D D' B B'.
  destruct r as [|[|[|r]]], r' as [|[|[|r']]]; cbn; try lia; intros O; try discriminate O; repeat split; cbn; intros; try discriminate; repeat match goal with H : Some _ = Some _ |- _ => injection H as <- end; lia.
Qed.
Lemma coherent_seq c x : forall s, s + c <= m -> ForallOrdPairs coherent (on x (map nth_event (seq s c))).
Proof.
  induction c as [|c IH]; intros s L; [constructor|]. cbn [seq map]. unfold on. cbn [filter]. destruct (object (nth_event s) =? x) eqn:Eo; [|apply IH; lia]. cbn [map]. constructor; [|apply IH; lia].
  apply Nat.eqb_eq in Eo. apply Forall_forall. intros a I. apply (on_in x) in I as (e & I & O & <-). apply in_map_iff in I as (i & <- & I). apply in_seq in I. apply coherent_rounds; lia || congruence.
Qed.
Lemma many_execution : mexecution (fun x => word_of (counters x)) many_contents many_n many_events.
Proof.
  pose proof K2 as HK. assert (Pow : (2 ^ w = N.of_nat K)%N) by lia. assert (Nz : (2 ^ w <> 0)%N) by lia.
  assert (Add : forall k, (wrap w (N.of_nat k mod 2 ^ w + wrap w 1) = N.of_nat (S k) mod 2 ^ w)%N).
  { intros k. unfold wrap. rewrite <- N.add_mod by exact Nz. f_equal. lia. }
  apply synchronized_within.
  - intros x. cbn [word_of counters]. split.
    + cbn [map many_events concat]. rewrite app_nil_r, filter_app, map_app, places_all. unfold many_n.
      destruct x as [|[|[|x]]]; cbn [on filter ev object Nat.eqb map what modifies performed place app]; rewrite ?app_nil_r; try apply Permutation_refl. rewrite seq_S. apply Permutation_refl.
    + intros e I M. cbn [map many_events concat] in I. rewrite app_nil_r in I. apply in_app_or in I as [I|I].
      * apply (on_in x) in I as (f & I & O & <-). apply in_map_iff in I as (i & <- & I). apply in_seq in I. destruct (third i ltac:(lia)) as (B1 & B2 & _ & B3).
        unfold many_contents. unfold nth_event in *. revert O M B1 B2 B3. generalize (i / 3) (i mod 3). intros q r O M B1 B2 B3. destruct r as [|[|[|r]]]; cbn [ev what modifies performed place got exec_prim] in *; try discriminate; try lia.
        -- rewrite Nat.sub_succ, Nat.sub_0_r, Add, (small q B1). reflexivity.
        -- unfold wrap. do 2 f_equal. lia.
      * apply (on_in x) in I as (f & I & O & <-). cbn in I. destruct I as [<-|[<-|[]]]; cbn in M; [|discriminate]. unfold many_contents. cbn [ev what performed place got exec_prim]. rewrite Nat.sub_succ, Nat.sub_0_r, Add. f_equal.
        rewrite <- Pow. now apply N.mod_same.
    + intros e I M. cbn [map many_events concat] in I. rewrite app_nil_r in I. apply in_app_or in I as [I|I].
      * apply (on_in x) in I as (f & I & O & <-). apply in_map_iff in I as (i & <- & I). apply in_seq in I. destruct (third i ltac:(lia)) as (B1 & B2 & _ & B3).
        unfold many_contents. unfold nth_event in *. revert O M B1 B2 B3. generalize (i / 3) (i mod 3). intros q r O M B1 B2 B3. destruct r as [|[|[|r]]]; cbn [ev what modifies performed place got object] in *; try discriminate; try lia.
        subst x. cbn [many_n]. split; [lia|]. symmetry. now apply small.
      * apply (on_in x) in I as (f & I & O & <-). cbn in I. destruct I as [<-|[<-|[]]]; cbn in M; [discriminate|]. cbn [ev what place got]. split; [lia|]. unfold many_contents. symmetry. exact (N.mod_0_l _ Nz).
    + cbn [map many_events]. constructor; [apply coherent_seq; lia|]. constructor; [|constructor]. destruct x as [|[|[|x]]]; cbn; repeat constructor.
  - intros [t i] [t' i'] (ea & eb & p & q & Ea & Eb & Ob & Rl & Ac & Wp & Rq & Le & _). unfold event_at in Ea, Eb. cbn [fst snd many_events nth_error] in Ea, Eb.
    assert (Ra : t = 0 /\ i < m /\ ea = nth_event i).
    { destruct t as [|[|t]]; cbn [nth_error] in Ea; [apply at_ev in Ea; tauto| |destruct t; discriminate Ea]. destruct i as [|[|i]]; cbn in Ea; [| |destruct i; discriminate Ea]; injection Ea as <-; discriminate Rl. }
    destruct Ra as (-> & Li & ->). destruct (third i Li) as (_ & _ & D & B).
    assert (Pa : i mod 3 = 2 /\ p = S (i / 3)).
    { revert Rl Wp D B. unfold nth_event. generalize (i / 3) (i mod 3). intros qq r Rl Wp D B. destruct r as [|[|[|r]]]; cbn in *; try discriminate; try lia. split; congruence. }
    destruct Pa as [M2 ->]. destruct t' as [|[|t']]; cbn [nth_error] in Eb; [| |destruct t'; discriminate Eb].
    + apply at_ev in Eb as [Li' ->]. split; [reflexivity|]. cbn. destruct (third i' Li') as (_ & _ & D' & B').
      revert Ac Rq D' B'. unfold nth_event. generalize (i' / 3) (i' mod 3). intros qq r Ac Rq D' B'. destruct r as [|[|[|r]]]; cbn in *; try discriminate; try lia. injection Rq as <-. lia.
    + exfalso. destruct i' as [|[|i']]; cbn in Eb; [| |destruct i'; discriminate Eb]; injection Eb as <-; [discriminate Ac|]. cbn in Rq. injection Rq as <-. lia.
  - intros e I. cbn [concat many_events] in I. rewrite app_nil_r in I. apply in_app_or in I as [I|I].
    + apply in_map_iff in I as (i & <- & _). unfold nth_event. destruct (i mod 3) as [|[|r]]; discriminate.
    + cbn in I. destruct I as [<-|[<-|[]]]; discriminate.
Qed.
Lemma many_run : shared_run counters zeros (map (map fst) many) many_contents many_n many_events [MThread None []; MThread None []] many.
Proof.
  pose proof K2 as HK. assert (Nz : (2 ^ w <> 0)%N) by lia. split.
  - intros x. cbn. lia.
  - intros x. assert (Z : many_contents x 0 = 0%N) by exact (N.mod_0_l _ Nz). unfold represents, counters, zeros. rewrite Z. split; [lia|]. symmetry. exact (N.mod_0_l _ Nz).
  - cbn [map many]. constructor; [|repeat constructor; cbn; try discriminate; lia]. rewrite map_map. apply Forall_forall. intros c I. apply in_map_iff in I as (i & <- & I). apply in_seq in I.
    destruct (third i ltac:(lia)) as (B1 & B2 & _ & B3). unfold nth_call. revert B1 B2 B3. generalize (i / 3) (i mod 3). intros q r B1 B2 B3. destruct r as [|[|[|r]]]; repeat constructor; cbn; try discriminate; lia.
  - unfold mstart. cbn [map many many_events]. apply map_more; [apply rounds_run; lia|]. apply map_more; [|apply map_none].
    apply mp_call. cbn. apply mp_do. assert (T0 : to_t w 0 = 0%N) by (unfold to_t, wrap; now apply N.mod_0_l). rewrite T0. apply mp_return. apply mp_call. cbn. apply mp_do. rewrite T0. apply mp_return. apply mp_stop.
  - exact many_execution.
Qed.
(** ** It keeps to the rules *)
Notation rs := (replies [@MThread call reply None []; MThread None []] many).
Lemma rs0 i co : nth_error (rs 0) i = Some co <-> i < m /\ co = nth_call i.
Proof. unfold replies. cbn [nth many nth_error pending mcur]. rewrite app_nil_r. apply at_call. Qed.
Lemma rs1 i co : nth_error (rs 1) i = Some co -> (i = 0 /\ co = (int 1 (AFetchAdd 1) (Some Relaxed), IntReply (Some 0%N))) \/ (i = 1 /\ co = (int 2 ALoad (Some Acquire), IntReply (Some 0%N))).
Proof. unfold replies. cbn. destruct i as [|[|i]]; cbn; [intros [= <-]; auto|intros [= <-]; auto|destruct i; discriminate]. Qed.
Lemma rs2 t i co : nth_error (rs (S (S t))) i = Some co -> False.
Proof. unfold replies. cbn. destruct t; cbn; destruct i; discriminate. Qed.
Lemma call0 j : nth_call (3 * j) = (int 1 (AFetchAdd 1) (Some Relaxed), IntReply (Some (N.of_nat j))).
Proof. unfold nth_call. replace (3 * j) with (0 + j * 3) by lia. rewrite Nat.div_add, Nat.mod_add by lia. reflexivity. Qed.
Lemma call1 j : nth_call (3 * j + 1) = (int 2 ALoad (Some Acquire), IntReply (Some (N.of_nat j))).
Proof. unfold nth_call. replace (3 * j + 1) with (1 + j * 3) by lia. rewrite Nat.div_add, Nat.mod_add by lia. reflexivity. Qed.
Lemma call2 j : nth_call (3 * j + 2) = (int 2 (AStore (N.of_nat j + 1)) (Some Release), IntReply None).
Proof. unfold nth_call. replace (3 * j + 2) with (2 + j * 3) by lia. rewrite Nat.div_add, Nat.mod_add by lia. reflexivity. Qed.
Lemma cases i : i < m -> exists j, j < K /\ (i = 3 * j \/ i = 3 * j + 1 \/ i = 3 * j + 2 /\ S j < K).
Proof. intros L. destruct (third i L) as (B1 & B2 & D & B). exists (i / 3). split; [exact B1|]. destruct (i mod 3) as [|[|[|r]]] eqn:E; try lia. Qed.
Lemma enters0 j : j < K -> enters 1 2 w rs 0 (3 * j) (3 * j + 1) (N.of_nat j).
Proof.
  intros L. split; [lia|]. split; [|split].
  - do 2 eexists. split; [apply rs0; split; [lia|symmetry; apply call0]|]. split; [reflexivity|]. split; [lia|reflexivity].
  - eexists. split; [apply rs0; split; [lia|symmetry; apply call1]|]. split; [reflexivity|]. eexists. repeat split; reflexivity.
  - intros k co B. lia.
Qed.
Lemma enters1 : enters 1 2 w rs 1 0 1 0.
Proof.
  split; [lia|]. split; [|split].
  - do 2 eexists. split; [reflexivity|]. split; [reflexivity|]. split; [apply N.neq_0_lt_0, N.pow_nonzero; discriminate|reflexivity].
  - eexists. split; [reflexivity|]. split; [reflexivity|]. eexists. repeat split; reflexivity.
  - intros k co B. lia.
Qed.
Lemma many_lock : ticket_lock 1 2 w rs counters zeros.
Proof.
  pose proof K2 as HK. split.
  - split; [discriminate|]. intros x _. split; [reflexivity|]. do 4 eexists. reflexivity.
  - intros [|[|t]] k co E T; [|apply rs1 in E as [[-> ->]|[-> ->]]; [reflexivity|discriminate T]|now apply rs2 in E].
    apply rs0 in E as [L ->]. destruct (cases k L) as (j & _ & [-> |[-> |[-> _]]]); [rewrite call0 in *; reflexivity|rewrite call1 in T; discriminate T|rewrite call2 in T; discriminate T].
  - intros [|[|t]] k co E M; [|apply rs1 in E as [[-> ->]|[-> ->]]; discriminate M|now apply rs2 in E].
    apply rs0 in E as [L ->]. destruct (cases k L) as (j & Lj & [-> |[-> |[-> Lj']]]); [rewrite call0 in M; discriminate M|rewrite call1 in M; discriminate M|].
    exists (3 * j), (3 * j + 1), (N.of_nat j). split; [now apply enters0|]. split; [lia|]. split; [intros k co B; lia|]. left. rewrite call2. split; [reflexivity|]. eexists. split; [reflexivity|]. left. cbn.
    f_equal. symmetry. apply N.mod_small. lia.
  - intros [|[|t]] d d' co co' L E E' M M'; [| |now apply rs2 in E].
    + apply rs0 in E as [B ->]. apply rs0 in E' as [B' ->]. destruct (cases d B) as (j & _ & [-> |[-> |[-> _]]]); [|rewrite call1 in M; discriminate M|rewrite call2 in M; discriminate M].
      destruct (cases d' B') as (j' & _ & [-> |[-> |[-> _]]]); [|rewrite call1 in M'; discriminate M'|rewrite call2 in M'; discriminate M'].
      exists (3 * j + 2). split; [lia|]. eexists. split; [apply rs0; split; [lia|symmetry; apply call2]|]. reflexivity.
    + apply rs1 in E as [[-> ->]|[-> ->]]; [|discriminate M]. apply rs1 in E' as [[-> ->]|[-> ->]]; [lia|discriminate M'].
Qed.
Lemma many_orders : serving_release_acquire 2 rs.
Proof.
  intros [|[|t]] k co E T; [|apply rs1 in E as [[-> ->]|[-> ->]]; [discriminate T|split; cbn; congruence]|now apply rs2 in E].
  apply rs0 in E as [L ->]. destruct (cases k L) as (j & _ & [-> |[-> |[-> _]]]); [rewrite call0 in T; discriminate T|rewrite call1|rewrite call2]; split; cbn; congruence.
Qed.
Lemma draws_seq c : number 1 adds_one (map nth_call (seq 0 (3 * c))) = c.
Proof.
  induction c as [|c IH]; [reflexivity|]. replace (3 * S c) with (3 * c + 3) by lia. rewrite seq_app, map_app. unfold number in *. rewrite filter_app, app_length, IH. cbn [seq map plus Nat.add].
  replace (S (3 * c)) with (3 * c + 1) by lia. replace (S (3 * c + 1)) with (3 * c + 2) by lia. rewrite call0, call1, call2. cbn. lia.
Qed.
Lemma many_made : made rs 2 1 adds_one = S K.
Proof.
  pose proof K2. unfold made. cbn [seq map list_sum fold_right]. replace (rs 0) with (map nth_call (seq 0 m)) by (unfold replies; cbn [nth many nth_error pending mcur]; now rewrite app_nil_r).
  change (number 1 adds_one (rs 1)) with 1. replace m with (3 * (K - 1) + 2) by lia. set (c := K - 1). rewrite seq_app, map_app. unfold number. rewrite filter_app, app_length. fold (number 1 adds_one (map nth_call (seq 0 (3 * c)))). rewrite draws_seq.
  cbn [seq map plus Nat.add]. replace (S (3 * c)) with (3 * c + 1) by lia. rewrite call0, call1. cbn. lia.
Qed.
Lemma nobody_leaves t l k : t = 0 /\ l = 3 * K - 2 \/ t = 1 -> l < k -> ~ leaves 2 rs t k.
Proof.
  pose proof K2. intros H0 L (co & E & M). destruct H0 as [[-> ->]| ->]; [apply rs0 in E as [B _]; lia|]. apply rs1 in E as [[-> ->]|[-> ->]]; discriminate M.
Qed.
End Rounds.
