(** Calls without races take effect in turn, whatever their memory orders. *)
From Coq Require Import Permutation.
From Verif Require Import Base BaseLemmas BitModel BitsetModel BitsetSpec BitsetProofs ConcModel RelaxedModel RelaxedProofs AtomicModel AtomicSpec AtomicProofs.
From Verif Require Import AtomicBitsetModel AtomicBitsetSpec AtomicBitsetProofs AtomicProps MultiModel MultiSpec MultiProofs MultiProofs2 MultiProofs3 MultiProofs4 MultiProofs5.
Open Scope nat_scope.

(** * Sorting by a transitive relation *)
Lemma insert_before {A} (R : A -> A -> Prop) (trans : forall a b c, R a b -> R b c -> R a c) (irr : forall a, ~ R a a) (dec : forall a b, R a b \/ ~ R a b) a :
  forall l, ForallOrdPairs (fun x y => ~ R y x) l -> exists l', Permutation (a :: l) l' /\ ForallOrdPairs (fun x y => ~ R y x) l'.
Proof.
  induction l as [|b l IH]; intros H; [exists [a]; split; [reflexivity|repeat constructor]|]. inversion H as [|? ? Hb Hl]; subst.
  destruct (dec a b) as [D|D].
  - exists (a :: b :: l). split; [reflexivity|]. constructor; [|exact H]. constructor; [intros E; exact (irr a (trans _ _ _ D E))|].
    rewrite Forall_forall in *. intros x I E. exact (Hb x I (trans _ _ _ E D)).
  - destruct (IH Hl) as (l' & P & S). exists (b :: l'). split; [transitivity (b :: a :: l); [apply perm_swap|now apply perm_skip]|]. constructor; [|exact S].
    apply Forall_forall. intros x I. apply (Permutation_in _ (Permutation_sym P)) in I. rewrite Forall_forall in Hb. destruct I as [<-|I]; [exact D|now apply Hb].
Qed.
Lemma sort_by {A} (R : A -> A -> Prop) (trans : forall a b c, R a b -> R b c -> R a c) (irr : forall a, ~ R a a) (dec : forall a b, R a b \/ ~ R a b) l :
  exists l', Permutation l l' /\ ForallOrdPairs (fun x y => ~ R y x) l'.
Proof.
  induction l as [|a l (l0 & P0 & S0)]; [exists []; split; constructor|]. destruct (insert_before R trans irr dec a l0 S0) as (l' & P & S).
  exists l'. split; [|exact S]. transitivity (a :: l0); [now apply perm_skip|exact P].
Qed.

(** * Reachability is decidable *)
Section Reach.
Context {A : Type} (S : A -> A -> Prop) (dec : forall a b, S a b \/ ~ S a b).
Fixpoint reach (mids : list A) (a b : A) : Prop :=
  match mids with [] => S a b | c :: r => reach r a b \/ reach r a c /\ reach r c b end.
Lemma reach_dec mids : forall a b, reach mids a b \/ ~ reach mids a b.
Proof. induction mids as [|c r IH]; intros a b; cbn; [apply dec|]. destruct (IH a b), (IH a c), (IH c b); tauto. Qed.
Lemma reach_step mids : forall a b, S a b -> reach mids a b.
Proof. induction mids as [|c r IH]; intros a b H; cbn; [exact H|]. left. now apply IH. Qed.
Lemma reach_trans mids : forall a c b, In c mids -> reach mids a c -> reach mids c b -> reach mids a b.
Proof.
  induction mids as [|d r IH]; intros a c b I H1 H2; [destruct I|]. cbn in *. destruct I as [->|I].
  - right. split; tauto.
  - destruct H1 as [H1|[H1 H1']], H2 as [H2|[H2 H2']].
    + left. eapply IH; eassumption.
    + right. split; [eapply IH; eassumption|exact H2'].
    + right. split; [exact H1|eapply IH; eassumption].
    + right. split; assumption.
Qed.
End Reach.

(** * The names of all events *)
Definition names (evss : list (list mevent)) : list name := concat (map (fun i => map (pair i) (seq 0 (length (nth i evss [])))) (seq 0 (length evss))).
Lemma event_at_nth evss a : event_at evss a = nth_error (nth (fst a) evss []) (snd a).
Proof.
  unfold event_at. destruct (nth_error evss (fst a)) as [evs|] eqn:E; [now rewrite (nth_error_nth _ _ _ E)|].
  apply nth_error_None in E. rewrite nth_overflow by exact E. now destruct (snd a).
Qed.
Lemma names_in evss a : In a (names evss) <-> event_at evss a <> None.
Proof.
  rewrite event_at_nth, nth_error_Some. unfold names. rewrite in_concat. split.
  - intros (l & I1 & I2). apply in_map_iff in I1 as (i & <- & I1). apply in_map_iff in I2 as (j & <- & I2). apply in_seq in I2. cbn. lia.
  - intros L. destruct a as [i j]. cbn in L. exists (map (pair i) (seq 0 (length (nth i evss [])))). split.
    + apply in_map_iff. exists i. split; [reflexivity|]. apply in_seq. destruct (Nat.lt_ge_cases i (length evss)) as [|G]; [lia|]. rewrite nth_overflow in L by exact G. cbn in L. lia.
    + apply in_map, in_seq. lia.
Qed.
Lemma filter_pair i j (l : list nat) : filter (fun a : name => fst a =? i) (map (pair j) l) = if j =? i then map (pair j) l else [].
Proof. induction l as [|k l IH]; cbn; [now destruct (j =? i)|]. rewrite IH. now destruct (j =? i). Qed.
Lemma filter_concat_map {A} (f : A -> bool) (ls : list (list A)) : concat (map (filter f) ls) = filter f (concat ls).
Proof. induction ls as [|l ls IH]; [reflexivity|]. cbn. now rewrite filter_app, IH. Qed.
Lemma names_of evss i : filter (fun a => fst a =? i) (names evss) = map (pair i) (seq 0 (length (nth i evss []))).
Proof.
  unfold names. rewrite <- filter_concat_map. rewrite map_map.
  assert (K : forall m s, concat (map (fun j => filter (fun a : name => fst a =? i) (map (pair j) (seq 0 (length (nth j evss []))))) (seq s m)) =
    if (s <=? i) && (i <? s + m) then map (pair i) (seq 0 (length (nth i evss []))) else []).
  { induction m as [|m IH]; intros s; cbn [seq map concat].
    - destruct (Nat.leb_spec s i), (Nat.ltb_spec i (s + 0)); cbn; try reflexivity. lia.
    - rewrite IH, filter_pair. destruct (Nat.eqb_spec s i) as [->|N].
      + destruct (Nat.leb_spec (S i) i), (Nat.leb_spec i i), (Nat.ltb_spec i (i + S m)); cbn; try lia. apply app_nil_r.
      + destruct (Nat.leb_spec (S s) i), (Nat.leb_spec s i), (Nat.ltb_spec i (S s + m)), (Nat.ltb_spec i (s + S m)); cbn; try lia; reflexivity. }
  rewrite K. destruct (Nat.leb_spec 0 i), (Nat.ltb_spec i (0 + length evss)); cbn; try reflexivity; try lia. rewrite nth_overflow by lia. reflexivity.
Qed.
Lemma increasing_seq l : forall a k, Permutation l (seq a k) -> ForallOrdPairs (fun x y => ~ y < x) l -> l = seq a k.
Proof.
  induction l as [|x l IH]; intros a k P O; [apply Permutation_nil in P; now rewrite P|]. destruct k as [|k]; [apply Permutation_sym, Permutation_nil in P; discriminate|].
  inversion O as [|? ? O1 O2]; subst. rewrite Forall_forall in O1. cbn [seq] in *.
  assert (x = a).
  { assert (I1 : In a (x :: l)) by (eapply Permutation_in; [apply Permutation_sym, P|now left]). destruct I1 as [I1|I1]; [exact I1|].
    assert (I2 : In x (a :: seq (S a) k)) by (eapply Permutation_in; [exact P|now left]). destruct I2 as [I2|I2]; [easy|]. apply in_seq in I2. exfalso. apply (O1 a I1). lia. }
  subst x. f_equal. apply IH; [now apply Permutation_cons_inv in P|exact O2].
Qed.

(** * Happens-before in an execution *)
Section Exec.
Context (w : nat -> N) (contents : nat -> nat -> N) (n : nat -> nat) (evss : list (list mevent)) (X : mexecution w contents n evss).

Lemma hb_split a b : happens_before evss a b -> sequenced a b \/ exists c d, (a = c \/ happens_before evss a c) /\ synchronizes evss c d /\ (d = b \/ happens_before evss d b).
Proof.
  induction 1 as [a b H|a b H|a b c H1 IH1 H2 IH2].
  - now left.
  - right. exists a, b. auto.
  - destruct IH1 as [S1|(p & q & P1 & S1 & Q1)].
    + destruct IH2 as [S2|(p & q & P2 & S2 & Q2)].
      * left. destruct S1, S2. split; [congruence|lia].
      * right. exists p, q. split; [|auto]. right. destruct P2 as [<-|P2]; [exact H1|eapply hb_then; eassumption].
    + right. exists p, q. split; [exact P1|]. split; [exact S1|]. right. destruct Q1 as [->|Q1]; [exact H2|eapply hb_then; eassumption].
Qed.
Lemma hb_irreflexive a : ~ happens_before evss a a.
Proof.
  intros H. destruct (hb_split a a H) as [[_ L]|(c & d & Hc & S & Hd)]; [lia|].
  assert (C : happens_before evss c c).
  { assert (D : happens_before evss c d) by now apply hb_synchronizes.
    assert (E : happens_before evss c a) by (destruct Hd as [<-|Hd]; [exact D|eapply hb_then; eassumption]).
    destruct Hc as [<-|Hc]; [exact E|eapply hb_then; eassumption]. }
  destruct S as (ec & ed & i & j & Ec & _ & _ & _ & _ & Wc & _). destruct (hb_coherence _ _ _ _ X c c ec ec C Ec Ec eq_refl) as [W _]. pose proof (W i i Wc Wc). lia.
Qed.
Lemma forall_in_dec {A} (P : A -> Prop) (l : list A) : (forall a, P a \/ ~ P a) -> (forall a, In a l -> P a) \/ ~ (forall a, In a l -> P a).
Proof.
  intros D. induction l as [|a l IH]; [left; intros ? []|]. destruct (D a) as [Da|Da]; [|right; intros H; apply Da, H; now left].
  destruct IH as [IH|IH]; [left; intros b [<-|I]; auto|right; intros H; apply IH; intros b I; apply H; now right].
Qed.
Lemma synchronizes_dec a b : synchronizes evss a b \/ ~ synchronizes evss a b.
Proof.
  destruct (event_at evss a) as [ea|] eqn:Ea; [|right; intros (? & ? & ? & ? & H & _); congruence].
  destruct (event_at evss b) as [eb|] eqn:Eb; [|right; intros (? & ? & ? & ? & _ & H & _); congruence].
  destruct (writes_at (what ea)) as [i|] eqn:Wi; [|right; intros (e1 & e2 & ? & ? & H1 & H2 & _ & _ & _ & H & _); congruence].
  destruct (reads_at (what eb)) as [j|] eqn:Rj; [|right; intros (e1 & e2 & ? & ? & H1 & H2 & _ & _ & _ & _ & H & _); congruence].
  set (Q e := object e = object ea -> forall k, writes_at (what e) = Some k -> i < k <= j -> reads_at (what e) <> None).
  assert (DQ : (forall e, In e (concat evss) -> Q e) \/ ~ (forall e, In e (concat evss) -> Q e)).
  { apply forall_in_dec. intros e. unfold Q. destruct (Nat.eq_dec (object e) (object ea)) as [O|O]; [|left; congruence].
    destruct (writes_at (what e)) as [k|]; [|left; congruence]. destruct (le_lt_dec k i) as [L|L]; [left; intros _ k' E B; injection E as <-; lia|].
    destruct (le_lt_dec k j) as [L2|L2]; [|left; intros _ k' E B; injection E as <-; lia]. destruct (reads_at (what e)) as [r|]; [left; congruence|].
    right. intros H. apply (H O k eq_refl); [lia|reflexivity]. }
  destruct (Nat.eq_dec (object ea) (object eb)) as [O|O]; [|right; intros (e1 & e2 & ? & ? & H1 & H2 & H & _); congruence].
  destruct (releases (order ea)) eqn:Re; [|right; intros (e1 & e2 & ? & ? & H1 & H2 & _ & H & _); congruence].
  destruct (acquires (order eb)) eqn:Ac; [|right; intros (e1 & e2 & ? & ? & H1 & H2 & _ & _ & H & _); congruence].
  destruct (le_lt_dec i j) as [L|L]; [|right; intros (e1 & e2 & i' & j' & H1 & H2 & _ & _ & _ & H3 & H4 & H & _)].
  2:{ assert (e1 = ea) by congruence. assert (e2 = eb) by congruence. subst. assert (i' = i) by congruence. assert (j' = j) by congruence. lia. }
  destruct DQ as [Y|N].
  - left. exists ea, eb, i, j. repeat (split; [assumption|]). intros e k I Oe. now apply Y.
  - right. intros (e1 & e2 & i' & j' & H1 & H2 & _ & _ & _ & H3 & H4 & _ & H). assert (e1 = ea) by congruence. assert (e2 = eb) by congruence. subst.
    assert (i' = i) by congruence. assert (j' = j) by congruence. subst. apply N. intros e I Oe k. now apply H.
Qed.
Definition step (a b : name) : Prop := sequenced a b \/ synchronizes evss a b.
Lemma step_dec a b : step a b \/ ~ step a b.
Proof.
  unfold step, sequenced. destruct (synchronizes_dec a b); [tauto|]. destruct (Nat.eq_dec (fst a) (fst b)); [|tauto]. destruct (le_lt_dec (snd b) (snd a)); [|tauto]. right. intros [[_ L]|S]; [lia|tauto].
Qed.
Lemma reach_hb mids : forall a b, reach step mids a b -> happens_before evss a b.
Proof. induction mids as [|c r IH]; intros a b; cbn; [intros [H|H]; [now apply hb_sequenced|now apply hb_synchronizes]|]. intros [H|[H1 H2]]; [now apply IH|eapply hb_then; apply IH; eassumption]. Qed.
Lemma hb_event a b : happens_before evss a b -> event_at evss b <> None -> event_at evss a <> None.
Proof.
  induction 1 as [a b [F L]|a b H|a b c H1 IH1 H2 IH2].
  - rewrite !event_at_nth, !nth_error_Some, F. lia.
  - destruct H as (ea & eb & i & j & E & _). congruence.
  - auto.
Qed.
Lemma hb_reach a b : happens_before evss a b -> event_at evss b <> None -> reach step (names evss) a b.
Proof.
  induction 1 as [a b H|a b H|a b c H1 IH1 H2 IH2]; intros E.
  - apply reach_step. now left.
  - apply reach_step. now right.
  - assert (event_at evss b <> None) by exact (hb_event b c H2 E). apply (reach_trans step (names evss) a b c); [now apply names_in|now apply IH1|now apply IH2].
Qed.
Lemma hb_dec a b : event_at evss b <> None -> happens_before evss a b \/ ~ happens_before evss a b.
Proof. intros E. destruct (reach_dec step step_dec (names evss) a b) as [H|H]; [left; eapply reach_hb; exact H|right; intros G; apply H; now apply hb_reach]. Qed.

(** One order of all events that keeps happens-before. *)
Definition event_of_name (a : name) : list (nat * mevent) := match event_at evss a with Some e => [(fst a, e)] | None => [] end.
Lemma one_order : exists l, Permutation (names evss) l /\ ForallOrdPairs (fun a b => ~ happens_before evss b a) l /\ merges (concat (map event_of_name l)) evss.
Proof.
  set (R a b := happens_before evss a b /\ event_at evss b <> None).
  assert (Tr : forall a b c, R a b -> R b c -> R a c) by (intros a b c [H1 _] [H2 E]; split; [eapply hb_then; eassumption|exact E]).
  assert (Ir : forall a, ~ R a a) by (intros a [H _]; exact (hb_irreflexive a H)).
  assert (De : forall a b, R a b \/ ~ R a b).
  { intros a b. unfold R. destruct (event_at evss b) eqn:E; [|right; intros [_ H]; congruence]. destruct (hb_dec a b) as [H|H]; [congruence|left; split; congruence|right; tauto]. }
  destruct (sort_by R Tr Ir De (names evss)) as (l & P & O). exists l. split; [exact P|].
  assert (N : forall a, In a l -> event_at evss a <> None) by (intros a I; apply names_in; eapply Permutation_in; [apply Permutation_sym, P|exact I]).
  assert (O' : ForallOrdPairs (fun a b => ~ happens_before evss b a) l).
  { clear P. induction O as [|a l Ha Hl IH]; constructor; [|apply IH; intros; apply N; now right]. rewrite Forall_forall in *. intros b I H. apply (Ha b I). split; [exact H|]. apply N. now left. }
  split; [exact O'|]. intros i.
  assert (Fi : filter (fun a => fst a =? i) l = map (pair i) (seq 0 (length (nth i evss [])))).
  { assert (Pi : Permutation (filter (fun a => fst a =? i) l) (map (pair i) (seq 0 (length (nth i evss []))))).
    { rewrite <- names_of. apply perm_filter. now apply Permutation_sym. }
    assert (Oi : ForallOrdPairs (fun a b => ~ happens_before evss b a) (filter (fun a => fst a =? i) l)) by now apply FOP_filter.
    assert (Fst : forall a, In a (filter (fun a => fst a =? i) l) -> fst a = i) by (intros a I; apply filter_In in I as [_ I]; now apply Nat.eqb_eq).
    assert (Eq : filter (fun a => fst a =? i) l = map (pair i) (map snd (filter (fun a => fst a =? i) l))).
    { clear Pi Oi. induction (filter (fun a => fst a =? i) l) as [|[x y] r IH]; [reflexivity|]. cbn. rewrite <- IH by (intros; apply Fst; now right). pose proof (Fst (x, y) (or_introl eq_refl)) as E. cbn in E. now subst. }
    rewrite Eq. f_equal. apply increasing_seq.
    - apply (Permutation_map snd) in Pi. rewrite map_map in Pi. cbn in Pi. now rewrite map_id in Pi.
    - apply FOP_map. clear Eq Pi. induction Oi as [|a r Ha Hr IH]; constructor; [|apply IH; intros; apply Fst; now right].
      rewrite Forall_forall in *. intros b I L. apply (Ha b I). apply hb_sequenced. split; [|exact L]. rewrite (Fst a), (Fst b); [reflexivity|now right|now left]. }
  assert (G : forall r, map snd (filter (fun e => fst e =? i) (concat (map event_of_name r))) = concat (map (fun a => match event_at evss a with Some e => [e] | None => [] end) (filter (fun a => fst a =? i) r))).
  { induction r as [|a r IH]; [reflexivity|]. cbn [map concat filter]. rewrite filter_app, map_app, IH. unfold event_of_name.
    destruct (fst a =? i) eqn:E; cbn [map concat]; destruct (event_at evss a) as [e|]; cbn [filter map fst snd app]; rewrite ?E; reflexivity. }
  rewrite G, Fi, map_map. clear.
  assert (K : forall evs s, (forall j, nth_error evs j = event_at evss (i, s + j)) -> concat (map (fun j => match event_at evss (i, j) with Some e => [e] | None => [] end) (seq s (length evs))) = evs).
  { induction evs as [|e evs IH]; intros s H; [reflexivity|]. cbn [length seq map concat]. pose proof (H 0) as H0. rewrite Nat.add_0_r in H0. cbn in H0. rewrite <- H0. cbn. f_equal. apply IH.
    intros j. specialize (H (S j)). rewrite Nat.add_succ_r in H. exact H. }
  apply K. intros j. now rewrite event_at_nth.
Qed.

(** * Without races the events on some objects follow one another *)
Context (P : nat -> bool).
Definition conflict (a b : mevent) : Prop := object a = object b /\ P (object a) = true /\ (modifies (what a) = true \/ modifies (what b) = true).
Context (Race : forall a b ea eb, event_at evss a = Some ea -> event_at evss b = Some eb -> fst a <> fst b -> conflict ea eb -> happens_before evss a b \/ happens_before evss b a).

Lemma ordered a b ea eb : event_at evss a = Some ea -> event_at evss b = Some eb -> a <> b -> conflict ea eb -> happens_before evss a b \/ happens_before evss b a.
Proof.
  intros Ea Eb N C. destruct (Nat.eq_dec (fst a) (fst b)) as [F|F]; [|eapply Race; eassumption].
  destruct (Nat.lt_trichotomy (snd a) (snd b)) as [L|[L|L]]; [left; apply hb_sequenced; now split|exfalso; apply N; destruct a, b; cbn in *; congruence|right; apply hb_sequenced; now split].
Qed.
Lemma in_place a b ea eb : event_at evss a = Some ea -> event_at evss b = Some eb -> a <> b -> ~ happens_before evss b a -> P (object ea) = true -> unbroken ea eb.
Proof.
  intros Ea Eb N H Po O.
  assert (Nb : happens_before evss a b -> ~ coherence_before (what eb) (what ea)).
  { intros H1. apply coherent_not_before. exact (hb_coherence _ _ _ _ X a b ea eb H1 Ea Eb O). }
  destruct (modifies (what ea)) eqn:Ma; [|destruct (modifies (what eb)) eqn:Mb].
  - destruct (ordered a b ea eb Ea Eb N) as [H1|H1]; [split; auto|auto|contradiction].
  - destruct (ordered a b ea eb Ea Eb N) as [H1|H1]; [split; auto|auto|contradiction].
  - (* two loads: the modification that the one reads comes after the other *)
    assert (Wa : writes_at (what ea) = None) by (unfold writes_at; now rewrite Ma). assert (Wb : writes_at (what eb) = None) by (unfold writes_at; now rewrite Mb).
    intros [(i & j & H1 & _)|[(i & j & H1 & _)|[(i & j & _ & H1 & _)|(i & j & H1 & H2 & L)]]]; try congruence.
    assert (Ra : reads_at (what ea) = Some (place (what ea))) by (unfold modifies in Ma; unfold reads_at; now destruct (performed (what ea))).
    assert (Ej : j = place (what ea)) by congruence.
    assert (Hj : 1 <= j <= n (object ea)).
    { split; [lia|]. destruct (loaded w contents n evss X ea) as [L1 _]; [apply event_at_in; eauto|exact Ma|]. lia. }
    assert (HW : exists e, In e (concat evss) /\ object e = object ea /\ modifies (what e) = true /\ place (what e) = j).
    { pose proof (places w contents n evss X (object ea)) as Pm. assert (I : In j (map place (filter modifies (on (object ea) (concat evss))))) by (eapply Permutation_in; [apply Permutation_sym, Pm|apply in_seq; lia]).
      apply in_map_iff in I as (x & E & I). apply filter_In in I as [I M]. apply on_in in I as (e & I & Oe & <-). eauto. }
    destruct HW as (e & I & Oe & Me & Pe). apply event_at_in in I as (c & Ec).
    assert (We : writes_at (what e) = Some j) by (apply writes_place; auto).
    assert (Na : c <> a) by (intros ->; congruence). assert (Nc : c <> b) by (intros ->; congruence).
    destruct (ordered c a e ea Ec Ea Na) as [H3|H3]; [repeat split; [auto|congruence|auto]| |].
    + destruct (ordered c b e eb Ec Eb Nc) as [H4|H4]; [repeat split; [congruence|congruence|auto]| |].
      * destruct (hb_coherence _ _ _ _ X c b e eb H4 Ec Eb ltac:(congruence)) as (_ & _ & _ & C). pose proof (C j i We H1). lia.
      * apply H. eapply hb_then; eassumption.
    + destruct (hb_coherence _ _ _ _ X a c ea e H3 Ea Ec ltac:(congruence)) as (_ & _ & C & _). pose proof (C j j H2 We). lia.
Qed.
Definition on_P (a : name) : bool := match event_at evss a with Some e => P (object e) | None => false end.
Lemma names_once : NoDup (names evss).
Proof.
  unfold names. clear.
    assert (K : forall m s, NoDup (concat (map (fun i => map (pair i) (seq 0 (length (nth i evss [])))) (seq s m))) /\ forall a, In a (concat (map (fun i => map (pair i) (seq 0 (length (nth i evss [])))) (seq s m))) -> s <= fst a).
    { induction m as [|m IH]; intros s; cbn [seq map concat]; [split; [constructor|intros a []]|]. destruct (IH (S s)) as [D B].
      assert (D1 : forall r, NoDup r -> NoDup (map (@pair nat nat s) r)).
      { induction 1 as [|x r N H IHr]; cbn; constructor; [|exact IHr]. intros I. apply in_map_iff in I as (y & E & I). injection E as ->. contradiction. }
      assert (D2 : forall r t : list name, NoDup r -> NoDup t -> (forall a, In a r -> In a t -> False) -> NoDup (r ++ t)).
      { induction 1 as [|x r N H IHr]; intros Ht Hd; cbn; [exact Ht|]. constructor; [|apply IHr; [exact Ht|intros a I1 I2; apply (Hd a); [now right|exact I2]]].
        intros I. apply in_app_or in I as [I|I]; [contradiction|]. apply (Hd x); [now left|exact I]. }
      split.
      - apply D2; [apply D1, seq_NoDup|exact D|]. intros a I1 I2. apply in_map_iff in I1 as (j & <- & _). apply B in I2. cbn in I2. lia.
      - intros a I. apply in_app_or in I as [I|I]; [apply in_map_iff in I as (j & <- & _); cbn; lia|]. apply B in I. lia. }
    apply K.
Qed.
Lemma one_order_on : exists l, NoDup l /\ (forall a, In a l <-> exists e, event_at evss a = Some e /\ P (object e) = true) /\
  ForallOrdPairs (fun a b => ~ happens_before evss b a) l /\
  merges (concat (map event_of_name l)) (map (filter (fun e => P (object e))) evss) /\ ForallOrdPairs unbroken (map snd (concat (map event_of_name l))).
Proof.
  destruct one_order as (l & Pl & O & M). exists (filter on_P l).
  assert (D : NoDup (filter on_P l)) by (apply NoDup_filter; eapply Permutation_NoDup; [exact Pl|exact names_once]).
  assert (O' : ForallOrdPairs (fun a b => ~ happens_before evss b a) (filter on_P l)) by now apply FOP_filter.
  assert (In' : forall a, In a (filter on_P l) -> exists e, event_at evss a = Some e /\ P (object e) = true).
  { intros a I. apply filter_In in I as [_ I]. unfold on_P in I. destruct (event_at evss a) as [e|]; [eauto|discriminate]. }
  split; [exact D|]. split; [|split; [exact O'|split]].
  - intros a. split; [apply In'|]. intros (e & E & Po). apply filter_In. split; [|unfold on_P; now rewrite E]. eapply Permutation_in; [exact Pl|]. apply names_in. congruence.
  - intros i. change [] with (filter (fun e => P (object e)) []). rewrite map_nth, <- (M i).
    clear. induction l as [|a l IH]; [reflexivity|].
    assert (Ea : event_of_name a = match event_at evss a with Some e => [(fst a, e)] | None => [] end) by reflexivity.
    assert (Eb : on_P a = match event_at evss a with Some e => P (object e) | None => false end) by reflexivity.
    cbn [map concat filter]. rewrite Eb. destruct (event_at evss a) as [e|]; [|rewrite Ea; exact IH].
    rewrite Ea. cbn [app filter fst]. destruct (P (object e)) eqn:Pe; cbn [map concat]; rewrite ?Ea; cbn [app filter fst]; destruct (fst a =? i); cbn [map filter snd]; rewrite ?Pe; now rewrite IH.
  - apply FOP_map. clear M Pl O. induction O' as [|a r Ha Hr IH]; [constructor|]. inversion D as [|? ? Na D']; subst. specialize (IH D' ltac:(intros; apply In'; now right)). cbn [map concat]. unfold event_of_name at 1.
    destruct (event_at evss a) as [ea|] eqn:Ea; [|exact IH]. cbn [app]. constructor; [|exact IH].
    apply Forall_forall. intros [t eb] I. apply in_concat in I as (q & I1 & I2). apply in_map_iff in I1 as (b & <- & I1). unfold event_of_name in I2.
    destruct (event_at evss b) as [eb'|] eqn:Eb; [|destruct I2]. destruct I2 as [E|[]]. injection E as _ <-. cbn. rewrite Forall_forall in Ha.
    apply (in_place a b ea eb' Ea Eb); [intros ->; contradiction|apply Ha; exact I1|]. destruct (In' a (or_introl eq_refl)) as (e & E & Po). congruence.
Qed.
End Exec.
