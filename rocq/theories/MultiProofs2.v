(** The calls of atomic and atomic_bitset as calls on several objects; publication. *)
From Coq Require Import Permutation.
From Verif Require Import Base BaseLemmas BitModel BitsetModel BitsetSpec BitsetProofs ConcModel RelaxedModel RelaxedProofs AtomicModel AtomicSpec AtomicProofs.
From Verif Require Import AtomicBitsetModel AtomicBitsetSpec AtomicBitsetProofs AtomicProps MultiModel MultiSpec MultiProofs.
Open Scope nat_scope.

Definition prim_access (p : prim) : access := match p with PLoad => Reads | PStore _ => Replaces | _ => Changes end.
Definition ends {A} (q : prog A) : Prop := match q with Do _ _ => False | _ => True end.
Lemma need_ends {A} (x : option A) k : (forall a, ends (k a)) -> ends (need x k).
Proof. destruct x; cbn; auto. Qed.
Lemma as_bitset_ends n w same64 x : ends (as_bitset n w same64 x).
Proof. apply need_ends. intros. exact I. Qed.
Lemma salient_ends pl n w r k : (forall a, ends (k a)) -> ends (salient pl n w r k).
Proof. intros H. apply need_ends. auto. Qed.
Lemma abcode_shape pl n w sw same64 op p k : abcode pl n w sw same64 op = Do p k -> prim_access p = bits_access op /\ forall r, ends (k r).
Proof.
  destruct op; cbn [abcode]; unfold set_range_code, reset_range_code, flip_range_code; intros E;
    repeat match type of E with need ?x _ = _ => destruct x; cbn [need] in E; [|discriminate E] | (if ?b then _ else _) = _ => destruct b end;
    try discriminate E; injection E as <- <-; (split; [reflexivity|]); intros r;
    repeat first [exact I | apply as_bitset_ends | apply salient_ends; intros | apply need_ends; intros].
Qed.
Lemma acode_shape int_w w ew sg esg op p k : acode int_w w ew sg esg op = Do p k -> prim_access p = int_access op /\ forall r, ends (k r).
Proof.
  destruct op; cbn [acode]; intros E; injection E as <- <-; (split; [reflexivity|]); intros r; unfold ret;
    repeat match goal with |- context [match ?x with Some _ => _ | None => _ end] => destruct x end; exact I.
Qed.
Lemma on_object_ends {A Out} (f : A -> Out) x mo q : ends q -> (exists o, on_object f x mo q = MRet o) \/ on_object f x mo q = MBad.
Proof. destruct q; cbn; intros H; [left; eauto|now right|destruct H]. Qed.
Lemma bits_order_wanted b : order_ok (BitsCall b) -> bits_order b = Some (wanted (BitsCall b)).
Proof. intros [_ H]. destruct b as [op [mo|]|]; [destruct op; cbn in *; try reflexivity; destruct H|destruct op; reflexivity|reflexivity]. Qed.
Lemma int_order_wanted i : order_ok (IntCall i) -> int_order i = Some (wanted (IntCall i)).
Proof. intros [_ H]. destruct i as [op [mo|]|]; [destruct op; cbn in *; try reflexivity; destruct H|destruct op; reflexivity|reflexivity]. Qed.
Lemma order_allowed r p : order_ok r -> prim_access p = access_of r -> allowed p (wanted r) = true.
Proof.
  intros [H _] E. rewrite <- E in H. clear E. destruct p; cbn in *; destruct (wanted r); cbn in *; try reflexivity; exfalso; destruct H as [H H1]; try destruct H1; congruence.
Qed.

Lemma abcode_no_ret pl n w sw same64 op o : abcode pl n w sw same64 op <> Ret o.
Proof.
  destruct op; cbn [abcode]; unfold set_range_code, reset_range_code, flip_range_code; intros E;
    repeat match type of E with need ?x _ = _ => destruct x; cbn [need] in E; [|discriminate E] | (if ?b then _ else _) = _ => destruct b end; discriminate E.
Qed.
Lemma acode_no_ret int_w w ew sg esg op o : acode int_w w ew sg esg op <> Ret o.
Proof. destruct op; cbn [acode]; intros E; discriminate E. Qed.
Lemma order_given r : (match r with BitsCall b => bits_order b | IntCall i => int_order i end) = Some (wanted r) \/
  (match r with BitsCall b => bits_order b | IntCall i => int_order i end) = None.
Proof. destruct r as [[op [mo|]|]|[op [mo|]|]]; [destruct op|destruct op| |destruct op|destruct op|]; cbn; auto. Qed.
Lemma order_refused r p : ~ order_ok r -> (match r with BitsCall b => bits_order b | IntCall i => int_order i end) = Some (wanted r) ->
  prim_access p = access_of r -> allowed p (wanted r) = false.
Proof.
  intros H G E. destruct (allowed p (wanted r)) eqn:A; [|reflexivity]. exfalso. apply H. split.
  - rewrite <- E. destruct p; cbn in *; destruct (wanted r); try discriminate A; repeat split; discriminate.
  - destruct r as [[op [mo|]|]|[op [mo|]|]]; try destruct op; cbn in *; try exact I; discriminate G.
Qed.
Lemma order_needed objs c : ~ order_ok (asked c) -> code objs c = MBad.
Proof.
  intros H. unfold code. destruct (objs (target c)) as [pl n w0 sw same64|int_w w0 ew sg esg], (asked c) as [b|i]; try reflexivity.
  - pose proof (order_given (BitsCall b)) as G. destruct G as [G|G]; cbn beta iota in G; rewrite G; [|reflexivity].
    destruct (abcode pl n w0 sw same64 (bits_op b)) as [o| |q k] eqn:E; [destruct (abcode_no_ret _ _ _ _ _ _ _ E)|reflexivity|].
    destruct (abcode_shape _ _ _ _ _ _ _ _ E) as [Sh _]. cbn [on_object]. rewrite (order_refused _ q H G Sh). reflexivity.
  - pose proof (order_given (IntCall i)) as G. destruct G as [G|G]; cbn beta iota in G; rewrite G; [|reflexivity].
    destruct (acode int_w w0 ew sg esg (int_op i)) as [o| |q k] eqn:E; [destruct (acode_no_ret _ _ _ _ _ _ _ E)|reflexivity|].
    destruct (acode_shape _ _ _ _ _ _ _ _ E) as [Sh _]. cbn [on_object]. rewrite (order_refused _ q H G Sh). reflexivity.
Qed.

Section Objs.
Context (objs : nat -> object_type) (types : forall x, type_ok (objs x)).
Notation w := (fun x => word_of (objs x)).
Notation R := (fun x => represents (objs x)).
Notation eff := (fun s c o s' => effect (objs (target c)) s (asked c) o s').

Lemma code_access c x p mo k : good_call objs c -> code objs c = MDo x p mo k -> prim_access p = access_of (asked c).
Proof.
  intros [Ho Hc]. unfold code. destruct (objs (target c)) as [pl n w0 sw same64|int_w w0 ew sg esg], (asked c) as [b|i] eqn:Ea; try contradiction.
  - rewrite bits_order_wanted by exact Ho. destruct (abcode pl n w0 sw same64 (bits_op b)) as [| |q k0] eqn:E; cbn; try discriminate.
    destruct (abcode_shape _ _ _ _ _ _ _ _ E) as [Sh _]. destruct (allowed q _); [|discriminate]. intros F. injection F as _ <- _ _. exact Sh.
  - rewrite int_order_wanted by exact Ho. destruct (acode int_w w0 ew sg esg (int_op i)) as [| |q k0] eqn:E; cbn; try discriminate.
    destruct (acode_shape _ _ _ _ _ _ _ _ E) as [Sh _]. destruct (allowed q _); [|discriminate]. intros F. injection F as _ <- _ _. exact Sh.
Qed.

Lemma code_single c : good_call objs c -> exists p k, code objs c = MDo (target c) p (wanted (asked c)) k /\
  (forall r, (exists o, k r = MRet o) \/ k r = MBad) /\
  forall mem s, R (target c) mem s -> exists o s', k (snd (exec_prim (w (target c)) p mem)) = MRet o /\ eff s c o s' /\ R (target c) (fst (exec_prim (w (target c)) p mem)) s'.
Proof.
  intros [Ho Hc]. pose proof (types (target c)) as Ht. unfold code. destruct (objs (target c)) as [pl n w0 sw same64|int_w w0 ew sg esg] eqn:Eo, (asked c) as [b|i] eqn:Ea; try contradiction.
  - rewrite bits_order_wanted by exact Ho. cbn in Ht. destruct Ht as ((Hpl & Hw & Hwl & Hn & HnM) & Hnw & H32 & H64 & Hcc).
    destruct (ab_single pl n w0 sw same64 Hpl Hw Hwl Hn HnM Hnw H64 Hcc H32 (bits_op b) Hc) as (p & k & E & Hs).
    destruct (abcode_shape _ _ _ _ _ _ _ _ E) as [Sh En]. rewrite E. cbn [on_object]. rewrite (order_allowed _ p Ho Sh).
    exists p. eexists. split; [reflexivity|]. split; [intros r; apply on_object_ends, En|].
    intros mem s HR. destruct s as [m|m]; [|contradiction]. destruct (Hs mem m HR) as (o & m' & Eko & Sp & HR'). exists (BitsReply o), (BitsState m').
    cbn [word_of]. rewrite Eko. split; [reflexivity|]. split; [exact Sp|exact HR'].
  - rewrite int_order_wanted by exact Ho. cbn in Ht. destruct Ht as [Hw Hew].
    destruct (single int_w w0 ew sg esg Hw Hew (int_op i) Hc) as (p & k & E & Hs).
    destruct (acode_shape _ _ _ _ _ _ _ _ E) as [Sh En]. rewrite E. cbn [on_object]. rewrite (order_allowed _ p Ho Sh).
    exists p. eexists. split; [reflexivity|]. split; [intros r; apply on_object_ends, En|].
    intros mem s HR. destruct s as [m|m]; [contradiction|]. destruct (Hs mem m HR) as (o & m' & Eko & Sp & HR'). exists (IntReply o), (IntState m').
    cbn [word_of]. rewrite Eko. split; [reflexivity|]. split; [exact Sp|exact HR'].
Qed.

Context (contents : nat -> nat -> N) (n : nat -> nat) (programs : list (list call)) (evss : list (list mevent)).
Context (ts' : list (mthread call reply)) (outss : list (list (call * reply))) (st : nat -> obj_state).
Context (Hinit : forall x, represents (objs x) (contents x 0) (st x)) (Hgood : Forall (Forall (good_call objs)) programs).
Context (Hrun : mall_perform (code objs) (mstart programs) evss ts' outss) (X : mexecution w contents n evss).
Notation the_replies := (replies ts' outss).

Lemma turns_in_turn calls : forall st st', turns target eff st calls st' -> in_turn objs st calls st'.
Proof. induction calls as [|[c o] calls IH]; intros st0 st'; [auto|]. intros (s & E & T). exists s. split; [exact E|]. now apply IH. Qed.

Lemma consistent : (forall c, In c (concat programs) -> wanted (asked c) = SeqCst) ->
  Forall (fun t => ~ gone_wrong t) ts' /\
  exists s st', merges s (map the_replies (seq 0 (length programs))) /\ in_turn objs st (map snd s) st' /\ forall x, represents (objs x) (contents x (n x)) (st' x).
Proof.
  intros Hsc. destruct (sequential w (code objs) target (fun c => wanted (asked c)) (good_call objs) R eff code_single contents n evss X programs ts' outss Hgood Hrun st Hinit Hsc) as (NG & s & st' & M & T & HR).
  split; [exact NG|]. exists s, st'. split; [|split; [now apply turns_in_turn|exact HR]].
  intros i. rewrite M. destruct (Nat.lt_ge_cases i (length programs)) as [L|L].
  - symmetry. apply nth_error_nth. rewrite nth_error_map. rewrite (nth_error_nth' _ 0) by now rewrite seq_length. cbn. now rewrite seq_nth.
  - rewrite (nth_overflow _ _ (n := i)) by now rewrite map_length, seq_length.
    destruct (mall_perform_logs w (code objs) target (fun c => wanted (asked c)) (good_call objs) R eff code_single programs evss ts' outss Hgood Hrun) as (logs & _ & Fp & L1 & L2 & _).
    pose proof (F2_length _ _ _ Fp). unfold replies. rewrite nth_overflow by lia. destruct (nth_error ts' i) eqn:E; [|reflexivity]. assert (i < length ts') by (apply nth_error_Some; congruence). lia.
Qed.

Notation expl := (explains (code objs) target (fun c => wanted (asked c)) (good_call objs) R eff contents).
Lemma ev_rep i j e : event_at evss (i, j) = Some e -> exists co, nth_error (the_replies i) j = Some co /\ expl e co.
Proof. exact (event_replies w (code objs) target (fun c => wanted (asked c)) (good_call objs) R eff code_single contents n evss X programs ts' outss Hgood Hrun st Hinit i j e). Qed.
Lemma rep_ev i j co : nth_error (the_replies i) j = Some co -> exists e, event_at evss (i, j) = Some e /\ expl e co.
Proof. exact (replies_event w (code objs) target (fun c => wanted (asked c)) (good_call objs) R eff code_single contents n evss X programs ts' outss Hgood Hrun st Hinit i j co). Qed.
Lemma rep_in i j co : nth_error (the_replies i) j = Some co -> In (fst co) (concat programs).
Proof. intros E. eapply (replies_in w (code objs) target (fun c => wanted (asked c)) (good_call objs) R eff code_single contents evss programs ts' outss Hgood Hrun st Hinit i). eapply nth_error_In. exact E. Qed.
Lemma no_wrong : Forall (fun t => ~ gone_wrong t) ts'.
Proof. exact (proj1 (explained w (code objs) target (fun c => wanted (asked c)) (good_call objs) R eff code_single contents n evss X programs ts' outss Hgood Hrun st Hinit)). Qed.
Lemma expl_access e co : expl e co -> prim_access (performed (what e)) = access_of (asked (fst co)).
Proof. intros H. destruct (ex_code _ _ _ _ _ _ _ _ _ H) as (k & E). eapply code_access; [exact (ex_pre _ _ _ _ _ _ _ _ _ H)|exact E]. Qed.
Lemma access_modifies a : modifies a = match prim_access (performed a) with Reads => false | _ => true end.
Proof. unfold modifies. now destruct (performed a). Qed.
Lemma access_reads a : reads_at a <> None <-> prim_access (performed a) <> Replaces.
Proof. unfold reads_at. destruct (performed a); cbn; split; congruence. Qed.
Lemma reads_since e : reads_at (what e) <> None -> reads_at (what e) = Some (since e).
Proof. unfold reads_at, since, modifies. destruct (performed (what e)); congruence. Qed.

(** ** Publication through a bit *)
Section Flag.
Context (f : nat) (pl : platform) (nb wb sw : N) (same64 : bool) (Hf : objs f = Bits pl nb wb sw same64) (i : N) (v : bool) (Hi : (i < nb)%N).
Context (Hstart : N.testbit (contents f 0) i = negb v).
Context (Hcalls : forall c b, In c (concat programs) -> target c = f -> asked c = BitsCall b ->
  bits_access (bits_op b) <> Replaces /\ (becomes wb (bits_op b) i (negb v) = v -> releases (wanted (asked c)) = true)).

Lemma flag_call e co : expl e co -> object e = f -> exists b o, asked (fst co) = BitsCall b /\ snd co = BitsReply o /\
  exists m m', stores nb (contents f (since e)) m /\ stores nb (contents f (place (what e))) m' /\ abspec nb wb m (bits_op b) o m'.
Proof.
  intros H Ef. pose proof (ex_target _ _ _ _ _ _ _ _ _ H) as Et. destruct (ex_effect _ _ _ _ _ _ _ _ _ H) as (s & s' & R1 & E & R2).
  rewrite Et, Ef in *. rewrite Hf in *. cbn in E. destruct s as [m|]; [|contradiction]. destruct (asked (fst co)) as [b|] eqn:Ea; [|contradiction].
  destruct (snd co) as [o|]; [|contradiction]. destruct s' as [m'|]; [|contradiction]. exists b, o. split; [reflexivity|]. split; [reflexivity|]. exists m, m'. auto.
Qed.
Lemma stores_bit mem m : stores nb mem m -> bit m i = N.testbit mem i.
Proof. intros [_ ->]. now apply bit_tab. Qed.
Lemma stores_len mem m : stores nb mem m -> len m = nb.
Proof. intros [_ ->]. apply len_tab. Qed.
Lemma turning_point (g : nat -> bool) k : g 0 = negb v -> g k = v -> exists h, 1 <= h <= k /\ g (h - 1) = negb v /\ g h = v.
Proof.
  intros G0. induction k as [|k IH]; intros Gk; [destruct v; cbn in *; congruence|]. destruct (Bool.bool_dec (g k) v) as [E|E].
  - destruct (IH E) as (h & B & G1 & G2). exists h. split; [lia|auto].
  - exists (S k). split; [lia|]. cbn [Nat.sub]. rewrite Nat.sub_0_r. split; [destruct (g k), v; cbn; congruence|exact Gk].
Qed.
Lemma publish tb jb c b o : nth_error (the_replies tb) jb = Some (c, BitsReply o) -> target c = f -> asked c = BitsCall b ->
  acquires (wanted (asked c)) = true -> tells nb wb i v (bits_op b) o ->
  exists ta ja c' b' o', nth_error (the_replies ta) ja = Some (c', o') /\ target c' = f /\ asked c' = BitsCall b' /\
    becomes wb (bits_op b') i (negb v) = v /\ happens_before evss (ta, ja) (tb, jb).
Proof.
  intros E Et Ea Ac Tl. destruct (rep_ev _ _ _ E) as (e & Ee & Hx). pose proof (ex_target _ _ _ _ _ _ _ _ _ Hx) as Etg. cbn in Etg.
  destruct (flag_call e _ Hx ltac:(congruence)) as (b0 & o0 & E1 & E2 & m & m' & S1 & S2 & _ & Rt). cbn in E1, E2. rewrite Ea in E1. injection E1 as <-. injection E2 as <-.
  assert (Bt : N.testbit (contents f (since e)) i = v). { rewrite <- (stores_bit _ _ S1). apply Tl; [eapply stores_len; exact S1|exact Rt]. }
  destruct (turning_point (fun k => N.testbit (contents f k) i) (since e) Hstart Bt) as (h & Bh & G1 & G2).
  assert (Ie : In e (concat evss)) by (apply event_at_in; eauto).
  destruct (exec_event w contents n evss X e Ie) as (Bs & _). assert (Of : object e = f) by congruence. rewrite Of in Bs.
  destruct (event_with_place w contents n evss X f h ltac:(lia)) as (ea & Ia & Oa & Ma & Pa).
  apply event_at_in in Ia as ([ta ja] & Na). destruct (ev_rep _ _ _ Na) as ([c' o'] & Er & Hx').
  destruct (flag_call ea _ Hx' Oa) as (b' & ob & E1' & E2' & mm & mm' & S1' & S2' & Tm & _). cbn in E1', E2'.
  assert (Sa : since ea = h - 1) by (unfold since; now rewrite Ma, Pa).
  assert (Bc : becomes wb (bits_op b') i (negb v) = v).
  { pose proof (stores_bit _ _ S2') as Q. rewrite Pa, G2, Tm, bit_tab in Q by exact Hi. pose proof (stores_bit _ _ S1') as Q1. rewrite Sa, G1 in Q1. now rewrite Q1 in Q. }
  pose proof (ex_target _ _ _ _ _ _ _ _ _ Hx') as Et'. cbn in Et'.
  exists ta, ja, c', b', o'. split; [exact Er|]. split; [congruence|]. split; [exact E1'|]. split; [exact Bc|].
  destruct (Hcalls c' b' (rep_in _ _ _ Er) ltac:(congruence) E1') as (_ & Rel).
  pose proof (expl_access _ _ Hx) as Acc. cbn in Acc. rewrite Ea in Acc. cbn in Acc.
  assert (Rd : reads_at (what e) <> None). { apply access_reads. rewrite Acc. apply (Hcalls c b (rep_in _ _ _ E) Et Ea). }
  apply hb_synchronizes. exists ea, e, h, (since e). split; [exact Na|]. split; [exact Ee|]. split; [congruence|].
  split; [rewrite <- (ex_order _ _ _ _ _ _ _ _ _ Hx'); cbn; rewrite Rel by exact Bc; reflexivity|]. split; [rewrite <- (ex_order _ _ _ _ _ _ _ _ _ Hx); exact Ac|].
  split; [now apply writes_place|]. split; [now apply reads_since|]. split; [lia|].
  intros e2 k2 I2 O2 W2 _. apply event_at_in in I2 as ([t2 j2] & N2). destruct (ev_rep _ _ _ N2) as ([c2 o2] & Er2 & Hx2).
  destruct (flag_call e2 _ Hx2 ltac:(congruence)) as (b2 & ? & E12 & _). cbn in E12. apply access_reads. rewrite (expl_access _ _ Hx2). cbn. rewrite E12. cbn.
  pose proof (ex_target _ _ _ _ _ _ _ _ _ Hx2) as Et2. cbn in Et2. apply (Hcalls c2 b2 (rep_in _ _ _ Er2) ltac:(congruence) E12).
Qed.
End Flag.

(** ** Publication through an atomic *)
Lemma publish_value f tb jb c o : nth_error (the_replies tb) jb = Some (c, o) -> target c = f -> access_of (asked c) <> Replaces ->
  acquires (wanted (asked c)) = true ->
  (forall c', In c' (concat programs) -> target c' = f -> access_of (asked c') <> Reads -> releases (wanted (asked c')) = true) ->
  ~ (exists s', effect (objs f) (st f) (asked c) o s') ->
  exists ta ja c' o', nth_error (the_replies ta) ja = Some (c', o') /\ target c' = f /\ access_of (asked c') <> Reads /\ happens_before evss (ta, ja) (tb, jb).
Proof.
  intros E Et Na Ac Hrel Hnot. destruct (rep_ev _ _ _ E) as (e & Ee & Hx). pose proof (ex_target _ _ _ _ _ _ _ _ _ Hx) as Etg. cbn in Etg.
  assert (Of : object e = f) by congruence. assert (Ie : In e (concat evss)) by (apply event_at_in; eauto).
  destruct (exec_event w contents n evss X e Ie) as (Bs & _). rewrite Of in Bs.
  assert (Pos : since e <> 0).
  { intros Z. apply Hnot. destruct (ex_effect _ _ _ _ _ _ _ _ _ Hx) as (s & s' & R1 & Ef & _). cbn in Ef. rewrite Z, Of in R1. rewrite Etg, Of in Ef. exists s'.
    replace (st f) with s; [exact Ef|]. pose proof (Hinit f) as R0. unfold represents in *. destruct (objs f), s, (st f); try contradiction; f_equal.
    - destruct R0 as [_ ->], R1 as [_ ->]. reflexivity.
    - destruct R0 as [_ ->], R1 as [_ ->]. reflexivity. }
  destruct (event_with_place w contents n evss X f (since e) ltac:(lia)) as (ea & Ia & Oa & Ma & Pa).
  apply event_at_in in Ia as ([ta ja] & Nm). destruct (ev_rep _ _ _ Nm) as ([c' o'] & Er & Hx').
  pose proof (ex_target _ _ _ _ _ _ _ _ _ Hx') as Et'. cbn in Et'.
  assert (Acc : access_of (asked c') <> Reads). { pose proof (expl_access _ _ Hx') as A. cbn in A. rewrite <- A. rewrite access_modifies in Ma. now destruct (prim_access (performed (what ea))). }
  exists ta, ja, c', o'. split; [exact Er|]. split; [congruence|]. split; [exact Acc|]. apply hb_synchronizes.
  exists ea, e, (since e), (since e). split; [exact Nm|]. split; [exact Ee|]. split; [congruence|].
  split; [rewrite <- (ex_order _ _ _ _ _ _ _ _ _ Hx'); cbn; apply Hrel; [exact (rep_in _ _ _ Er)|congruence|exact Acc]|].
  split; [rewrite <- (ex_order _ _ _ _ _ _ _ _ _ Hx); exact Ac|]. split; [now apply writes_place|].
  split; [apply reads_since, access_reads; rewrite (expl_access _ _ Hx); exact Na|]. split; [lia|]. intros; lia.
Qed.

(** ** What happened before is seen *)
Lemma seen_after ta ja ca oa tb jb cb ob x : nth_error (the_replies ta) ja = Some (ca, oa) -> nth_error (the_replies tb) jb = Some (cb, ob) ->
  target ca = x -> target cb = x -> access_of (asked ca) <> Reads -> access_of (asked cb) <> Replaces -> happens_before evss (ta, ja) (tb, jb) ->
  exists k1 k2 s1 s1' s2 s2', 1 <= k1 <= k2 /\ k2 <= n x /\
    represents (objs x) (contents x (k1 - 1)) s1 /\ effect (objs x) s1 (asked ca) oa s1' /\ represents (objs x) (contents x k1) s1' /\
    represents (objs x) (contents x k2) s2 /\ effect (objs x) s2 (asked cb) ob s2'.
Proof.
  intros Ea Eb Ta Tb Aa Ab Hb. destruct (rep_ev _ _ _ Ea) as (ea & Na & Ha). destruct (rep_ev _ _ _ Eb) as (eb & Nb & Hbx).
  pose proof (ex_target _ _ _ _ _ _ _ _ _ Ha) as Oa. pose proof (ex_target _ _ _ _ _ _ _ _ _ Hbx) as Ob. cbn in Oa, Ob.
  pose proof (hb_coherence _ _ _ _ X _ _ _ _ Hb Na Nb ltac:(congruence)) as (_ & _ & _ & WR).
  assert (Ma : modifies (what ea) = true). { rewrite access_modifies, (expl_access _ _ Ha). cbn. now destruct (access_of (asked ca)). }
  assert (Rb : reads_at (what eb) = Some (since eb)) by (apply reads_since, access_reads; rewrite (expl_access _ _ Hbx); exact Ab).
  specialize (WR (place (what ea)) (since eb) ltac:(now apply writes_place) Rb).
  assert (Ia : In ea (concat evss)) by (apply event_at_in; eauto). assert (Ib : In eb (concat evss)) by (apply event_at_in; eauto).
  destruct (exec_event w contents n evss X eb Ib) as (Bs & _).
  assert (P1 : 1 <= place (what ea)).
  { assert (P : In (place (what ea)) (seq 1 (n (object ea)))).
    { eapply Permutation_in; [apply (places w contents n evss X)|]. apply in_map, filter_In. split; [|exact Ma]. apply on_in. eauto. }
    apply in_seq in P. lia. }
  destruct (ex_effect _ _ _ _ _ _ _ _ _ Ha) as (s1 & s1' & R1 & E1 & R1'). destruct (ex_effect _ _ _ _ _ _ _ _ _ Hbx) as (s2 & s2' & R2 & E2 & _).
  cbn in E1, E2. rewrite Oa in *. rewrite Ob in *. subst x. rewrite Tb in *. exists (place (what ea)), (since eb), s1, s1', s2, s2'.
  unfold since in R1. rewrite Ma in R1. repeat split; try assumption.
Qed.
Lemma only_modification x ta ja ca oa : nth_error (the_replies ta) ja = Some (ca, oa) -> target ca = x -> access_of (asked ca) <> Reads ->
  (forall t j c o, nth_error (the_replies t) j = Some (c, o) -> target c = x -> access_of (asked c) <> Reads -> (t, j) = (ta, ja)) -> n x <= 1.
Proof.
  intros Ea Ta Aa Only. destruct (Nat.le_gt_cases (n x) 1) as [L|L]; [exact L|exfalso].
  assert (K : forall k, 1 <= k <= n x -> exists e, event_at evss (ta, ja) = Some e /\ place (what e) = k).
  { intros k Bk. destruct (event_with_place w contents n evss X x k Bk) as (e & Ie & Oe & Me & Pe). apply event_at_in in Ie as ([t j] & Nm). destruct (ev_rep _ _ _ Nm) as ([c o] & Er & Hx).
    pose proof (ex_target _ _ _ _ _ _ _ _ _ Hx) as Et. cbn in Et. rewrite <- (Only t j c o Er); [eauto|congruence|].
    pose proof (expl_access _ _ Hx) as A. cbn in A. rewrite <- A. rewrite access_modifies in Me. now destruct (prim_access (performed (what e))). }
  destruct (K 1 ltac:(lia)) as (e1 & N1 & P1). destruct (K 2 ltac:(lia)) as (e2 & N2 & P2). rewrite N1 in N2. injection N2 as <-. lia.
Qed.
End Objs.
