(** A bit of an atomic_bitset as a lock. *)
From Coq Require Import Permutation Wf_nat.
From Verif Require Import Base BaseLemmas BitModel BitsetModel BitsetSpec BitsetProofs ConcModel RelaxedModel RelaxedProofs AtomicModel AtomicSpec AtomicProofs.
From Verif Require Import AtomicBitsetModel AtomicBitsetSpec AtomicBitsetProofs AtomicProps MultiModel MultiSpec MultiProofs MultiProofs2.
Open Scope nat_scope.

Section Lock.
Context (objs : nat -> object_type) (types : forall x, type_ok (objs x)).
Notation word := (fun x => word_of (objs x)).
Context (contents : nat -> nat -> N) (n : nat -> nat) (programs : list (list call)) (evss : list (list mevent)).
Context (ts' : list (mthread call reply)) (outss : list (list (call * reply))) (st : nat -> obj_state).
Context (Hinit : forall x, represents (objs x) (contents x 0) (st x)) (Hgood : Forall (Forall (good_call objs)) programs).
Context (Hrun : mall_perform (code objs) (mstart programs) evss ts' outss) (X : mexecution word contents n evss).
Notation the_replies := (replies ts' outss).
Context (f : nat) (pl : platform) (nb w sw : N) (same64 : bool) (Hf : objs f = Bits pl nb w sw same64) (i : N) (Hi : (i < nb)%N).
Context (Hstart : N.testbit (contents f 0) i = false).
Context (Hcalls : forall c, In c (concat programs) -> protocol f w i c).
Context (Hdisc : forall t, disciplined f w i (the_replies t)).
Notation held k := (N.testbit (contents f k) i).
Notation expl := (explains (code objs) target (fun c => wanted (asked c)) (good_call objs) (fun x => represents (objs x)) (fun s c o s' => effect (objs (target c)) s (asked c) o s') contents).
Notation rep_ev := (rep_ev objs types contents n programs evss ts' outss st Hinit Hgood Hrun X).
Notation ev_rep := (ev_rep objs types contents n programs evss ts' outss st Hinit Hgood Hrun X).
Notation rep_in := (rep_in objs types contents programs evss ts' outss st Hinit Hgood Hrun).

Lemma modifies_place e : In e (concat evss) -> modifies (what e) = true -> 1 <= place (what e) <= n (object e).
Proof.
  clear - X. intros Ie M. assert (P : In (place (what e)) (seq 1 (n (object e)))).
  { eapply Permutation_in; [apply (places _ _ _ _ X)|]. apply in_map, filter_In. split; [|exact M]. apply on_in. eauto. }
  apply in_seq in P. lia.
Qed.
(** An event on the bitset and its call. *)
Lemma bit_event e co : expl e co -> object e = f -> exists b o m, asked (fst co) = BitsCall b /\ snd co = BitsReply o /\
  held (place (what e)) = becomes w (bits_op b) i (held (since e)) /\ bit m i = held (since e) /\ returns nb w m (bits_op b) o.
Proof.
  intros H E. destruct (flag_call objs contents f pl nb w sw same64 Hf e co H E) as (b & o & Ea & Eo & m & m' & S1 & S2 & Tm & Rt).
  exists b, o, m. split; [exact Ea|]. split; [exact Eo|]. rewrite <- (stores_bit nb i Hi _ _ S1), <- (stores_bit nb i Hi _ _ S2), Tm, bit_tab by exact Hi. auto.
Qed.
Lemma call_of e co : expl e co -> object e = f -> In (fst co) (concat programs) -> exists b, asked (fst co) = BitsCall b /\ bits_access (bits_op b) <> Replaces /\
    (sets i (bits_op b) = true /\ acquires (order e) = true \/ clears w i (bits_op b) /\ releases (order e) = true \/ leaves w i (bits_op b)).
Proof.
  intros H E I. destruct (Hcalls _ I) as (b & A & B & C); [rewrite (ex_target _ _ _ _ _ _ _ _ _ H); exact E|].
  rewrite (ex_order _ _ _ _ _ _ _ _ _ H) in C. eauto.
Qed.
Lemma expl_object t j co : nth_error (the_replies t) j = Some co -> target (fst co) = f ->
  exists e, event_at evss (t, j) = Some e /\ expl e co /\ object e = f /\ In e (concat evss).
Proof.
  intros E T. destruct (rep_ev _ _ _ E) as (e & Ee & H). exists e. split; [exact Ee|]. split; [exact H|]. split.
  - rewrite <- (ex_target _ _ _ _ _ _ _ _ _ H). exact T.
  - apply event_at_in. eauto.
Qed.
Lemma lock_event t j co : nth_error (the_replies t) j = Some co -> locked f w i co ->
  exists e, event_at evss (t, j) = Some e /\ In e (concat evss) /\ object e = f /\ modifies (what e) = true /\ acquires (order e) = true /\
    reads_at (what e) = Some (place (what e) - 1) /\ held (place (what e) - 1) = false /\ held (place (what e)) = true.
Proof.
  intros E (T & b & o & Ea & Eo & Es & Ec). destruct (expl_object _ _ _ E T) as (e & Ne & H & Of & Ie). exists e.
  destruct (bit_event e co H Of) as (b' & o' & m & Ea' & Eo' & Hb & Hm & Rt). rewrite Ea in Ea'. injection Ea' as <-. rewrite Eo in Eo'. injection Eo' as <-.
  assert (Ab : bits_access (bits_op b) = Changes) by (destruct (bits_op b); try discriminate Es; reflexivity).
  pose proof (expl_access objs contents e co H) as Acc. rewrite Ea in Acc. cbn in Acc. rewrite Ab in Acc.
  assert (M : modifies (what e) = true) by (rewrite access_modifies, Acc; reflexivity).
  assert (Sn : since e = place (what e) - 1) by (unfold since; now rewrite M). rewrite Sn in *.
  rewrite (sets_becomes w i _ Es) in Hb. rewrite (sets_returns nb w i _ _ _ Hi Es Rt), Hm in Ec.
  destruct (call_of e co H Of (rep_in _ _ _ E)) as (b' & Ea' & _ & C). rewrite Ea in Ea'. injection Ea' as <-.
  repeat split; try assumption.
  - destruct C as [[_ C]|[[C _]|C]]; [exact C| |]; exfalso.
    + specialize (C false). rewrite (sets_becomes w i _ Es) in C. discriminate.
    + specialize (C false). rewrite (sets_becomes w i _ Es) in C. discriminate.
  - rewrite <- Sn. apply reads_since, access_reads. rewrite Acc. discriminate.
  - now destruct (held (place (what e) - 1)).
Qed.
(** The bit is cleared by an unlocking call. *)
Lemma fall h : 1 <= h <= n f -> held (h - 1) = true -> held h = false ->
  exists t j e co, event_at evss (t, j) = Some e /\ In e (concat evss) /\ object e = f /\ modifies (what e) = true /\ place (what e) = h /\
    nth_error (the_replies t) j = Some co /\ unlocked f w i co /\ releases (order e) = true.
Proof.
  intros Bh H1 H2. destruct (event_with_place _ _ _ _ X f h Bh) as (e & Ie & Of & M & Pe). pose proof Ie as Ie'.
  apply event_at_in in Ie as ([t j] & Ne). destruct (ev_rep _ _ _ Ne) as (co & E & H). exists t, j, e, co.
  destruct (bit_event e co H Of) as (b & o & m & Ea & Eo & Hb & _). assert (Sn : since e = h - 1) by (unfold since; now rewrite M, Pe).
  rewrite Sn, Pe, H1, H2 in Hb. destruct (call_of e co H Of (rep_in _ _ _ E)) as (b' & Ea' & _ & C). rewrite Ea in Ea'. injection Ea' as <-.
  assert (U : clears w i (bits_op b) /\ releases (order e) = true).
  { destruct C as [[C _]|[C|C]]; [|exact C|]; exfalso.
    - rewrite (sets_becomes w i _ C) in Hb. discriminate.
    - rewrite C in Hb. discriminate. }
  repeat split; try assumption; try apply U.
  - rewrite (ex_target _ _ _ _ _ _ _ _ _ H). exact Of.
  - exists b. split; [exact Ea|apply U].
Qed.
(** Program order and modification order agree. *)
Lemma in_order t j e j' e' : event_at evss (t, j) = Some e -> event_at evss (t, j') = Some e' -> object e = f -> object e' = f ->
  modifies (what e) = true -> modifies (what e') = true -> place (what e) < place (what e') -> j < j'.
Proof.
  intros E E' O O' M M' L. destruct (Nat.lt_trichotomy j j') as [H|[H|H]]; [exact H| |]; exfalso.
  - subst j'. rewrite E in E'. injection E' as <-. lia.
  - assert (Hb : happens_before evss (t, j') (t, j)) by (apply hb_sequenced; split; [reflexivity|exact H]).
    destruct (hb_coherence _ _ _ _ X _ _ _ _ Hb E' E ltac:(congruence)) as (WW & _).
    specialize (WW (place (what e')) (place (what e)) ltac:(now apply writes_place) ltac:(now apply writes_place)). lia.
Qed.
Lemma in_order' t j e j' e' : event_at evss (t, j) = Some e -> event_at evss (t, j') = Some e' -> object e = f -> object e' = f ->
  modifies (what e) = true -> modifies (what e') = true -> j < j' -> place (what e) < place (what e').
Proof.
  intros E E' O O' M M' L. assert (Hb : happens_before evss (t, j) (t, j')) by (apply hb_sequenced; split; [reflexivity|exact L]).
  destruct (hb_coherence _ _ _ _ X _ _ _ _ Hb E E' ltac:(congruence)) as (WW & _).
  exact (WW (place (what e)) (place (what e')) ltac:(now apply writes_place) ltac:(now apply writes_place)).
Qed.
Lemma same_place t k ek tl jl el : event_at evss (t, k) = Some ek -> event_at evss (tl, jl) = Some el -> object ek = f -> object el = f ->
  modifies (what ek) = true -> modifies (what el) = true -> place (what ek) = place (what el) -> (t, k) = (tl, jl).
Proof.
  intros Nk Nl Ok Ol Mk Ml Same. destruct (Nat.eq_dec t tl) as [->|Nt].
  - destruct (Nat.lt_trichotomy k jl) as [L|[L|L]]; [|now subst k|].
    + pose proof (in_order' _ _ _ _ _ Nk Nl Ok Ol Mk Ml L). lia.
    + pose proof (in_order' _ _ _ _ _ Nl Nk Ol Ok Ml Mk L). lia.
  - exfalso.
    assert (D : NoDup (map place (filter modifies (on f (concat evss))))) by (eapply Permutation_NoDup; [apply Permutation_sym, (places _ _ _ _ X)|apply seq_NoDup]).
    clear - D Nk Nl Ok Ol Mk Ml Same Nt. unfold event_at in Nk, Nl. cbn [fst snd] in Nk, Nl.
    set (pl := fun l => map place (filter modifies (on f l))) in *.
    assert (Sp : forall a b, pl (a ++ b) = pl a ++ pl b) by (intros; unfold pl, on; now rewrite filter_app, map_app, filter_app, map_app).
    destruct (nth_error evss t) as [lt|] eqn:Et; [|discriminate]. destruct (nth_error evss tl) as [ll|] eqn:Etl; [|discriminate].
    assert (In2 : forall (l : list mevent) j e, nth_error l j = Some e -> object e = f -> modifies (what e) = true -> In (place (what e)) (pl l)).
    { intros l j e E O M. apply in_map, filter_In. split; [|exact M]. apply on_in. exists e. eauto using nth_error_In. }
    pose proof (In2 _ _ _ Nk Ok Mk) as I1. pose proof (In2 _ _ _ Nl Ol Ml) as I2. rewrite Same in I1. clear In2 Nk Nl Ok Ol Mk Ml Same.
    change (NoDup (pl (concat evss))) in D. clearbody pl.
    revert t tl Et Etl Nt D. induction evss as [|l ls IHl]; intros t tl Et Etl Nt D; [destruct t; discriminate|].
    cbn [concat] in D. rewrite Sp in D.
    assert (Tail : forall u l0, nth_error ls u = Some l0 -> In (place (what el)) (pl l0) -> In (place (what el)) (pl (concat ls))).
    { intros u l0 Eu0 I0. apply nth_error_split in Eu0 as (l1 & l2 & -> & _). rewrite concat_app. cbn [concat]. rewrite !Sp. apply in_or_app. right. apply in_or_app. now left. }
    assert (Dj : forall y, In y (pl l) -> In y (pl (concat ls)) -> False).
    { clear - D. induction (pl l) as [|a m IHm]; cbn in *; [intros y []|]. inversion D as [|? ? D1 D2]; subst. intros y [<-|I1] I2.
      - apply D1. apply in_or_app. now right.
      - eapply IHm; eassumption. }
    destruct t as [|t], tl as [|tl]; cbn [nth_error] in *; try congruence.
    + injection Et as <-. eapply Dj; [exact I1|]. eapply Tail; eassumption.
    + injection Etl as <-. eapply Dj; [exact I2|]. eapply Tail; eassumption.
    + apply (IHl t tl Et Etl); [congruence|]. clear - D. induction (pl l); [exact D|]. inversion D; subst; auto.
Qed.
Lemma first_fall p q : held p = true -> held q = false -> p <= q -> exists h, p < h <= q /\ held h = false /\ forall k, p <= k < h -> held k = true.
Proof.
  clear - i. intros Hp.
  assert (G : forall d, (forall k, p <= k < p + d -> held k = true) \/ exists h, p < h < p + d /\ held h = false /\ forall k, p <= k < h -> held k = true).
  { induction d as [|d [A|(h & B & C)]]; [left; intros; lia| |right; exists h; split; [lia|exact C]].
    destruct (held (p + d)) eqn:E.
    - left. intros k Bk. destruct (Nat.eq_dec k (p + d)) as [->|]; [exact E|apply A; lia].
    - right. exists (p + d). split; [|auto]. destruct d; [rewrite Nat.add_0_r in E; congruence|lia]. }
  intros Hq L. destruct (G (S q - p)) as [A|(h & B & C)].
  - rewrite A in Hq by lia. discriminate.
  - exists h. split; [lia|exact C].
Qed.
(** The bit is cleared by the thread that has set it. *)
(** lia with nothing but the bounds in view. *)
Ltac places_lia :=
  repeat match goal with H : ?T |- _ => lazymatch T with @Logic.eq nat _ _ => fail | (_ < _)%nat => fail | (_ <= _)%nat => fail | (_ <= _)%nat /\ _ => fail | (_ < _)%nat /\ _ => fail | _ => clear H end end; lia.
Lemma owner h : forall tl jl el co, h <= n f -> nth_error (the_replies tl) jl = Some co -> locked f w i co -> event_at evss (tl, jl) = Some el ->
  place (what el) < h -> held h = false -> (forall k, place (what el) <= k < h -> held k = true) ->
  exists ju eu cu, jl < ju /\ event_at evss (tl, ju) = Some eu /\ place (what eu) = h /\ object eu = f /\ modifies (what eu) = true /\
    nth_error (the_replies tl) ju = Some cu /\ unlocked f w i cu /\ releases (order eu) = true /\
    forall m cm, jl < m < ju -> nth_error (the_replies tl) m = Some cm -> ~ unlocked f w i cm.
Proof.
  induction h as [h IH] using lt_wf_ind. intros tl jl el co Bh Er Lk Nl Lt Hh Ht.
  destruct (lock_event _ _ _ Er Lk) as (el' & Nl' & Il & Ol & Ml & _ & _ & Hl1 & Hl2). rewrite Nl in Nl'. injection Nl' as <-.
  destruct (fall h) as (t & j & eu & cu & Nu & Iu & Ou & Mu & Pu & Eu & Un & Rel); [places_lia|apply Ht; places_lia|exact Hh|].
  destruct (Hdisc t j cu Eu Un) as (k & co' & Lkj & Ek & Lk' & None_between).
  destruct (lock_event _ _ _ Ek Lk') as (ek & Nk & Ik & Ok & Mk & _ & _ & Hk1 & Hk2).
  assert (Pk : place (what ek) < h) by (rewrite <- Pu; eapply in_order'; eassumption).
  pose proof (modifies_place ek Ik Mk) as Bk. pose proof (modifies_place el Il Ml) as Bl.
  assert (Same : place (what ek) = place (what el)).
  { destruct (Nat.lt_trichotomy (place (what ek)) (place (what el))) as [L|[L|L]]; [|exact L|]; exfalso.
    - destruct (first_fall (place (what ek)) (place (what el) - 1) Hk2 Hl1 ltac:(places_lia)) as (h' & B' & F' & T').
      destruct (IH h' ltac:(places_lia) t k ek co') as (j2 & e2 & c2 & L2 & N2 & P2 & O2 & M2 & E2 & U2 & _); try assumption; try places_lia.
      apply (None_between j2 c2); [|exact E2|exact U2]. split; [exact L2|]. eapply (in_order t j2 e2 j eu); try assumption. places_lia.
    - rewrite Ht in Hk1 by places_lia. discriminate. }
  assert (Et : (t, k) = (tl, jl)) by (eapply same_place; eassumption).
  injection Et as -> ->. exists j, eu, cu. repeat split; try assumption; apply Un.
Qed.

Lemma lock_ordered ta ja ca tb jb cb ea eb : nth_error (the_replies ta) ja = Some ca -> locked f w i ca -> event_at evss (ta, ja) = Some ea ->
  nth_error (the_replies tb) jb = Some cb -> locked f w i cb -> event_at evss (tb, jb) = Some eb -> place (what ea) < place (what eb) ->
  exists ju, section_end f w i (the_replies ta) ja ju /\ happens_before evss (ta, ju) (tb, jb).
Proof.
  intros Era La Na Erb Lb Nb Lt.
  destruct (lock_event _ _ _ Era La) as (ea' & Na' & Ia & Oa & Ma & _ & _ & _ & Ha2). rewrite Na in Na'. injection Na' as <-.
  destruct (lock_event _ _ _ Erb Lb) as (eb' & Nb' & Ib & Ob & Mb & Acq & Rd & Hb1 & _). rewrite Nb in Nb'. injection Nb' as <-.
  pose proof (modifies_place _ Ia Ma) as Ba. pose proof (modifies_place _ Ib Mb) as Bb. rewrite Ob in Bb.
  destruct (first_fall (place (what ea)) (place (what eb) - 1) Ha2 Hb1 ltac:(places_lia)) as (h & Bh & Fh & Th).
  destruct (owner h ta ja ea ca) as (ju & eu & cu & L & Nu & Pu & Ou & Mu & Eu & Un & Rel & Nb'); try assumption; try places_lia.
  exists ju. split; [split; [exact L|]; split; [eauto|exact Nb']|]. apply hb_synchronizes.
  exists eu, eb, h, (place (what eb) - 1). split; [exact Nu|]. split; [exact Nb|]. split; [congruence|]. split; [exact Rel|]. split; [exact Acq|].
  split; [now apply writes_place|]. split; [exact Rd|]. split; [places_lia|].
  intros e2 k2 I2 O2 W2 _. apply event_at_in in I2 as ([t2 j2] & N2). destruct (ev_rep _ _ _ N2) as (co2 & Er2 & Hx2).
  destruct (call_of e2 co2 Hx2 ltac:(congruence) (rep_in _ _ _ Er2)) as (b2 & Ea2 & Nr & _). apply access_reads. rewrite (expl_access objs contents e2 co2 Hx2), Ea2. exact Nr.
Qed.
Lemma mutual_exclusion ta ja ca tb jb cb : nth_error (the_replies ta) ja = Some ca -> locked f w i ca ->
  nth_error (the_replies tb) jb = Some cb -> locked f w i cb -> (ta, ja) <> (tb, jb) ->
  (exists ju, section_end f w i (the_replies ta) ja ju /\ happens_before evss (ta, ju) (tb, jb)) \/
  (exists ju, section_end f w i (the_replies tb) jb ju /\ happens_before evss (tb, ju) (ta, ja)).
Proof.
  intros Era La Erb Lb Ne.
  destruct (lock_event _ _ _ Era La) as (ea & Na & Ia & Oa & Ma & _). destruct (lock_event _ _ _ Erb Lb) as (eb & Nb & Ib & Ob & Mb & _).
  destruct (Nat.lt_trichotomy (place (what ea)) (place (what eb))) as [L|[L|L]].
  - left. eapply lock_ordered; eassumption.
  - exfalso. apply Ne. eapply same_place; eassumption.
  - right. eapply lock_ordered; eassumption.
Qed.
End Lock.
