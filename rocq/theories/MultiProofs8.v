(** Calls on one object take effect in turn, whatever their memory orders. *)
From Coq Require Import Permutation.
From Verif Require Import Base BaseLemmas BitModel BitsetModel BitsetSpec BitsetProofs ConcModel RelaxedModel RelaxedProofs AtomicModel AtomicSpec AtomicProofs.
From Verif Require Import AtomicBitsetModel AtomicBitsetSpec AtomicBitsetProofs AtomicProps MultiModel MultiSpec MultiProofs MultiProofs2 MultiProofs3 MultiProofs4 MultiProofs5 MultiProofs6 MultiProofs7 RaceSpec.
Open Scope nat_scope.

(** * Increasing lists *)
Lemma increasing_same (l l' : list nat) : ForallOrdPairs lt l -> ForallOrdPairs lt l' -> (forall k, In k l <-> In k l') -> l = l'.
Proof.
  intros H. revert l'. induction H as [|a l Ha Hl IH]; intros l' H' E.
  - destruct l' as [|b l']; [reflexivity|]. exfalso. apply (E b). now left.
  - destruct H' as [|b l' Hb Hl']; [exfalso; apply (E a); now left|]. rewrite Forall_forall in *.
    assert (a = b) as <-.
    { destruct (proj1 (E a) (or_introl eq_refl)) as [<-|I]; [reflexivity|]. destruct (proj2 (E b) (or_introl eq_refl)) as [<-|J]; [reflexivity|].
      pose proof (Hb a I). pose proof (Ha b J). lia. }
    f_equal. apply IH; [exact Hl'|]. intros k. split; intros I.
    + destruct (proj1 (E k) (or_intror I)) as [<-|J]; [|exact J]. pose proof (Ha a I). lia.
    + destruct (proj2 (E k) (or_intror I)) as [<-|J]; [|exact J]. pose proof (Hb a I). lia.
Qed.
Lemma increasing_filter_seq (f : nat -> bool) k : forall a, ForallOrdPairs lt (filter f (seq a k)).
Proof.
  induction k as [|k IH]; intros a; cbn; [constructor|]. destruct (f a); [|apply IH]. constructor; [|apply IH].
  apply Forall_forall. intros b I. apply filter_In in I as [I _]. apply in_seq in I. lia.
Qed.

Section Exec.
Context (w : nat -> N) (contents : nat -> nat -> N) (n : nat -> nat) (evss : list (list mevent)) (X : mexecution w contents n evss).

(** * Arranging events *)
Section Arrange.
Context (P : nat -> bool) (R : name -> name -> Prop).
Context (Tr : forall a b c, R a b -> R b c -> R a c) (Ir : forall a, ~ R a a) (De : forall a b, R a b \/ ~ R a b).
Context (Sq : forall a b ea eb, sequenced a b -> event_at evss a = Some ea -> event_at evss b = Some eb -> P (object ea) = true -> P (object eb) = true -> R a b).
Context (Un : forall a b ea eb, event_at evss a = Some ea -> event_at evss b = Some eb -> a <> b -> P (object ea) = true -> P (object eb) = true -> ~ R b a -> unbroken ea eb).
Lemma arranged : exists l, NoDup l /\ (forall a, In a l <-> exists e, event_at evss a = Some e /\ P (object e) = true) /\
  ForallOrdPairs (fun a b => ~ R b a) l /\ ForallOrdPairs (fun a b : name => fst a = fst b -> snd a < snd b) l /\
  merges (concat (map (event_of_name evss) l)) (map (filter (fun e => P (object e))) evss) /\ ForallOrdPairs unbroken (map snd (concat (map (event_of_name evss) l))).
Proof.
  clear X. destruct (sort_by R Tr Ir De (filter (on_P evss P) (names evss))) as (l & Pm & O). exists l.
  assert (D : NoDup l) by (eapply Permutation_NoDup; [exact Pm|apply NoDup_filter, names_once]).
  assert (In' : forall a, In a l <-> exists e, event_at evss a = Some e /\ P (object e) = true).
  { intros a. split.
    - intros I. apply (Permutation_in _ (Permutation_sym Pm)), filter_In in I as [_ I]. unfold on_P in I. destruct (event_at evss a) as [e|]; [eauto|discriminate].
    - intros (e & E & Po). eapply Permutation_in; [exact Pm|]. apply filter_In. split; [apply names_in; congruence|]. unfold on_P. now rewrite E. }
  assert (T : ForallOrdPairs (fun a b : name => fst a = fst b -> snd a < snd b) l).
  { assert (In1 : forall a, In a l -> exists e, event_at evss a = Some e /\ P (object e) = true) by (intros a; apply In'). clear Pm In'.
    induction O as [|a r Ha Hr IH]; constructor; [|apply IH; [now inversion D|intros; apply In1; now right]]. rewrite Forall_forall in *. inversion D as [|? ? Na _]; subst. intros b I E.
    destruct (Nat.lt_trichotomy (snd a) (snd b)) as [L|[L|L]]; [exact L|exfalso; apply Na; replace a with b; [exact I|destruct a, b; cbn in *; congruence]|exfalso].
    destruct (In1 a (or_introl eq_refl)) as (ea & Ea & Pa). destruct (In1 b (or_intror I)) as (eb & Eb & Pb).
    apply (Ha b I). apply (Sq b a eb ea); auto. split; congruence. }
  split; [exact D|]. split; [exact In'|]. split; [exact O|]. split; [exact T|]. split.
  - intros i. change [] with (filter (fun e => P (object e)) []). rewrite map_nth.
    assert (G : forall r, map snd (filter (fun e => fst e =? i) (concat (map (event_of_name evss) r))) =
      concat (map (fun k => match event_at evss (i, k) with Some e => [e] | None => [] end) (map snd (filter (fun a : name => fst a =? i) r)))).
    { induction r as [|[t k] r IH]; [reflexivity|]. cbn [map concat filter]. rewrite filter_app, map_app, IH. unfold event_of_name. cbn [fst].
      destruct (Nat.eqb_spec t i) as [->|N]; cbn [map concat snd]; destruct (event_at evss _) as [e|]; cbn [filter map fst snd app]; rewrite ?Nat.eqb_refl; try reflexivity.
      destruct (Nat.eqb_spec t i); [contradiction|reflexivity]. }
    rewrite G.
    assert (E : map snd (filter (fun a : name => fst a =? i) l) = filter (fun k => on_P evss P (i, k)) (seq 0 (length (nth i evss [])))).
    { apply increasing_same; [|apply increasing_filter_seq|].
      - apply FOP_map. assert (T' : ForallOrdPairs (fun a b : name => fst a = fst b -> snd a < snd b) (filter (fun a : name => fst a =? i) l)) by now apply FOP_filter.
        assert (Fi : forall a, In a (filter (fun a : name => fst a =? i) l) -> fst a = i) by (intros a I; apply filter_In in I as [_ I]; now apply Nat.eqb_eq).
        clear - T' Fi. induction T' as [|a r Ha Hr IH]; constructor; [|apply IH; intros; apply Fi; now right].
        rewrite Forall_forall in *. intros b I. apply (Ha b I). rewrite (Fi a), (Fi b); [reflexivity|now right|now left].
      - intros k. rewrite in_map_iff, filter_In, in_seq. unfold on_P. split.
        + intros ([t k'] & <- & I). apply filter_In in I as [I Et]. cbn in *. apply Nat.eqb_eq in Et. subst t. apply In' in I as (e & Ee & Pe). rewrite Ee. split; [|exact Pe].
          rewrite event_at_nth in Ee. cbn in Ee. split; [lia|]. apply nth_error_Some. congruence.
        + intros [_ H]. destruct (event_at evss (i, k)) as [e|] eqn:Ee; [|discriminate]. exists (i, k). split; [reflexivity|]. apply filter_In. cbn. rewrite Nat.eqb_refl. split; [apply In'; eauto|reflexivity]. }
    rewrite E. clear. unfold on_P.
    assert (K : forall evs s, (forall j, nth_error evs j = event_at evss (i, s + j)) ->
      concat (map (fun j => match event_at evss (i, j) with Some e => [e] | None => [] end) (filter (fun k => match event_at evss (i, k) with Some e => P (object e) | None => false end) (seq s (length evs)))) = filter (fun e => P (object e)) evs).
    { induction evs as [|e evs IH]; intros s H; [reflexivity|]. cbn [length seq filter]. pose proof (H 0) as H0. rewrite Nat.add_0_r in H0. cbn in H0. rewrite <- H0.
      assert (H' : forall j, nth_error evs j = event_at evss (i, S s + j)) by (intros j; specialize (H (S j)); rewrite Nat.add_succ_r in H; exact H).
      destruct (P (object e)); cbn [map concat]; [|now apply IH]. rewrite <- H0. cbn. f_equal. now apply IH. }
    apply K. intros j. now rewrite event_at_nth.
  - assert (In1 : forall a, In a l -> exists e, event_at evss a = Some e /\ P (object e) = true) by (intros a; apply In'). clear Pm In' T.
    apply FOP_map. induction O as [|a r Ha Hr IH]; [constructor|]. inversion D as [|? ? Na D']; subst. specialize (IH D' ltac:(intros; apply In1; now right)). cbn [map concat]. unfold event_of_name at 1.
    destruct (event_at evss a) as [ea|] eqn:Ea; [|exact IH]. cbn [app]. constructor; [|exact IH].
    apply Forall_forall. intros [t eb] I. apply in_concat in I as (q & I1 & I2). apply in_map_iff in I1 as (b & <- & I1). unfold event_of_name in I2.
    destruct (event_at evss b) as [eb'|] eqn:Eb; [|destruct I2]. destruct I2 as [E|[]]. injection E as _ <-. cbn. rewrite Forall_forall in Ha.
    destruct (In1 a (or_introl eq_refl)) as (e & E & Pa). destruct (In1 b (or_intror I1)) as (e2 & E2 & Pb).
    apply (Un a b ea eb' Ea Eb); [intros ->; contradiction|congruence|congruence|apply Ha; exact I1].
Qed.
End Arrange.

(** * The events on one object *)
Context (x : nat).
(** By the modification they make or read; the modification before those that read it. *)
Definition goes_first (ea eb : mevent) : Prop :=
  place (what ea) < place (what eb) \/ place (what ea) = place (what eb) /\ modifies (what ea) = true /\ modifies (what eb) = false.
Definition turn (a b : name) : Prop :=
  match event_at evss a, event_at evss b with
  | Some ea, Some eb => goes_first ea eb \/ place (what ea) = place (what eb) /\ modifies (what ea) = false /\ modifies (what eb) = false /\ sequenced a b
  | _, _ => False
  end.
Lemma reads_place a : modifies a = false -> reads_at a = Some (place a).
Proof. unfold modifies, reads_at. now destruct (performed a). Qed.
Lemma read_place a i : reads_at a = Some i -> i = if modifies a then place a - 1 else place a.
Proof. unfold modifies, reads_at. destruct (performed a); cbn; congruence. Qed.
Lemma turn_sequenced a b ea eb : sequenced a b -> event_at evss a = Some ea -> event_at evss b = Some eb -> object ea = x -> object eb = x -> turn a b.
Proof.
  intros S Ea Eb Oa Ob. unfold turn. rewrite Ea, Eb. unfold goes_first.
  destruct (hb_coherence _ _ _ _ X a b ea eb (hb_sequenced _ _ _ S) Ea Eb ltac:(congruence)) as (WW & RR & RW & WR).
  destruct (modifies (what ea)) eqn:Ma, (modifies (what eb)) eqn:Mb.
  - left. left. apply WW; now apply writes_place.
  - pose proof (WR (place (what ea)) (place (what eb)) ltac:(now apply writes_place) ltac:(now apply reads_place)). left. destruct (Nat.eq_dec (place (what ea)) (place (what eb))); [right; auto|left; lia].
  - left. left. apply (RW (place (what ea)) (place (what eb))); [now apply reads_place|now apply writes_place].
  - pose proof (RR (place (what ea)) (place (what eb)) ltac:(now apply reads_place) ltac:(now apply reads_place)).
    destruct (Nat.eq_dec (place (what ea)) (place (what eb))); [right; auto|left; left; lia].
Qed.
Lemma place_once a b ea eb : event_at evss a = Some ea -> event_at evss b = Some eb -> object ea = x -> object eb = x ->
  modifies (what ea) = true -> modifies (what eb) = true -> place (what ea) = place (what eb) -> a = b.
Proof.
  intros Ea Eb Oa Ob Ma Mb Same. assert (St : forall c d ec ed, event_at evss c = Some ec -> event_at evss d = Some ed -> object ec = x -> object ed = x ->
    modifies (what ec) = true -> modifies (what ed) = true -> sequenced c d -> place (what ec) < place (what ed)).
  { intros c d ec ed Ec Ed Oc Od Mc Md S. destruct (hb_coherence _ _ _ _ X c d ec ed (hb_sequenced _ _ _ S) Ec Ed ltac:(congruence)) as (WW & _). apply WW; now apply writes_place. }
  destruct a as [t k], b as [tl jl]. destruct (Nat.eq_dec t tl) as [->|Nt].
  - destruct (Nat.lt_trichotomy k jl) as [L|[L|L]]; [|now subst k|].
    + pose proof (St _ _ _ _ Ea Eb Oa Ob Ma Mb (conj eq_refl L)). lia.
    + pose proof (St _ _ _ _ Eb Ea Ob Oa Mb Ma (conj eq_refl L)). lia.
  - exfalso. clear St. rename Ea into Nk, Eb into Nl, ea into ek, eb into el, Oa into Ok, Ob into Ol, Ma into Mk, Mb into Ml.
    assert (D : NoDup (map place (filter modifies (on x (concat evss))))) by (eapply Permutation_NoDup; [apply Permutation_sym, (places _ _ _ _ X)|apply seq_NoDup]).
    clear - D Nk Nl Ok Ol Mk Ml Same Nt. unfold event_at in Nk, Nl. cbn [fst snd] in Nk, Nl.
    set (pl := fun l => map place (filter modifies (on x l))) in *.
    assert (Sp : forall a b, pl (a ++ b) = pl a ++ pl b) by (intros; unfold pl, on; now rewrite filter_app, map_app, filter_app, map_app).
    destruct (nth_error evss t) as [lt|] eqn:Et; [|discriminate]. destruct (nth_error evss tl) as [ll|] eqn:Etl; [|discriminate].
    assert (In2 : forall (l : list mevent) j e, nth_error l j = Some e -> object e = x -> modifies (what e) = true -> In (place (what e)) (pl l)).
    { intros l j e E O M. apply in_map, filter_In. split; [|exact M]. apply on_in. exists e. eauto using nth_error_In. }
    pose proof (In2 _ _ _ Nk Ok Mk) as I1. pose proof (In2 _ _ _ Nl Ol Ml) as I2. rewrite Same in I1. clear In2 Nk Nl Ok Ol Mk Ml Same.
    change (NoDup (pl (concat evss))) in D. clearbody pl.
    revert t tl Et Etl Nt D. induction evss as [|l ls IHl]; intros t tl Et Etl Nt D; [destruct t; discriminate|].
    cbn [concat] in D. rewrite Sp in D.
    assert (Tail : forall u l0, nth_error ls u = Some l0 -> In (place (what el)) (pl l0) -> In (place (what el)) (pl (concat ls))).
    { intros u l0 Eu0 I0. apply nth_error_split in Eu0 as (l1 & l2 & -> & _). rewrite concat_app. cbn [concat]. rewrite !Sp. apply in_or_app. right. apply in_or_app. now left. }
    assert (Dj : forall y, In y (pl l) -> In y (pl (concat ls)) -> False).
    { clear - D. induction (pl l) as [|a m IHm]; cbn in *; [intros y []|]. inversion D as [|? ? D1 D2]; subst. intros y [<-|I1] I2.
      - apply D1. apply in_or_app. now right.
      - eapply IHm; eassumption. }
    destruct t as [|t], tl as [|tl]; cbn [nth_error] in *; try congruence.
    + injection Et as <-. eapply Dj; [exact I1|]. eapply Tail; eassumption.
    + injection Etl as <-. eapply Dj; [exact I2|]. eapply Tail; eassumption.
    + apply (IHl t tl Et Etl); [congruence|]. clear - D. induction (pl l); [exact D|]. inversion D; subst; auto.
Qed.
Lemma modified_place a ea : event_at evss a = Some ea -> modifies (what ea) = true -> 1 <= place (what ea) <= n (object ea).
Proof.
  intros Ea M. assert (P : In (place (what ea)) (seq 1 (n (object ea)))).
  { eapply Permutation_in; [apply (places _ _ _ _ X)|]. apply in_map, filter_In. split; [|exact M]. apply on_in. exists ea. split; [apply event_at_in; eauto|auto]. }
  apply in_seq in P. lia.
Qed.
Lemma object_order : exists l, NoDup l /\ (forall a, In a l <-> exists e, event_at evss a = Some e /\ (object e =? x) = true) /\
  ForallOrdPairs (fun a b => ~ turn b a) l /\ ForallOrdPairs (fun a b : name => fst a = fst b -> snd a < snd b) l /\
  merges (concat (map (event_of_name evss) l)) (map (filter (fun e => object e =? x)) evss) /\ ForallOrdPairs unbroken (map snd (concat (map (event_of_name evss) l))).
Proof.
  apply (arranged (fun y => y =? x) turn).
  - intros a b c. unfold turn, goes_first. destruct (event_at evss a) as [ea|]; [|intros []]. destruct (event_at evss b) as [eb|]; [|intros []]. destruct (event_at evss c) as [ec|]; [|intros _ []].
    intros [[H|(H & Ma & Mb)]|(H & Ma & Mb & S)] [[H'|(H' & Mb' & Mc)]|(H' & Mb' & Mc & S')]; try congruence; try (left; left; lia).
    + left. right. rewrite H. auto.
    + right. split; [congruence|]. repeat split; auto; destruct S, S'; [congruence|lia].
  - intros a. unfold turn, goes_first. destruct (event_at evss a) as [ea|]; [|intros []]. intros [[H|(_ & A & B)]|(_ & _ & _ & (_ & H))]; [lia|congruence|lia].
  - intros a b. unfold turn, goes_first. destruct (event_at evss a) as [ea|]; [|right; intros []]. destruct (event_at evss b) as [eb|]; [|right; intros []].
    assert (Sd : sequenced a b \/ ~ sequenced a b).
    { unfold sequenced. destruct (Nat.eq_dec (fst a) (fst b)), (lt_dec (snd a) (snd b)); tauto. }
    destruct (lt_dec (place (what ea)) (place (what eb))), (Nat.eq_dec (place (what ea)) (place (what eb))), (modifies (what ea)), (modifies (what eb)); destruct Sd; try tauto;
      try (right; intros [[?|(? & ? & ?)]|(? & ? & ? & ?)]; (congruence || lia || tauto)).
  - intros a b ea eb S Ea Eb Oa Ob. apply Nat.eqb_eq in Oa, Ob. eapply turn_sequenced; eassumption.
  - intros a b ea eb Ea Eb N Oa Ob H O. apply Nat.eqb_eq in Oa, Ob. unfold turn in H. rewrite Ea, Eb in H.
    assert (G : ~ goes_first eb ea) by tauto. unfold goes_first in G.
    assert (Same : modifies (what ea) = true -> modifies (what eb) = true -> place (what ea) <> place (what eb)).
    { intros Ma Mb E. apply N. eapply place_once; eassumption. }
    assert (Pa : modifies (what ea) = true -> 1 <= place (what ea)).
    { intros M. eapply modified_place in M; [lia|eassumption]. }
    assert (Pb : modifies (what eb) = true -> 1 <= place (what eb)).
    { intros M. eapply modified_place in M; [lia|eassumption]. }
    intros C. assert (K : modifies (what ea) = true /\ modifies (what eb) = true /\ place (what eb) <= place (what ea) \/
      modifies (what eb) = true /\ modifies (what ea) = false /\ place (what eb) <= place (what ea) \/
      modifies (what eb) = false /\ place (what eb) < place (what ea)).
    { destruct C as [(i & j & H1 & H2 & L)|[(i & j & H1 & H2 & L)|[(i & j & H1 & H2 & L)|(i & j & H1 & H2 & L)]]];
        repeat match goal with
          | H0 : writes_at _ = Some _ |- _ => apply writes_place in H0 as [? ?]
          | H0 : reads_at _ = Some _ |- _ => apply read_place in H0
        end; destruct (modifies (what ea)), (modifies (what eb)); try discriminate; try specialize (Pa eq_refl); try specialize (Pb eq_refl); subst; try lia;
        (left; repeat split; lia) || (right; left; repeat split; lia) || (right; right; repeat split; lia). }
    destruct K as [(Ma & Mb & L)|[(Mb & Ma & L)|(Mb & L)]].
    + apply G. left. pose proof (Same Ma Mb). lia.
    + apply G. destruct (Nat.eq_dec (place (what eb)) (place (what ea))); [right; auto|left; lia].
    + apply G. now left.
Qed.
End Exec.

Section Objs.
Context (objs : nat -> object_type) (st : nat -> obj_state) (programs : list (list call)) (contents : nat -> nat -> N) (n : nat -> nat).
Context (evss : list (list mevent)) (ts : list (mthread call reply)) (outss : list (list (call * reply))).
Context (Run : shared_run objs st programs contents n evss ts outss) (x : nat).
Notation rs := (replies ts outss).

Lemma on_its_own : exists l st', one_after_the_other objs st rs (fun y => y =? x) l st' /\ ForallOrdPairs (fun a b => ~ turn evss b a) l /\ represents (objs x) (contents x (n x)) (st' x).
Proof.
  destruct Run as [Ty Hi Hg Hr X]. destruct (object_order _ contents n evss X x) as (l & D & Pl & O & T & Ms & Os).
  destruct (sequential_on _ (code objs) target (fun c => wanted (asked c)) (good_call objs) (fun x => represents (objs x)) _ (code_single objs Ty) contents n evss X programs ts outss Hg Hr st Hi (fun y => y =? x) l Pl Ms Os) as (calls & st' & Fc & Tu & HR).
  exists l, st'. split; [|split; [exact O|apply HR, Nat.eqb_refl]]. split; [|exact D|exact T|exists calls; split; [exact Fc|now apply turns_in_turn]].
  intros t k. rewrite (Pl (t, k)). split.
  - intros (e & E & Po). destruct (ev_rep objs Ty contents n programs evss ts outss st Hi Hg Hr X t k e E) as (co & F & Hx). exists co. split; [exact F|].
    pose proof (ex_target _ _ _ _ _ _ _ _ _ Hx). congruence.
  - intros (co & F & Po). destruct (rep_ev objs Ty contents n programs evss ts outss st Hi Hg Hr X t k co F) as (e & E & Hx). exists e. split; [exact E|].
    pose proof (ex_target _ _ _ _ _ _ _ _ _ Hx). congruence.
Qed.
(** A releasing call is seen by an acquiring one that comes later, if no call on the object replaces it. *)
Lemma turns_synchronize ta ja ca oa tb jb cb ob : nth_error (rs ta) ja = Some (ca, oa) -> nth_error (rs tb) jb = Some (cb, ob) -> target ca = x -> target cb = x ->
  access_of (asked ca) = Changes -> access_of (asked cb) = Changes -> releases (wanted (asked ca)) = true -> acquires (wanted (asked cb)) = true ->
  (forall t j c o, nth_error (rs t) j = Some (c, o) -> target c = x -> access_of (asked c) <> Replaces) ->
  (ta, ja) <> (tb, jb) -> ~ turn evss (tb, jb) (ta, ja) -> happens_before evss (ta, ja) (tb, jb).
Proof.
  destruct Run as [Ty Hi Hg Hr X]. intros Ea Eb Ta Tb Aa Ab Ra Qb Rep N Nt.
  destruct (rep_ev objs Ty contents n programs evss ts outss st Hi Hg Hr X ta ja _ Ea) as (ea & Na & Xa). destruct (rep_ev objs Ty contents n programs evss ts outss st Hi Hg Hr X tb jb _ Eb) as (eb & Nb & Xb).
  assert (Oa : object ea = x) by (rewrite <- (ex_target _ _ _ _ _ _ _ _ _ Xa); exact Ta). assert (Ob : object eb = x) by (rewrite <- (ex_target _ _ _ _ _ _ _ _ _ Xb); exact Tb).
  assert (Ma : modifies (what ea) = true) by (rewrite access_modifies, (expl_access objs contents _ _ Xa); cbn; now rewrite Aa).
  assert (Mb : modifies (what eb) = true) by (rewrite access_modifies, (expl_access objs contents _ _ Xb); cbn; now rewrite Ab).
  assert (Rb : reads_at (what eb) = Some (place (what eb) - 1)).
  { assert (S : since eb = place (what eb) - 1) by (unfold since; now rewrite Mb). rewrite <- S. apply reads_since, access_reads. rewrite (expl_access objs contents _ _ Xb). cbn. rewrite Ab. discriminate. }
  apply hb_synchronizes. exists ea, eb, (place (what ea)), (place (what eb) - 1). split; [exact Na|]. split; [exact Nb|]. split; [congruence|].
  split; [rewrite <- (ex_order _ _ _ _ _ _ _ _ _ Xa); exact Ra|]. split; [rewrite <- (ex_order _ _ _ _ _ _ _ _ _ Xb); exact Qb|].
  split; [now apply writes_place|]. split; [exact Rb|]. split.
  - unfold turn in Nt. rewrite Na, Nb in Nt. unfold goes_first in Nt. assert (P : place (what ea) <> place (what eb)) by (intros P; apply N; exact (place_once _ contents n evss X x _ _ _ _ Na Nb Oa Ob Ma Mb P)).
    assert (~ place (what eb) < place (what ea)) by tauto. lia.
  - intros e k I Oe We _. apply event_at_in in I as ([t j] & Ne). destruct (ev_rep objs Ty contents n programs evss ts outss st Hi Hg Hr X t j e Ne) as ([c o] & F & Hx).
    apply access_reads. rewrite (expl_access objs contents _ _ Hx). cbn. apply (Rep t j c o F). pose proof (ex_target _ _ _ _ _ _ _ _ _ Hx) as E. cbn in E. congruence.
Qed.
End Objs.
