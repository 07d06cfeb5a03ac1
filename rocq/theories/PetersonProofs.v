From Coq Require Import Permutation.
From Verif Require Import Base BaseLemmas BitModel BitsetSpec ConcModel RelaxedModel RelaxedProofs AtomicModel AtomicSpec AtomicBitsetModel AtomicBitsetSpec MultiModel MultiSpec MultiProofs MultiProofs2 MultiProofs3 MultiProofs4 PetersonSpec.
Open Scope nat_scope.

Section Run.
Context (objs : nat -> object_type) (st : nat -> obj_state) (programs : list (list call)) (contents : nat -> nat -> N) (n : nat -> nat).
Context (evss : list (list mevent)) (ts : list (mthread call reply)) (outss : list (list (call * reply))).
Context (R : shared_run objs st programs contents n evss ts outss).
Notation rs := (replies ts outss).
Notation expl := (explains (code objs) target (fun c => wanted (asked c)) (good_call objs) (fun x => represents (objs x)) (fun s c o s' => effect (objs (target c)) s (asked c) o s') contents).

Lemma r_ev t k co : nth_error (rs t) k = Some co -> exists e, event_at evss (t, k) = Some e /\ expl e co /\ object e = target (fst co) /\ In e (concat evss).
Proof.
  destruct R as [Ty Hi Hg Hr X]. intros E. destruct (rep_ev objs Ty contents n programs evss ts outss st Hi Hg Hr X t k co E) as (e & Ee & Hx).
  exists e. split; [exact Ee|]. split; [exact Hx|]. split; [symmetry; exact (ex_target _ _ _ _ _ _ _ _ _ Hx)|]. apply event_at_in. eauto.
Qed.
Lemma r_rep t k e : event_at evss (t, k) = Some e -> exists co, nth_error (rs t) k = Some co /\ expl e co /\ object e = target (fst co) /\ In e (concat evss).
Proof.
  destruct R as [Ty Hi Hg Hr X]. intros E. destruct (ev_rep objs Ty contents n programs evss ts outss st Hi Hg Hr X t k e E) as (co & Ee & Hx).
  exists co. split; [exact Ee|]. split; [exact Hx|]. split; [symmetry; exact (ex_target _ _ _ _ _ _ _ _ _ Hx)|]. apply event_at_in. eauto.
Qed.
Lemma r_in t k co : nth_error (rs t) k = Some co -> In (fst co) (concat programs).
Proof. destruct R as [Ty Hi Hg Hr X]. exact (rep_in objs Ty contents programs evss ts outss st Hi Hg Hr t k co). Qed.
Lemma r_mod e co : expl e co -> modifies (what e) = match access_of (asked (fst co)) with Reads => false | _ => true end.
Proof. intros Hx. rewrite access_modifies. destruct R as [Ty _ _ _ _]. now rewrite (expl_access objs contents e co Hx). Qed.
Lemma r_order e co : expl e co -> order e = wanted (asked (fst co)).
Proof. intros Hx. symmetry. exact (ex_order _ _ _ _ _ _ _ _ _ Hx). Qed.
Lemma r_reads e co : expl e co -> access_of (asked (fst co)) <> Replaces -> reads_at (what e) = Some (since e).
Proof. intros Hx A. apply reads_since, access_reads. now rewrite (expl_access objs contents e co Hx). Qed.
(** Program order, on one object. *)
Lemma po_coherent t j e j' e' : event_at evss (t, j) = Some e -> event_at evss (t, j') = Some e' -> object e = object e' -> j < j' -> coherent (what e) (what e').
Proof. destruct R as [_ _ _ _ X]. intros E E' O L. apply (hb_coherence _ _ _ _ X (t, j) (t, j')); try assumption. apply hb_sequenced. split; [reflexivity|exact L]. Qed.
Lemma po_writes t j e j' e' : event_at evss (t, j) = Some e -> event_at evss (t, j') = Some e' -> object e = object e' ->
  modifies (what e) = true -> modifies (what e') = true -> place (what e) < place (what e') -> j < j'.
Proof.
  intros E E' O M M' L. destruct (Nat.lt_trichotomy j j') as [H|[H|H]]; [exact H| |]; exfalso.
  - subst j'. rewrite E in E'. injection E' as <-. lia.
  - destruct (po_coherent t j' e' j e E' E (eq_sym O) H) as (WW & _). specialize (WW (place (what e')) (place (what e)) ltac:(now apply writes_place) ltac:(now apply writes_place)). lia.
Qed.
(** The value of an atomic after [k] modifications. *)
Definition value (x k : nat) : N := match objs x with Int _ w _ _ _ => (contents x k mod 2 ^ w)%N | _ => 0%N end.
Lemma put_value x v e co : (exists iw w ew sg esg, objs x = Int iw w ew sg esg) -> expl e co -> object e = x -> puts x v (fst co) ->
  modifies (what e) = true /\ value x (place (what e)) = v.
Proof.
  intros (iw & w & ew & sg & esg & Ox) Hx O (T & i & A & P). split.
  - rewrite (r_mod _ _ Hx), A. cbn. destruct P as [-> | [-> | ->]]; reflexivity.
  - destruct (ex_effect _ _ _ _ _ _ _ _ _ Hx) as (s & s' & R1 & Ef & R2). cbn in Ef. rewrite O in R1, R2. rewrite T, A, Ox in Ef. unfold represents in *. rewrite Ox in R1, R2. unfold value. rewrite Ox.
    destruct s as [|m]; [contradiction|]. destruct (snd co) as [|o]; [contradiction|]. destruct s' as [|m']; [contradiction|]. destruct R2 as [_ <-]. cbn in Ef.
    unfold aspec in Ef. destruct P as [P | [P | P]]; rewrite P in Ef; cbn in Ef; congruence.
Qed.
Lemma find_value x r e co : (exists iw w ew sg esg, objs x = Int iw w ew sg esg) -> expl e co -> object e = x -> finds x r co ->
  modifies (what e) = false /\ access_of (asked (fst co)) = Reads /\ value x (place (what e)) = r.
Proof.
  intros (iw & w & ew & sg & esg & Ox) Hx O (T & i & A & P & Rp). assert (Rd : access_of (asked (fst co)) = Reads) by (rewrite A; cbn; now rewrite P).
  split; [rewrite (r_mod _ _ Hx), Rd; reflexivity|]. split; [exact Rd|].
  destruct (ex_effect _ _ _ _ _ _ _ _ _ Hx) as (s & s' & R1 & Ef & R2). cbn in Ef. rewrite O in R1, R2. rewrite T, A, Rp, Ox in Ef. unfold represents in *. rewrite Ox in R1, R2. unfold value. rewrite Ox.
  destruct s as [|m]; [contradiction|]. destruct s' as [|m']; [contradiction|]. destruct R2 as [_ <-]. cbn in Ef. unfold aspec in Ef. rewrite P in Ef. cbn in Ef. congruence.
Qed.
(** What a read after the first modification reads. *)
Lemma read_from t k e co : event_at evss (t, k) = Some e -> expl e co -> modifies (what e) = false -> place (what e) <> 0 ->
  exists u p ep cp, event_at evss (u, p) = Some ep /\ nth_error (rs u) p = Some cp /\ expl ep cp /\ object ep = object e /\ target (fst cp) = object e /\ modifies (what ep) = true /\ place (what ep) = place (what e) /\
    access_of (asked (fst cp)) <> Reads /\
    (releases (wanted (asked (fst cp))) = true -> acquires (wanted (asked (fst co))) = true -> happens_before evss (u, p) (t, k)).
Proof.
  intros E Hx M P. destruct R as [Ty Hi Hg Hr X]. assert (Ie : In e (concat evss)) by (apply event_at_in; eauto).
  destruct (exec_event _ contents n evss X e Ie) as (_ & Bp & _).
  destruct (event_with_place _ contents n evss X (object e) (place (what e)) ltac:(lia)) as (ep & Ip & Op & Mp & Pp).
  apply event_at_in in Ip as ([u p] & Np). destruct (r_rep _ _ _ Np) as (cp & Ep & Hp & Tp & _). exists u, p, ep, cp. repeat (split; [try congruence; assumption|]).
  assert (A : access_of (asked (fst cp)) <> Reads) by (intros A; rewrite (r_mod _ _ Hp), A in Mp; discriminate). split; [exact A|].
  intros Rl Ac. apply hb_synchronizes. exists ep, e, (place (what e)), (place (what e)). split; [exact Np|]. split; [exact E|]. split; [exact Op|].
  split; [now rewrite (r_order _ _ Hp)|]. split; [now rewrite (r_order _ _ Hx)|]. split; [now apply writes_place|].
  split; [|split; [lia|intros; lia]]. rewrite (r_reads _ _ Hx); [unfold since; now rewrite M|]. intros A'. rewrite (r_mod _ _ Hx), A' in M. discriminate.
Qed.

Section Lock.
Context (fa fb turn : nat).
Context (Int_of : forall x, one_of fa fb turn x -> exists iw w ew sg esg, objs x = Int iw w ew sg esg).
Context (RA : release_acquire fa fb turn programs).

(** The thread that yields the turn first leaves first. *)
Lemma first_leaves f g a b to_b to_a k k' i j ei ej ci cj v i' j' ei' ej' ci' cj' v' :
  (forall x, one_of f g turn x -> one_of fa fb turn x) -> a <> b -> NoDup [f; g; turn] -> to_b <> to_a ->
  follows f g turn to_b (rs a) -> follows g f turn to_a (rs b) ->
  (forall t k co, t <> a -> t <> b -> nth_error (rs t) k = Some co -> one_of f g turn (target (fst co)) -> access_of (asked (fst co)) = Reads) ->
  i < j -> j < k -> nth_error (rs a) i = Some ci -> puts f v (fst ci) -> v <> 0%N -> nth_error (rs a) j = Some cj -> puts turn to_b (fst cj) ->
  event_at evss (a, i) = Some ei -> event_at evss (a, j) = Some ej -> enters f g turn to_b (rs a) k ->
  (forall m cm, i < m < k -> m <> j -> nth_error (rs a) m = Some cm -> target (fst cm) = f \/ target (fst cm) = turn -> access_of (asked (fst cm)) = Reads) ->
  i' < j' -> j' < k' -> nth_error (rs b) i' = Some ci' -> puts g v' (fst ci') -> nth_error (rs b) j' = Some cj' -> puts turn to_a (fst cj') ->
  event_at evss (b, i') = Some ei' -> event_at evss (b, j') = Some ej' ->
  (exists ck', nth_error (rs b) k' = Some ck' /\ (finds f 0 ck' \/ exists r, finds turn r ck' /\ r <> to_a)) ->
  place (what ej) < place (what ej') ->
  (forall ek', event_at evss (b, k') = Some ek' -> object ek' = f -> modifies (what ek') = false -> place (what ei) <= place (what ek')) ->
  exists u, k < u /\ lowers f (rs a) u /\ happens_before evss (a, u) (b, k').
Proof.
  intros Sub Nab D2 Nv Fa Fb Oth Lij Ljk Ei Pi Nz Ej Pj Ni Nj En Only Lij' Ljk' Ei' Pi' Ej' Pj' Ni' Nj' (ck' & Ek' & Test) Lt Key.
  assert (Df : f <> g /\ f <> turn /\ g <> turn).
  { inversion D2 as [|? ? N1 D3]; subst. inversion D3 as [|? ? N2 _]; subst. cbn in *. repeat split; intros ->; tauto. }
  destruct Df as (Dfg & Dft & Dgt).
  destruct (r_ev _ _ _ Ek') as (ek' & Nk' & Hk' & Ok' & _).
  destruct (r_ev _ _ _ Ei) as (ei0 & N0 & Hi & Oi & _). rewrite Ni in N0. injection N0 as <-.
  destruct (r_ev _ _ _ Ej) as (ej0 & N0 & Hj & Oj & _). rewrite Nj in N0. injection N0 as <-.
  destruct (r_ev _ _ _ Ej') as (ej0 & N0 & Hj' & Oj' & _). rewrite Nj' in N0. injection N0 as <-.
  pose proof (proj1 Pi) as Ti. pose proof (proj1 Pj) as Tj. pose proof (proj1 Pj') as Tj'.
  destruct (put_value f v ei ci) as [Mi Vi]; [apply Int_of, Sub; now left|exact Hi|congruence|exact Pi|].
  destruct (put_value turn to_b ej cj) as [Mj Vj]; [apply Int_of, Sub; right; now right|exact Hj|congruence|exact Pj|].
  destruct (put_value turn to_a ej' cj') as [Mj' Vj']; [apply Int_of, Sub; right; now right|exact Hj'|congruence|exact Pj'|].
  assert (HB : forall u p t q cu ct, nth_error (rs u) p = Some cu -> nth_error (rs t) q = Some ct -> one_of f g turn (target (fst cu)) -> one_of f g turn (target (fst ct)) ->
    access_of (asked (fst cu)) <> Reads -> access_of (asked (fst ct)) = Reads -> releases (wanted (asked (fst cu))) = true /\ acquires (wanted (asked (fst ct))) = true).
  { intros u p t q cu ct Eu Et Ou Ot Au At. split; [apply (RA _ (r_in _ _ _ Eu) (Sub _ Ou)); exact Au|]. apply (RA _ (r_in _ _ _ Et) (Sub _ Ot)). rewrite At. discriminate. }
  destruct Test as [F0|(r & Fr & Nr)].
  - (* the other flag is down *)
    pose proof (proj1 F0) as Tk. destruct (find_value f 0 ek' ck') as (Mk & Rk & Vk); [apply Int_of, Sub; now left|exact Hk'|congruence|exact F0|].
    specialize (Key ek' Nk' ltac:(congruence) Mk).
    assert (Pi1 : 1 <= place (what ei)).
    { destruct R as [_ _ _ _ X]. apply (modifies_place objs contents n evss X); [apply event_at_in; eauto|exact Mi]. }
    destruct (read_from b k' ek' ck' Nk' Hk' Mk ltac:(lia)) as (u & p & ep & cp & Np & Ep & Hp & Op & Tp & Mp & Pp & Ap & Sy).
    destruct (HB u p b k' cp ck' Ep Ek') as [Rl Ac]; [left; congruence|left; congruence|exact Ap|exact Rk|]. specialize (Sy Rl Ac).
    assert (u = a) as ->.
    { destruct (Nat.eq_dec u a) as [|Na]; [assumption|]. exfalso. apply Ap. destruct (Nat.eq_dec u b) as [-> |Nb]; [apply (other_flag _ _ _ _ _ Fb p cp Ep); congruence|].
      apply (Oth u p cp Na Nb Ep). left. congruence. }
    destruct (own_flag _ _ _ _ _ Fa p cp Ep ltac:(congruence)) as [?|(v0 & Pv)]; [contradiction|].
    destruct (put_value f v0 ep cp) as [_ Vp]; [apply Int_of, Sub; now left|exact Hp|congruence|exact Pv|]. rewrite Pp, Vk in Vp. subst v0.
    assert (Lp : i < p).
    { apply (po_writes a i ei p ep Ni Np ltac:(congruence) Mi Mp). rewrite Pp. assert (place (what ei) <> place (what ek')) by (intros E; rewrite E in Vi; congruence). lia. }
    assert (p <> j) by (intros ->; assert (cp = cj) by congruence; subst cp; destruct Pv as [T _]; congruence).
    assert (k <= p).
    { destruct (Nat.lt_ge_cases p k) as [L|L]; [|exact L]. exfalso. apply Ap. apply (Only p cp); [lia|assumption|exact Ep|left; exact (proj1 Pv)]. }
    assert (p <> k).
    { intros ->. destruct En as (_ & _ & _ & _ & ck & _ & _ & _ & _ & _ & _ & _ & _ & Ek & [(T & i1 & A & L & _)|(r & (T & i1 & A & L & _) & _)] & _); assert (cp = ck) by congruence; subst cp; apply Ap; rewrite A; cbn; now rewrite L. }
    exists p. split; [lia|]. split; [|exact Sy]. exists cp. split; [exact Ep|exact Pv].
  - (* the turn has been yielded *)
    pose proof (proj1 Fr) as Tk. destruct (find_value turn r ek' ck') as (Mk & Rk & Vk); [apply Int_of, Sub; right; now right|exact Hk'|congruence|exact Fr|].
    assert (Lk : place (what ej') <= place (what ek')).
    { destruct (po_coherent b j' ej' k' ek' Nj' Nk' ltac:(congruence) Ljk') as (_ & _ & _ & WR). apply WR; [now apply writes_place|]. rewrite (r_reads _ _ Hk') by (rewrite Rk; discriminate). unfold since. now rewrite Mk. }
    assert (Lk' : place (what ej') < place (what ek')) by (assert (place (what ej') <> place (what ek')) by (intros E; rewrite E in Vj'; congruence); lia).
    destruct (read_from b k' ek' ck' Nk' Hk' Mk ltac:(lia)) as (u & p & ep & cp & Np & Ep & Hp & Op & Tp & Mp & Pp & Ap & Sy).
    destruct (HB u p b k' cp ck' Ep Ek') as [Rl Ac]; [right; right; congruence|right; right; congruence|exact Ap|exact Rk|]. specialize (Sy Rl Ac).
    assert (u = a) as ->.
    { destruct (Nat.eq_dec u a) as [|Na]; [assumption|]. exfalso. destruct (Nat.eq_dec u b) as [-> |Nb].
      - destruct (the_turn _ _ _ _ _ Fb p cp Ep ltac:(congruence)) as [?|Pv]; [contradiction|]. destruct (put_value turn to_a ep cp) as [_ Vp]; [apply Int_of, Sub; right; now right|exact Hp|congruence|exact Pv|]. congruence.
      - apply Ap. apply (Oth u p cp Na Nb Ep). right. right. congruence. }
    destruct (the_turn _ _ _ _ _ Fa p cp Ep ltac:(congruence)) as [?|Pv]; [contradiction|].
    assert (Lp : j < p) by (apply (po_writes a j ej p ep Nj Np ltac:(congruence) Mj Mp); lia).
    assert (k <= p).
    { destruct (Nat.lt_ge_cases p k) as [L|L]; [|exact L]. exfalso. apply Ap. apply (Only p cp); [lia|lia|exact Ep|right; exact (proj1 Pv)]. }
    assert (p <> k).
    { intros ->. destruct En as (_ & _ & _ & _ & ck & _ & _ & _ & _ & _ & _ & _ & _ & Ek & [(T & i1 & A & L & _)|(r0 & (T & i1 & A & L & _) & _)] & _); assert (cp = ck) by congruence; subst cp; apply Ap; rewrite A; cbn; now rewrite L. }
    destruct (leaves_first _ _ _ _ _ Fa k p cp En ltac:(lia) Ep Pv) as (u & Bu & Lw). exists u. split; [lia|]. split; [exact Lw|].
    eapply hb_then; [|exact Sy]. apply hb_sequenced. split; [reflexivity|cbn; lia].
Qed.

(** What the memory orders have to give: the raised flag is seen by the thread that yields second. *)
Definition flags_seen (f : nat) : Prop := forall a i j ei ej b j' k ej' ek, i < j -> j' < k ->
  event_at evss (a, i) = Some ei -> event_at evss (a, j) = Some ej -> event_at evss (b, j') = Some ej' -> event_at evss (b, k) = Some ek ->
  object ei = f -> object ej = turn -> object ej' = turn -> object ek = f ->
  modifies (what ei) = true -> modifies (what ej) = true -> modifies (what ej') = true -> modifies (what ek) = false ->
  place (what ej) < place (what ej') -> place (what ei) <= place (what ek).

Lemma mutual a b to_b to_a k k' : peterson fa fb turn rs a b to_b to_a -> flags_seen fa -> flags_seen fb ->
  enters fa fb turn to_b (rs a) k -> enters fb fa turn to_a (rs b) k' ->
  (exists u, k < u /\ lowers fa (rs a) u /\ happens_before evss (a, u) (b, k')) \/
  (exists u, k' < u /\ lowers fb (rs b) u /\ happens_before evss (b, u) (a, k)).
Proof.
  intros [Nab D Nv Fa Fb Oth] Sa Sb Ea Eb.
  pose proof Ea as (i & j & ci & cj & ck & v & Lij & Ljk & Ei & Pi & Nz & Ej & Pj & Ek & Tk & Only).
  pose proof Eb as (i' & j' & ci' & cj' & ck' & v' & Lij' & Ljk' & Ei' & Pi' & Nz' & Ej' & Pj' & Ek' & Tk' & Only').
  destruct (r_ev _ _ _ Ei) as (ei & Ni & Hi & Oi & _). destruct (r_ev _ _ _ Ej) as (ej & Nj & Hj & Oj & Ij).
  destruct (r_ev _ _ _ Ei') as (ei' & Ni' & Hi' & Oi' & _). destruct (r_ev _ _ _ Ej') as (ej' & Nj' & Hj' & Oj' & Ij').
  pose proof (proj1 Pi) as Ti. pose proof (proj1 Pj) as Tj. pose proof (proj1 Pi') as Ti'. pose proof (proj1 Pj') as Tj'.
  assert (I1 : forall x, one_of fa fb turn x -> one_of fa fb turn x) by auto. assert (I2 : forall x, one_of fb fa turn x -> one_of fa fb turn x) by (unfold one_of; tauto).
  assert (D' : NoDup [fb; fa; turn]) by (apply (Permutation_NoDup (l := [fa; fb; turn])); [apply perm_swap|exact D]).
  destruct (put_value fa v ei ci (Int_of _ ltac:(now left)) Hi ltac:(congruence) Pi) as [Mi _].
  destruct (put_value fb v' ei' ci' (Int_of _ ltac:(right; now left)) Hi' ltac:(congruence) Pi') as [Mi' _].
  destruct (put_value turn _ ej cj (Int_of _ ltac:(right; now right)) Hj ltac:(congruence) Pj) as [Mj Vj].
  destruct (put_value turn _ ej' cj' (Int_of _ ltac:(right; now right)) Hj' ltac:(congruence) Pj') as [Mj' Vj'].
  destruct (Nat.lt_trichotomy (place (what ej)) (place (what ej'))) as [L|[L|L]].
  - left. eapply (first_leaves fa fb a b to_b to_a k k' i j ei ej ci cj v i' j' ei' ej' ci' cj' v'); try eassumption; [exists ck'; split; assumption|].
    intros ek' Nk' Ok' Mk'. eapply (Sa a i j ei ej b j' k' ej' ek'); try eassumption; congruence.
  - exfalso. rewrite L in Vj. congruence.
  - right. eapply (first_leaves fb fa b a to_a to_b k' k i' j' ei' ej' ci' cj' v' i j ei ej ci cj v); try eassumption; try (exists ck; split; assumption).
    + congruence.
    + congruence.
    + intros t k0 co N1 N2 E O. apply (Oth t k0 co N2 N1 E). unfold one_of in *. tauto.
    + intros ek0 Nk0 Ok0 Mk0. eapply (Sb b i' j' ei' ej' a j k ej ek0); try eassumption; congruence.
Qed.
Lemma apart a b to_b to_a l k l' k' : peterson fa fb turn rs a b to_b to_a -> flags_seen fa -> flags_seen fb ->
  inside fa fb turn to_b (rs a) l k -> inside fb fa turn to_a (rs b) l' k' -> happens_before evss (a, k) (b, k') \/ happens_before evss (b, k') (a, k).
Proof.
  intros P Sa Sb (L & E & N) (L' & E' & N'). destruct (mutual a b to_b to_a l l' P Sa Sb E E') as [(u & Lu & Lw & H)|(u & Lu & Lw & H)]; [left|right].
  - assert (k < u) by (destruct (Nat.lt_ge_cases k u) as [|G]; [assumption|]; exfalso; apply (N u); [lia|exact Lw]).
    eapply hb_then; [apply (hb_sequenced _ (a, k) (a, u)); split; [reflexivity|assumption]|]. eapply hb_then; [exact H|]. apply hb_sequenced. split; [reflexivity|exact L'].
  - assert (k' < u) by (destruct (Nat.lt_ge_cases k' u) as [|G]; [assumption|]; exfalso; apply (N' u); [lia|exact Lw]).
    eapply hb_then; [apply (hb_sequenced _ (b, k') (b, u)); split; [reflexivity|assumption]|]. eapply hb_then; [exact H|]. apply hb_sequenced. split; [reflexivity|exact L].
Qed.

(** ** Yielding by exchange *)
Lemma seen_exchange f : one_of fa fb turn f -> turn_by_exchange turn programs -> flags_seen f.
Proof.
  intros Of Ex a i j ei ej b j' k ej' ek Lij Ljk Ni Nj Nj' Nk Oi Oj Oj' Ok Mi Mj Mj' Mk L. destruct R as [_ _ _ _ X].
  destruct (r_rep _ _ _ Nj) as (cj & Ej & Hj & Tj & _). destruct (r_rep _ _ _ Nj') as (cj' & Ej' & Hj' & Tj' & _). destruct (r_rep _ _ _ Nk) as (ck & Ek & Hk & Tk & _).
  assert (Sy : synchronizes evss (a, j) (b, j')).
  { exists ej, ej', (place (what ej)), (since ej'). split; [exact Nj|]. split; [exact Nj'|]. split; [congruence|].
    assert (Ot : one_of fa fb turn turn) by (right; now right).
    split; [rewrite (r_order _ _ Hj); apply (RA _ (r_in _ _ _ Ej)); [rewrite <- Tj, Oj; exact Ot|intros A; rewrite (r_mod _ _ Hj), A in Mj; discriminate]|].
    assert (Na : access_of (asked (fst cj')) <> Replaces) by (apply (Ex _ (r_in _ _ _ Ej')); congruence).
    split; [rewrite (r_order _ _ Hj'); apply (RA _ (r_in _ _ _ Ej')); [rewrite <- Tj', Oj'; exact Ot|exact Na]|].
    split; [now apply writes_place|]. split; [exact (r_reads _ _ Hj' Na)|]. split; [unfold since; rewrite Mj'; lia|].
    intros e q Ie Oe We _. apply event_at_in in Ie as ([t p] & Np). destruct (r_rep _ _ _ Np) as (c & Ec & Hc & Tc & _). rewrite (r_reads _ _ Hc); [discriminate|]. apply (Ex _ (r_in _ _ _ Ec)). congruence. }
  assert (HB : happens_before evss (a, i) (b, k)).
  { eapply hb_then; [apply (hb_sequenced _ (a, i) (a, j)); split; [reflexivity|exact Lij]|]. eapply hb_then; [apply hb_synchronizes, Sy|]. apply hb_sequenced. split; [reflexivity|exact Ljk]. }
  destruct (hb_coherence _ _ _ _ X _ _ _ _ HB Ni Nk ltac:(congruence)) as (_ & _ & _ & WR). apply WR; [now apply writes_place|].
  rewrite (r_reads _ _ Hk); [unfold since; now rewrite Mk|]. intros A. rewrite (r_mod _ _ Hk), A in Mk. discriminate.
Qed.
End Lock.

(** ** Default orders *)
Section Filtered.
Context (P : mevent -> bool) (s : list (nat * mevent)) (M : merges s (map (filter P) evss)).
Definition short (a : name) : name := (fst a, length (filter P (firstn (snd a) (nth (fst a) evss [])))).
Lemma filter_nth (l : list mevent) : forall k e, nth_error l k = Some e -> P e = true -> nth_error (filter P l) (length (filter P (firstn k l))) = Some e.
Proof.
  induction l as [|b l IH]; intros [|k] e; cbn; try discriminate.
  - intros [= ->] ->. reflexivity.
  - intros E Pe. destruct (P b); cbn; now apply IH.
Qed.
Lemma filter_count (l : list mevent) : forall k q e, nth_error l k = Some e -> P e = true -> k < q -> length (filter P (firstn k l)) < length (filter P (firstn q l)).
Proof.
  induction l as [|b l IH]; intros [|k] [|q] e; cbn; try discriminate; try lia.
  - intros [= ->] -> _. cbn. lia.
  - intros E Pe L. specialize (IH k q e E Pe ltac:(lia)). destruct (P b); cbn; lia.
Qed.
Lemma event_nth_error a : event_at evss a = nth_error (nth (fst a) evss []) (snd a).
Proof. unfold event_at. destruct (nth_error evss (fst a)) eqn:E; [now rewrite (nth_error_nth _ _ _ E)|]. rewrite nth_overflow by now apply nth_error_None. now destruct (snd a). Qed.
Lemma short_event a e : event_at evss a = Some e -> P e = true -> event_at (map (filter P) evss) (short a) = Some e.
Proof.
  intros E Pe. rewrite event_nth_error in E. unfold event_at, short. cbn. rewrite nth_error_map. destruct (nth_error evss (fst a)) as [l|] eqn:El; cbn.
  - rewrite (nth_error_nth _ _ _ El) in *. now apply filter_nth.
  - rewrite nth_overflow in E by now apply nth_error_None. destruct (snd a); discriminate.
Qed.
(** Positions of events in the order of the memory_order_seq_cst operations. *)
Definition at_time (a : name) (p : nat) : Prop := time s (map (filter P) evss) (short a) p.
Lemma in_time a e : event_at evss a = Some e -> P e = true -> exists p, at_time a p.
Proof. intros E Pe. exact (has_time s _ M _ _ (short_event a e E Pe)). Qed.
Lemma time_order t i j e p q : event_at evss (t, i) = Some e -> P e = true -> i < j -> at_time (t, i) p -> at_time (t, j) q -> p < q.
Proof.
  intros E Pe L (e1 & E1 & _ & C1) (e2 & E2 & _ & C2). cbn in *. rewrite event_nth_error in E. cbn in E. pose proof (filter_count _ _ _ _ E Pe L) as K. rewrite <- C1, <- C2 in K.
  destruct (Nat.lt_ge_cases p q) as [|G]; [assumption|]. pose proof (count_le s t q p G). lia.
Qed.
Lemma time_nth a e p : event_at evss a = Some e -> P e = true -> at_time a p -> nth_error s p = Some (fst a, e).
Proof. intros E Pe (e1 & E1 & E2 & _). rewrite (short_event a e E Pe) in E2. injection E2 as <-. exact E1. Qed.
End Filtered.

Lemma seen_default fa fb turn f : one_of fa fb turn f -> default_orders fa fb turn programs -> flags_seen turn f.
Proof.
  intros Of SC a i j ei ej b j' k ej' ek Lij Ljk Ni Nj Nj' Nk Oi Oj Oj' Ok Mi Mj Mj' Mk L. destruct R as [_ _ _ _ X].
  assert (S : forall c e, event_at evss c = Some e -> one_of fa fb turn (object e) -> is_seq_cst e = true).
  { intros [t p] e Ne Oe. destruct (r_rep _ _ _ Ne) as (co & Eo & Ho & To & _). unfold is_seq_cst. rewrite (r_order _ _ Ho), (SC _ (r_in _ _ _ Eo)); [reflexivity|]. now rewrite <- To. }
  assert (Ot : one_of fa fb turn turn) by (right; now right).
  assert (Si : is_seq_cst ei = true) by (apply (S _ _ Ni); now rewrite Oi). assert (Sj : is_seq_cst ej = true) by (apply (S _ _ Nj); now rewrite Oj).
  assert (Sj' : is_seq_cst ej' = true) by (apply (S _ _ Nj'); now rewrite Oj'). assert (Sk : is_seq_cst ek = true) by (apply (S _ _ Nk); now rewrite Ok).
  destruct (seq_cst_order _ _ _ _ X) as (s & Mg & F).
  destruct (in_time _ s Mg _ _ Ni Si) as (pi & Pi). destruct (in_time _ s Mg _ _ Nj Sj) as (pj & Pj). destruct (in_time _ s Mg _ _ Nj' Sj') as (pj' & Pj'). destruct (in_time _ s Mg _ _ Nk Sk) as (pk & Pk).
  pose proof (time_order _ s a i j ei pi pj Ni Si Lij Pi Pj) as L1. pose proof (time_order _ s b j' k ej' pj' pk Nj' Sj' Ljk Pj' Pk) as L2.
  pose proof (time_nth _ s _ _ _ Ni Si Pi) as Ti. pose proof (time_nth _ s _ _ _ Nj Sj Pj) as Tj. pose proof (time_nth _ s _ _ _ Nj' Sj' Pj') as Tj'. pose proof (time_nth _ s _ _ _ Nk Sk Pk) as Tk.
  assert (L3 : pj < pj').
  { destruct (Nat.lt_trichotomy pj pj') as [H|[H|H]]; [exact H| |]; exfalso.
    - subst pj'. rewrite Tj in Tj'. injection Tj' as _ ->. lia.
    - apply (FOP_nth _ _ F _ _ _ _ Tj' Tj H); cbn; [congruence|]. now apply before_ww. }
  destruct (Nat.le_gt_cases (place (what ei)) (place (what ek))) as [G|G]; [exact G|exfalso].
  apply (FOP_nth _ _ F _ _ _ _ Ti Tk ltac:(lia)); cbn; [congruence|]. now apply before_rw.
Qed.
Lemma default_release_acquire fa fb turn : default_orders fa fb turn programs -> release_acquire fa fb turn programs.
Proof. intros D c I O. rewrite (D c I O). now split. Qed.
End Run.
