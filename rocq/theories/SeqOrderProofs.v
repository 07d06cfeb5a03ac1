From Coq Require Import Permutation.
From Verif Require Import Base BaseLemmas BitModel BitsetSpec ConcModel RelaxedModel RelaxedProofs AtomicModel AtomicSpec AtomicBitsetModel AtomicBitsetSpec MultiModel MultiSpec MultiProofs MultiProofs2 MultiProofs3 MultiProofs4 PetersonSpec PetersonProofs RingSpec RingProofs SeqOrderSpec.
Open Scope nat_scope.

Lemma represents_same t mem s s' : represents t mem s -> represents t mem s' -> s = s'.
Proof. destruct t, s, s'; cbn; try contradiction; intros [_ A] [_ B]; congruence. Qed.
Lemma in_turn_app objs a b : forall s s' s'', in_turn objs s a s' -> in_turn objs s' b s'' -> in_turn objs s (a ++ b) s''.
Proof.
  induction a as [|[c o] a IH]; intros s s' s'' A B; cbn in *.
  - revert s s' s'' A B. induction b as [|[c o] b IHb]; intros s s' s'' A B; cbn in *; [intros x; now rewrite A, B|].
    destruct B as (u & E & B). exists u. rewrite A. split; [exact E|]. apply IHb with (update s' (target c) u); [|exact B]. intros x. unfold update. destruct (x =? target c); auto.
  - destruct A as (u & E & A). exists u. split; [exact E|]. eapply IH; eassumption.
Qed.
Lemma rolled_even w h : (0 < w)%N -> N.even (rolled w h) = Nat.even h.
Proof.
  intros W. unfold rolled. replace w with (1 + (w - 1))%N by lia. rewrite N.pow_add_r. change (2 ^ 1)%N with 2%N.
  rewrite N.mod_mul_r by (try discriminate; apply N.pow_nonzero; discriminate). rewrite N.even_add_mul_2.
  assert (E : forall m, N.even (N.of_nat m mod 2) = Nat.even m).
  { intros m. induction m as [m IH] using lt_wf_ind. destruct m as [|[|m]]; try reflexivity. change (Nat.even (S (S m))) with (Nat.even m). rewrite <- (IH m) by lia. f_equal.
    replace (N.of_nat (S (S m))) with (N.of_nat m + 1 * 2)%N by lia. apply N.mod_add. discriminate. }
  apply E.
Qed.
Lemma rolled_same w a b : a <= b -> rolled w a = rolled w b -> a = b \/ (Z.of_nat a + range w <= Z.of_nat b)%Z.
Proof.
  intros L E. unfold rolled in E. unfold range. assert (P : (0 < 2 ^ Z.of_N w)%Z) by (apply Z.pow_pos_nonneg; lia).
  apply (f_equal Z.of_N) in E. rewrite !N2Z.inj_mod, !N2Z.inj_pow, !nat_N_Z in E. change (Z.of_N 2) with 2%Z in E. set (M := (2 ^ Z.of_N w)%Z) in *.
  assert (D : ((Z.of_nat b - Z.of_nat a) mod M = 0)%Z) by (rewrite Zminus_mod, E, Z.sub_diag; apply Z.mod_0_l; lia).
  apply Z.mod_divide in D as [c D]; [|lia]. destruct (Z.eq_dec c 0) as [->|C]; [left; lia|right]. nia.
Qed.

Section Run.
Context (objs : nat -> object_type) (st : nat -> obj_state) (programs : list (list call)) (contents : nat -> nat -> N) (n : nat -> nat).
Context (evss : list (list mevent)) (ts : list (mthread call reply)) (outss : list (list (call * reply))).
Context (R : shared_run objs st programs contents n evss ts outss).
Notation rs := (replies ts outss).
Notation expl := (explains (code objs) target (fun c => wanted (asked c)) (good_call objs) (fun x => represents (objs x)) (fun s c o s' => effect (objs (target c)) s (asked c) o s') contents).
Context (seq : nat) (w : N) (word : nat -> bool) (p : nat).
Context (SL : seqlock seq w word objs st rs p).
Notation own x := (x%nat = seq \/ word x%nat = true).

Lemma others x : own x -> forall t k co, t <> p -> nth_error (rs t) k = Some co -> target (fst co) = x -> access_of (asked (fst co)) = Reads.
Proof. intros O t k co N E T. apply (sl_others _ _ _ _ _ _ _ SL t k co N E). now rewrite T. Qed.
(** Where a read of [x] by the writer itself reads. *)
Lemma own_place x q e co : own x -> nth_error (rs p) q = Some co -> event_at evss (p, q) = Some e -> target (fst co) = x ->
  place (what e) = changed x (rs p) (S q).
Proof.
  intros O E Ee T. destruct (r_ev objs st programs contents n evss ts outss R _ _ _ E) as (e0 & Ee0 & Hx & Ob & I). rewrite Ee in Ee0. injection Ee0 as <-.
  rewrite changed_S, E, (modifying_of objs st programs contents n evss ts outss R x e co Hx Ob ltac:(congruence)).
  destruct (modifies (what e)) eqn:M.
  - pose proof (modifying_of objs st programs contents n evss ts outss R x e co Hx Ob ltac:(congruence)) as Mc. rewrite M in Mc.
    destruct (modifying_event objs st programs contents n evss ts outss R x p q co E Mc) as (e1 & Ee1 & _ & _ & _ & B). rewrite Ee in Ee1. injection Ee1 as <-.
    rewrite (place_of objs st programs contents n evss ts outss R x p (others x O) (place (what e) - 1) q e co Ee E Mc ltac:(lia)). lia.
  - assert (Rd : reads_at (what e) = Some (place (what e))).
    { rewrite (r_reads objs contents _ _ Hx); [unfold since; now rewrite M|]. intros A. rewrite (r_mod objs st programs contents n evss ts outss R _ _ Hx), A in M. discriminate. }
    destruct (exec_event _ contents n evss (run_memory _ _ _ _ _ _ _ _ R) e I) as (_ & Bp & _). rewrite Ob, T in Bp.
    destruct (Nat.lt_trichotomy (place (what e)) (changed x (rs p) q)) as [C|[C|C]]; [exfalso|lia|exfalso].
    + destruct (changed_at x (rs p) q (changed x (rs p) q - 1) ltac:(lia)) as (m & cm & Lm & Em & Mm & Cm).
      destruct (modifying_event objs st programs contents n evss ts outss R x p m cm Em Mm) as (em & Eem & _ & Om & Mom & _).
      assert (Pm : place (what em) = S (changed x (rs p) m)).
      { destruct (place (what em)) as [|k] eqn:Pm; [|now rewrite (place_of objs st programs contents n evss ts outss R x p (others x O) k m em cm Eem Em Mm Pm)].
        destruct (modifying_event objs st programs contents n evss ts outss R x p m cm Em Mm) as (e1 & Ee1 & _ & _ & _ & B). rewrite Eem in Ee1. injection Ee1 as <-. lia. }
      destruct (po_coherent objs st programs contents n evss ts outss R p m em q e Eem Ee ltac:(congruence) Lm) as (_ & _ & _ & WR).
      specialize (WR _ _ (wpl _ Mom) Rd). lia.
    + destruct (writer objs st programs contents n evss ts outss R x p (others x O) (place (what e)) ltac:(lia)) as (m & em & cm & Eem & Em & Hm & Om & Tm & Mom & Mm & Pm).
      assert (Cm : changed x (rs p) m = place (what e) - 1) by (apply (place_of objs st programs contents n evss ts outss R x p (others x O) (place (what e) - 1) m em cm Eem Em Mm); lia).
      destruct (Nat.lt_trichotomy m q) as [L|[L|L]].
      * pose proof (changed_lt x (rs p) m q cm Em Mm L). lia.
      * subst m. rewrite Ee in Eem. injection Eem as <-. congruence.
      * destruct (po_coherent objs st programs contents n evss ts outss R p q e m em Ee Eem ltac:(congruence) L) as (_ & _ & RW & _). specialize (RW _ _ Rd (wpl _ Mom)). lia.
Qed.
Lemma changed_bound x k : own x -> changed x (rs p) k <= n x.
Proof.
  intros O. destruct (changed x (rs p) k) as [|c] eqn:C; [lia|]. destruct (changed_at x (rs p) k c ltac:(lia)) as (m & cm & Lm & Em & Mm & Cm).
  destruct (modifying_event objs st programs contents n evss ts outss R x p m cm Em Mm) as (em & Eem & _ & Om & Mom & B).
  rewrite <- Cm. destruct (place (what em)) as [|k'] eqn:Pm; [lia|]. rewrite (place_of objs st programs contents n evss ts outss R x p (others x O) k' m em cm Eem Em Mm Pm). lia.
Qed.

(** The calls of the writer on the words, one after the other. *)
Lemma so_far q : exists st', in_turn objs st (filter (fun co => word (target (fst co))) (firstn q (rs p))) st' /\
  forall x, word x = true -> represents (objs x) (contents x (changed x (rs p) q)) (st' x).
Proof.
  induction q as [|q (st' & A & B)].
  - exists st. cbn. split; [reflexivity|]. intros x _. apply (run_start _ _ _ _ _ _ _ _ R).
  - destruct (nth_error (rs p) q) as [co|] eqn:E.
    + assert (F : firstn (S q) (rs p) = firstn q (rs p) ++ [co]).
      { clear - E. revert E. generalize (rs p). induction q as [|q IH]; intros [|a l] E; try discriminate; cbn in *; [now injection E as ->|f_equal; auto]. }
      rewrite F, filter_app. cbn [filter]. destruct (word (target (fst co))) eqn:Wd.
      * destruct (r_ev objs st programs contents n evss ts outss R _ _ _ E) as (e & Ee & Hx & Ob & I).
        destruct (ex_effect _ _ _ _ _ _ _ _ _ Hx) as (s & s' & R1 & Ef & R2). cbn in Ef.
        pose proof (own_place (target (fst co)) q e co (or_intror Wd) E Ee eq_refl) as Pl. rewrite changed_S, E in Pl.
        assert (Si : since e = changed (target (fst co)) (rs p) q).
        { unfold since. rewrite (modifying_of objs st programs contents n evss ts outss R (target (fst co)) e co Hx Ob Ob) in Pl. destruct (modifies (what e)); lia. }
        rewrite Ob in R1, R2. rewrite Si in R1. pose proof (represents_same _ _ _ _ R1 (B _ Wd)) as ->.
        exists (update st' (target (fst co)) s'). split.
        -- eapply in_turn_app; [exact A|]. destruct co as [c o]. cbn in *. exists s'. split; [exact Ef|reflexivity].
        -- intros x Wx. unfold update. destruct (x =? target (fst co)) eqn:X.
           ++ apply Nat.eqb_eq in X as ->. rewrite changed_S, E, <- Pl. exact R2.
           ++ rewrite changed_S, E. unfold modifying at 1. rewrite Nat.eqb_sym, X. cbn. rewrite Nat.add_0_r. now apply B.
      * rewrite app_nil_r. exists st'. split; [exact A|]. intros x Wx. assert (X : (target (fst co) =? x) = false) by (apply Nat.eqb_neq; intros X; rewrite X in Wd; congruence).
        rewrite changed_S, E. unfold modifying at 1. rewrite X. cbn. rewrite Nat.add_0_r. now apply B.
    + exists st'. assert (F : firstn (S q) (rs p) = firstn q (rs p)).
      { apply nth_error_None in E. now rewrite !firstn_all2 by lia. }
      rewrite F. split; [exact A|]. intros x Wx. rewrite changed_S, E, Nat.add_0_r. now apply B.
Qed.

(** What a reader finds. *)
Section Reader.
Context (t : nat) (Nt : t <> p).
Lemma reader_event x k co : own x -> nth_error (rs t) k = Some co -> target (fst co) = x ->
  exists e, event_at evss (t, k) = Some e /\ expl e co /\ object e = x /\ modifies (what e) = false /\ reads_at (what e) = Some (place (what e)) /\ place (what e) <= n x.
Proof.
  intros O E T. pose proof (others x O t k co Nt E T) as A. destruct (r_ev objs st programs contents n evss ts outss R _ _ _ E) as (e & Ee & Hx & Ob & I). exists e.
  assert (M : modifies (what e) = false) by (rewrite (r_mod objs st programs contents n evss ts outss R _ _ Hx), A; reflexivity).
  split; [exact Ee|]. split; [exact Hx|]. split; [congruence|]. split; [exact M|]. split.
  - rewrite (r_reads objs contents _ _ Hx) by (rewrite A; discriminate). unfold since. now rewrite M.
  - destruct (exec_event _ contents n evss (run_memory _ _ _ _ _ _ _ _ R) e I) as (_ & B & _). now rewrite Ob, T in B.
Qed.
(** The modification it reads. *)
Lemma reader_from x k co e : own x -> nth_error (rs t) k = Some co -> target (fst co) = x -> event_at evss (t, k) = Some e -> 1 <= place (what e) ->
  exists q cq eq, nth_error (rs p) q = Some cq /\ event_at evss (p, q) = Some eq /\ object eq = x /\ target (fst cq) = x /\ modifies (what eq) = true /\ modifying x cq = true /\
    access_of (asked (fst cq)) <> Reads /\ place (what eq) = place (what e) /\ changed x (rs p) q + 1 = place (what e) /\
    (is_release (wanted (asked (fst cq))) = true -> is_acquire (wanted (asked (fst co))) = true -> happens_before evss (p, q) (t, k)).
Proof.
  intros O E T Ee P. destruct (reader_event x k co O E T) as (e0 & Ee0 & Hx & Ox & M & Rd & B). rewrite Ee in Ee0. injection Ee0 as <-.
  destruct (read_from objs st programs contents n evss ts outss R t k e co Ee Hx M ltac:(lia)) as (u & q & eq & cq & Eq & Rq & Hq & Oq & Tq & Mq & Pq & Aq & Sy).
  assert (u = p) as -> by (destruct (Nat.eq_dec u p) as [|N]; [assumption|]; exfalso; apply Aq; apply (others x O u q cq N Rq); congruence).
  assert (Mc : modifying x cq = true) by (rewrite (modifying_of objs st programs contents n evss ts outss R x eq cq Hq) by congruence; exact Mq).
  exists q, cq, eq. repeat (split; [first [assumption|congruence]|]). split; [|exact Sy].
  rewrite (place_of objs st programs contents n evss ts outss R x p (others x O) (place (what e) - 1) q eq cq Eq Rq Mc); lia.
Qed.
Lemma reader_value k co v : nth_error (rs t) k = Some co -> finds seq v co -> exists e, event_at evss (t, k) = Some e /\ object e = seq /\ reads_at (what e) = Some (place (what e)) /\ place (what e) <= n seq /\ v = rolled w (place (what e)).
Proof.
  intros E F. pose proof (proj1 F) as T. destruct (reader_event seq k co (or_introl eq_refl) E T) as (e & Ee & Hx & Ox & M & Rd & B). exists e.
  split; [exact Ee|]. split; [exact Ox|]. split; [exact Rd|]. split; [exact B|]. destruct (sl_counter _ _ _ _ _ _ _ SL) as [_ (iw & ew & sg & esg & Oi)].
  destruct (find_value objs st programs contents n evss ts outss R seq v e co ltac:(do 5 eexists; exact Oi) Hx Ox F) as (_ & _ & V). rewrite <- V.
  apply (counter_value objs st programs contents n evss ts outss R seq p w); try assumption.
  - exact (proj2 (sl_counter _ _ _ _ _ _ _ SL)).
  - exact (sl_start _ _ _ _ _ _ _ SL).
  - apply others. now left.
  - exact (sl_count _ _ _ _ _ _ _ SL).
Qed.
Lemma reached k : k <= n seq -> exists q, changed seq (rs p) q = k.
Proof.
  destruct k as [|k]; intros B; [now exists 0|]. destruct (writer objs st programs contents n evss ts outss R seq p (others seq (or_introl eq_refl)) (S k) ltac:(lia)) as (q & e & co & Ee & E & Hx & O & T & M & Mc & P).
  exists (S q). rewrite changed_S, E, Mc, (place_of objs st programs contents n evss ts outss R seq p (others seq (or_introl eq_refl)) k q e co Ee E Mc P). lia.
Qed.

Lemma version l l' v : finishes_with_release seq (rs p) -> writes_with_release word (rs p) -> finds_twice seq (rs t) l l' v ->
  begins_with_acquire (rs t) l -> reads_with_acquire word (rs t) l l' ->
  one_version seq w word objs st (rs p) (rs t) l l' v \/ came_round seq w (rs p) v.
Proof.
  intros Fin Wr (L & Ev & c1 & c2 & E1 & F1 & E2 & F2) Ba Ra.
  destruct (reader_value l c1 v E1 F1) as (e1 & Ee1 & O1 & Rd1 & B1 & V1). destruct (reader_value l' c2 v E2 F2) as (e2 & Ee2 & O2 & Rd2 & B2 & V2).
  assert (Le : place (what e1) <= place (what e2)).
  { destruct (po_coherent objs st programs contents n evss ts outss R t l e1 l' e2 Ee1 Ee2 ltac:(congruence) L) as (_ & RR & _). now apply RR. }
  destruct (rolled_same w _ _ Le ltac:(congruence)) as [Same|Far]; [left|right].
  2: { exists (place (what e1)). split; [exact V1|]. destruct (reached _ B2) as (q & C). enough (place (what e2) <= changed seq (rs p) (length (rs p))) by lia. rewrite <- C.
       destruct (Nat.le_gt_cases q (length (rs p))) as [H|H]; [now apply changed_le|]. unfold changed. rewrite firstn_all, firstn_all2 by lia. reflexivity. }
  set (i := place (what e1)) in *.
  destruct (sl_counter _ _ _ _ _ _ _ SL) as [Ws (iw & ew & sg & esg & Oi)]. pose proof (run_types _ _ _ _ _ _ _ _ R seq) as Ty. rewrite Oi in Ty. cbn in Ty.
  assert (Ei : Nat.even i = true) by (rewrite <- (rolled_even w) by lia; rewrite <- V1; exact Ev).
  assert (Q : exists q, changed seq (rs p) q = i /\ forall m cm, nth_error (rs p) m = Some cm -> word (target (fst cm)) = true -> (m < q -> 0 < i -> exists f cf, m < f /\ nth_error (rs p) f = Some cf /\ modifying seq cf = true /\ changed seq (rs p) f + 1 = i /\ happens_before evss (p, f) (t, l)) /\
    (q <= m -> access_of (asked (fst cm)) <> Reads -> exists b cb eb, b < m /\ nth_error (rs p) b = Some cb /\ event_at evss (p, b) = Some eb /\ object eb = seq /\ modifies (what eb) = true /\ place (what eb) = i + 1)).
  { assert (Later : forall q, changed seq (rs p) q = i -> forall m cm, nth_error (rs p) m = Some cm -> word (target (fst cm)) = true -> q <= m -> access_of (asked (fst cm)) <> Reads ->
      exists b cb eb, b < m /\ nth_error (rs p) b = Some cb /\ event_at evss (p, b) = Some eb /\ object eb = seq /\ modifies (what eb) = true /\ place (what eb) = i + 1).
    { intros q C m cm Em Wm Lm Am. destruct (sl_write _ _ _ _ _ _ _ SL m cm Em Wm) as [A|Od]; [contradiction|]. pose proof (changed_le seq (rs p) q m Lm) as Cm.
      assert (i < changed seq (rs p) m). { destruct (Nat.eq_dec (changed seq (rs p) m) i) as [X|X]; [|lia]. rewrite X, <- Nat.negb_even, Ei in Od. discriminate. }
      destruct (changed_at seq (rs p) m i H) as (b & cb & Lb & Eb & Mb & Cb). destruct (modifying_event objs st programs contents n evss ts outss R seq p b cb Eb Mb) as (eb & Eeb & _ & Ob & Mob & Bb).
      exists b, cb, eb. repeat (split; [assumption|]). destruct (place (what eb)) as [|k] eqn:Pb; [lia|].
      rewrite (place_of objs st programs contents n evss ts outss R seq p (others seq (or_introl eq_refl)) k b eb cb Eeb Eb Mb Pb) in Cb. lia. }
    destruct (Nat.eq_dec i 0) as [Z|Z].
    - exists 0. split; [rewrite changed_0; auto|]. intros m cm Em Wm. split; [intros; lia|]. apply (Later 0); auto.
    - destruct (reader_from seq l c1 e1 (or_introl eq_refl) E1 (proj1 F1) Ee1 ltac:(fold i; lia)) as (f & cf & ef & Ef & Eef & Of & Tf & Mf & Mcf & Af & Pf & Cf & Sy).
      assert (C : changed seq (rs p) (S f) = i) by (rewrite changed_S, Ef, Mcf; exact Cf).
      exists (S f). split; [exact C|]. intros m cm Em Wm. split; [|apply (Later (S f)); auto]. intros Lm _. exists f, cf.
      assert (m <> f) by (intros ->; rewrite Ef in Em; injection Em as <-; congruence). split; [lia|]. repeat (split; [assumption|]).
      apply Sy; [|now apply Ba]. apply (Fin f cf Ef Tf Af). rewrite <- Nat.even_succ, <- Nat.add_1_r, Cf. exact Ei. }
  destruct Q as (q & C & Q). destruct (so_far q) as (st' & A & Rep). exists q, st'. rewrite C. split; [exact Ei|]. split; [exact V1|]. split; [exact A|].
  intros k co Lk E Wk. set (x := target (fst co)) in *. assert (Ox : own x) by now right.
  destruct (reader_event x k co Ox E eq_refl) as (e & Ee & Hx & Oe & M & Rd & B).
  enough (P : place (what e) = changed x (rs p) q).
  { destruct (ex_effect _ _ _ _ _ _ _ _ _ Hx) as (s & s' & R1 & Ef & R2). cbn in Ef. unfold since in R1. rewrite M in R1. rewrite Oe, P in R1, R2.
    pose proof (represents_same _ _ _ _ R1 (Rep _ Wk)) as ->. pose proof (represents_same _ _ _ _ R2 (Rep _ Wk)) as ->. exact Ef. }
  destruct (Nat.lt_trichotomy (place (what e)) (changed x (rs p) q)) as [X|[X|X]]; [exfalso|exact X|exfalso].
  - destruct (changed_at x (rs p) q (changed x (rs p) q - 1) ltac:(lia)) as (m & cm & Lm & Em & Mm & Cm).
    destruct (modifying_event objs st programs contents n evss ts outss R x p m cm Em Mm) as (em & Eem & _ & Om & Mom & Bm).
    assert (Tm : target (fst cm) = x) by (unfold modifying in Mm; apply andb_true_iff in Mm as [Mm _]; now apply Nat.eqb_eq in Mm).
    assert (Pm : place (what em) = changed x (rs p) q).
    { destruct (place (what em)) as [|k'] eqn:Pm; [lia|]. rewrite (place_of objs st programs contents n evss ts outss R x p (others x Ox) k' m em cm Eem Em Mm Pm) in Cm. lia. }
    assert (Zi : 0 < i).
    { destruct (Nat.eq_dec i 0) as [Z|Z]; [|lia]. exfalso. pose proof (changed_le seq (rs p) m q ltac:(lia)) as Le0.
      destruct (sl_write _ _ _ _ _ _ _ SL m cm Em ltac:(now rewrite Tm)) as [Am|Od]; [unfold modifying in Mm; rewrite Am, andb_false_r in Mm; discriminate|].
      replace (changed seq (rs p) m) with 0 in Od by lia. discriminate. }
    destruct (proj1 (Q m cm Em ltac:(now rewrite Tm)) Lm Zi) as (f & cf & Lf & _ & _ & _ & Hb).
    assert (HB : happens_before evss (p, m) (t, k)).
    { apply hb_then with (p, f); [apply hb_sequenced; split; [reflexivity|exact Lf]|]. apply hb_then with (t, l); [exact Hb|]. apply hb_sequenced. split; [reflexivity|cbn; lia]. }
    destruct (hb_coherence _ _ _ _ (run_memory _ _ _ _ _ _ _ _ R) _ _ _ _ HB Eem Ee ltac:(congruence)) as (_ & _ & _ & WR). specialize (WR _ _ (wpl _ Mom) Rd). lia.
  - destruct (reader_from x k co e Ox E eq_refl Ee ltac:(lia)) as (m & cm & em & Em & Eem & Om & Tm & Mom & Mm & Am & Pm & Cm & Sy).
    assert (Lm : q <= m). { destruct (Nat.le_gt_cases q m) as [H|H]; [exact H|]. pose proof (changed_lt x (rs p) m q cm Em Mm H). lia. }
    destruct (proj2 (Q m cm Em ltac:(now rewrite Tm)) Lm Am) as (b & cb & eb & Lb & Eb & Eeb & Ob & Mob & Pb).
    assert (HB : happens_before evss (p, b) (t, l')).
    { apply hb_then with (p, m); [apply hb_sequenced; split; [reflexivity|exact Lb]|]. apply hb_then with (t, k); [|apply hb_sequenced; split; [reflexivity|cbn; lia]].
      apply Sy; [apply (Wr m cm Em); [now rewrite Tm|exact Am]|now apply (Ra k)]. }
    destruct (hb_coherence _ _ _ _ (run_memory _ _ _ _ _ _ _ _ R) _ _ _ _ HB Eeb Ee2 ltac:(congruence)) as (_ & _ & _ & WR). specialize (WR _ _ (wpl _ Mob) Rd2). lia.
Qed.
End Reader.
End Run.
