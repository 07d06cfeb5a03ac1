(** Calls without races take effect in turn: from events to calls. *)
From Coq Require Import Permutation.
From Verif Require Import Base BaseLemmas BitModel BitsetModel BitsetSpec BitsetProofs ConcModel RelaxedModel RelaxedProofs AtomicModel AtomicSpec AtomicProofs.
From Verif Require Import AtomicBitsetModel AtomicBitsetSpec AtomicBitsetProofs AtomicProps MultiModel MultiSpec MultiProofs MultiProofs2 MultiProofs3 MultiProofs4 MultiProofs5 MultiProofs6 RaceSpec.
Open Scope nat_scope.

Lemma Forall2_filter {A B} (Q : A -> B -> Prop) (f : A -> bool) (g : B -> bool) l l' : Forall2 Q l l' -> (forall a b, Q a b -> f a = g b) -> Forall2 Q (filter f l) (filter g l').
Proof. intros H E. induction H as [|a b l l' H _ IH]; [constructor|]. cbn. rewrite <- (E a b H). destruct (f a); [now constructor|exact IH]. Qed.
Lemma Forall2_map_filter {A B} (Q : A -> B -> Prop) (f : A -> bool) (g : B -> bool) ls ls' : Forall2 (Forall2 Q) ls ls' -> (forall a b, Q a b -> f a = g b) ->
  Forall2 (Forall2 Q) (map (filter f) ls) (map (filter g) ls').
Proof. intros H E. induction H as [|a b l l' H _ IH]; cbn; constructor; [now apply Forall2_filter|exact IH]. Qed.
Lemma in_map_filter {A} (f : A -> bool) (ls : list (list A)) a : In a (concat (map (filter f) ls)) <-> In a (concat ls) /\ f a = true.
Proof. rewrite filter_concat_map. apply filter_In. Qed.

Section Sys.
Context {Op Out St : Type} (w : nat -> N) (run : Op -> mprog Out) (tgt : Op -> nat) (ord : Op -> memory_order) (pre : Op -> Prop).
Context (R : nat -> N -> St -> Prop) (eff : St -> Op -> Out -> St -> Prop).
Context (single : forall c, pre c -> exists p k, run c = MDo (tgt c) p (ord c) k /\
  (forall r, (exists o, k r = MRet o) \/ k r = MBad) /\
  forall mem s, R (tgt c) mem s -> exists o s', k (snd (exec_prim (w (tgt c)) p mem)) = MRet o /\ eff s c o s' /\ R (tgt c) (fst (exec_prim (w (tgt c)) p mem)) s').
Context (contents : nat -> nat -> N) (n : nat -> nat) (evss : list (list mevent)) (X : mexecution w contents n evss).
Context (programs : list (list Op)) (ts' : list (mthread Op Out)) (outss : list (list (Op * Out))).
Context (Hpre : Forall (Forall pre) programs) (Hrun : mall_perform run (mstart programs) evss ts' outss).
Context (st : nat -> St) (Hinit : forall x, R x (contents x 0) (st x)).
Context (P : nat -> bool) (l : list name) (Pl : forall a, In a l <-> exists e, event_at evss a = Some e /\ P (object e) = true).
Notation s := (concat (map (event_of_name evss) l)).
Context (Ms : merges s (map (filter (fun e => P (object e))) evss)) (Os : ForallOrdPairs unbroken (map snd s)).

Lemma sequential_on : exists calls st', Forall2 (fun a co => nth_error (replies ts' outss (fst a)) (snd a) = Some co) l calls /\
  turns tgt eff st calls st' /\ forall x, P x = true -> R x (contents x (n x)) (st' x).
Proof.
  destruct (mall_perform_logs w run tgt ord pre R eff single _ _ _ _ Hpre Hrun) as (logs & Fl & Fp & L1 & L2 & Lg).
  assert (Rl : forall i, nth i logs [] = map (@returned Op Out) (replies ts' outss i)).
  { refine (proj2 (logs_replies R contents ts' outss st Hinit logs L1 L2 Lg _)). intros c q I.
    destruct (Forall2_in' _ _ _ _ (Forall2_concat _ _ _ Fl) I) as (e & Ie & (k & Ek & Eq)). cbn in *.
    destruct (single c (logs_pre pre programs Hpre logs Fp c q I)) as (p & k' & Er & _ & Hs). rewrite Ek in Er. injection Er as Eo Ep _ <-.
    destruct (exec_event w contents n evss X e Ie) as (A & _ & E).
    destruct (states w run tgt ord pre R eff single contents n evss X programs ts' outss Hpre Hrun st Hinit (object e) (since e) A) as (s0 & HR0). rewrite Eo in HR0.
    destruct (Hs _ _ HR0) as (o & s2 & Ko & _). rewrite <- Eo, <- Ep, E in Ko. cbn in Ko. exists o. congruence. }
  set (n' x := if P x then n x else 0).
  pose proof (merges_perm _ _ Ms) as Ps.
  assert (On : forall x, on x (concat (map (filter (fun e => P (object e))) evss)) = if P x then on x (concat evss) else []).
  { intros x. rewrite filter_concat_map. unfold on. induction (concat evss) as [|e r IH]; [now destruct (P x)|]. cbn. destruct (P (object e)) eqn:Pe; cbn.
    - destruct (Nat.eqb_spec (object e) x) as [<-|N]; [rewrite Pe in *; cbn; now f_equal|exact IH].
    - destruct (Nat.eqb_spec (object e) x) as [<-|N]; [rewrite Pe in *; exact IH|exact IH]. }
  (* the replies in this order *)
  assert (Cs : exists calls s', Forall2 (fun a co => nth_error (replies ts' outss (fst a)) (snd a) = Some co) l calls /\
    Forall2 (fun a b => fst a = fst b /\ event_of run (snd a) (snd b)) s s' /\ map snd s' = map (@returned Op Out) calls /\ Forall (fun b => pre (fst (snd b))) s').
  { assert (Pl' : forall a, In a l -> exists e, event_at evss a = Some e) by (intros a I; apply Pl in I as (e & E & _); eauto). clear - Pl' Fl Fp Rl Hpre.
    induction l as [|a r IH]; [exists [], []; repeat split; constructor|]. destruct IH as (calls & s' & F1 & F2 & E & Fq); [intros; apply Pl'; now right|].
    destruct (Pl' a (or_introl eq_refl)) as (e & Ee). unfold event_at in Ee. destruct (nth_error evss (fst a)) as [evs|] eqn:Ev; [|discriminate].
    destruct (Forall2_nth _ _ _ _ _ Fl Ev) as (log & El & Fe). destruct (Forall2_nth _ _ _ _ _ Fe Ee) as (cq & Ec & He).
    pose proof (Rl (fst a)) as Ra. rewrite (nth_error_nth _ _ _ El) in Ra. pose proof Ec as Ec'. rewrite Ra, nth_error_map in Ec'. destruct (nth_error (replies ts' outss (fst a)) (snd a)) as [[c o]|] eqn:Er; [|discriminate].
    cbn in Ec'. injection Ec' as <-. exists ((c, o) :: calls), ((fst a, (c, MRet o)) :: s'). split; [constructor; assumption|]. split.
    - cbn [map concat]. unfold event_of_name at 1. unfold event_at. rewrite Ev, Ee. constructor; [split; [reflexivity|exact He]|exact F2].
    - split; [cbn; now f_equal|]. constructor; [|exact Fq]. cbn. apply (logs_pre pre programs Hpre logs Fp c (MRet o)). apply in_concat. exists log. split; eapply nth_error_In; eassumption. }
  destruct Cs as (calls & s' & Fc & F' & Ec & Fq).
  destruct (replays (map snd s) (fun _ => 0) n') as (Rp & Bp).
  - intros x. transitivity (map place (filter modifies (on x (concat (map (filter (fun e => P (object e))) evss))))); [apply Permutation_map, perm_filter, on_perm, Ps|].
    rewrite On. unfold n'. destruct (P x); [apply (places w contents n evss X)|reflexivity].
  - intros x a Ia Ma. apply on_in in Ia as (e & Ie & <- & <-). split; [lia|]. apply (Permutation_in _ Ps), in_map_filter in Ie as [Ie Pe]. unfold n'. rewrite Pe.
    apply (loaded w contents n evss X e Ie Ma).
  - exact Os.
  - destruct (replay_turns w run tgt ord pre R eff single contents n evss X s s' (fun _ => 0) st Rp) as (u & st' & Eu & T & HR).
    + apply Forall_forall. intros [i e] I. cbn. eapply (proj1 (in_map_filter _ _ _)), Permutation_in; [exact Ps|]. apply in_map_iff. now exists (i, e).
    + exact F'.
    + exact Fq.
    + exact Hinit.
    + exists calls, st'. split; [exact Fc|]. assert (map snd u = calls) as <-.
      { apply map_returned_inj. rewrite <- Ec, Eu. unfold mark. rewrite !map_map. reflexivity. }
      split; [exact T|]. intros x Px. specialize (HR x). rewrite Bp in HR. unfold n' in HR. rewrite Px in HR. exact HR.
Qed.
End Sys.

Section Objs.
Context (objs : nat -> object_type) (st : nat -> obj_state) (programs : list (list call)) (contents : nat -> nat -> N) (n : nat -> nat).
Context (evss : list (list mevent)) (ts : list (mthread call reply)) (outss : list (list (call * reply))).
Context (Run : shared_run objs st programs contents n evss ts outss).

Notation rs := (replies ts outss).

Lemma hb_ordered P l : NoDup l -> (forall a, In a l <-> exists e, event_at evss a = Some e /\ P (object e) = true) -> ForallOrdPairs (fun a b => ~ happens_before evss b a) l ->
  ForallOrdPairs (fun a b : name => fst a = fst b -> snd a < snd b) l.
Proof.
  intros D _ O. induction O as [|a r Ha Hr IH]; constructor; [|apply IH; now inversion D]. rewrite Forall_forall in *. inversion D as [|? ? Na _]; subst. intros b I E.
  destruct (Nat.lt_trichotomy (snd a) (snd b)) as [L|[L|L]]; [exact L|exfalso; apply Na; replace a with b; [exact I|destruct a, b; cbn in *; congruence]|exfalso].
  apply (Ha b I), hb_sequenced. split; congruence.
Qed.
Lemma without_races (P : nat -> bool) : no_races evss rs P ->
  exists l st', one_after_the_other objs st rs P l st' /\ ForallOrdPairs (fun a b => ~ happens_before evss b a) l /\ forall x, P x = true -> represents (objs x) (contents x (n x)) (st' x).
Proof.
  intros Race. destruct Run as [Ty Hi Hg Hr X].
  assert (Mod : forall e co, explains (code objs) target (fun c => wanted (asked c)) (good_call objs) (fun x => represents (objs x)) (fun s c o s' => effect (objs (target c)) s (asked c) o s') contents e co ->
    modifies (what e) = true -> access_of (asked (fst co)) <> Reads).
  { intros e co Hx M. rewrite <- (expl_access objs contents e co Hx). rewrite access_modifies in M. intros E. rewrite E in M. discriminate. }
  destruct (one_order_on _ contents n evss X P) as (l & D & Pl & O & Ms & Os).
  { intros [ta ja] [tb jb] ea eb Ea Eb N (Oe & Po & M). cbn in N.
    destruct (ev_rep objs Ty contents n programs evss ts outss st Hi Hg Hr X ta ja ea Ea) as ([ca oa] & Fa & Xa).
    destruct (ev_rep objs Ty contents n programs evss ts outss st Hi Hg Hr X tb jb eb Eb) as ([cb ob] & Fb & Xb).
    pose proof (ex_target _ _ _ _ _ _ _ _ _ Xa) as Ta. pose proof (ex_target _ _ _ _ _ _ _ _ _ Xb) as Tb. cbn in Ta, Tb.
    apply (Race ta ja ca oa tb jb cb ob Fa Fb N); [congruence|congruence|]. destruct M as [M|M]; [left; exact (Mod _ _ Xa M)|right; exact (Mod _ _ Xb M)]. }
  destruct (sequential_on _ (code objs) target (fun c => wanted (asked c)) (good_call objs) (fun x => represents (objs x)) _ (code_single objs Ty) contents n evss X programs ts outss Hg Hr st Hi P l Pl Ms Os) as (calls & st' & Fc & T & HR).
  exists l, st'. split; [|split; [exact O|exact HR]]. split.
  - intros t k. rewrite (Pl (t, k)). split.
    + intros (e & E & Po). destruct (ev_rep objs Ty contents n programs evss ts outss st Hi Hg Hr X t k e E) as (co & F & Hx). exists co. split; [exact F|].
      pose proof (ex_target _ _ _ _ _ _ _ _ _ Hx). congruence.
    + intros (co & F & Po). destruct (rep_ev objs Ty contents n programs evss ts outss st Hi Hg Hr X t k co F) as (e & E & Hx). exists e. split; [exact E|].
      pose proof (ex_target _ _ _ _ _ _ _ _ _ Hx). congruence.
  - exact D.
  - eapply hb_ordered; eassumption.
  - exists calls. split; [exact Fc|]. now apply turns_in_turn.
Qed.

(** ** Under a lock *)
Context (f : nat) (pl : platform) (nb w sw : N) (same64 : bool) (m0 : list bool) (i : N).
Context (Hf : objs f = Bits pl nb w sw same64) (Hi : (i < nb)%N) (Hs : st f = BitsState m0) (Hb : bit m0 i = false).
Context (Hc : forall c, In c (concat programs) -> protocol f w i c) (Hd : forall t, disciplined f w i (rs t)).

Lemma locked_order P : only_locked rs P f w i -> no_races evss rs P.
Proof.
  intros Hl ta ja ca oa tb jb cb ob Ea Eb N Et Po _. destruct (Hl ta ja (ca, oa) Ea Po) as (la & La). destruct (Hl tb jb (cb, ob) Eb) as (lb & Lb); [cbn; congruence|].
  exact (race_free objs st programs contents n evss ts outss f pl nb w sw same64 m0 i ta la ja tb lb jb Run Hf Hi Hs Hb Hc Hd La Lb N).
Qed.
Lemma whole_sections P l : (forall t k, In (t, k) l -> exists co, nth_error (rs t) k = Some co /\ P (target (fst co)) = true) -> only_locked rs P f w i ->
  ForallOrdPairs (fun a b => ~ happens_before evss b a) l -> sections_whole rs f w i l.
Proof.
  intros Il Hl O l1 a m b l2 -> (Eab & l0 & Ha & Hb'). apply Forall_forall. intros c Ic.
  destruct (Nat.eq_dec (fst c) (fst a)) as [E|N]; [exact E|exfalso].
  destruct (in_split _ _ Ic) as (m1 & m2 & ->). destruct a as [ta ka], b as [tb kb], c as [tc kc]. cbn in *. subst tb.
  destruct (Il tc kc) as (co & Ec & Po); [apply in_or_app; right; right; rewrite <- app_assoc; apply in_or_app; right; now left|].
  destruct (Hl tc kc co Ec Po) as (lc & Hlc).
  assert (Nca : ~ happens_before evss (tc, kc) (ta, ka)).
  { apply (FOP_nth _ _ O (length l1) (S (length l1 + length m1))); [rewrite nth_error_app2, Nat.sub_diag by lia; reflexivity| |lia].
    rewrite nth_error_app2 by lia. replace (S (length l1 + length m1) - length l1) with (S (length m1)) by lia. cbn. rewrite <- app_assoc, nth_error_app2, Nat.sub_diag by lia. reflexivity. }
  assert (Nbc : ~ happens_before evss (ta, kb) (tc, kc)).
  { apply (FOP_nth _ _ O (S (length l1 + length m1)) (S (S (length l1 + length m1 + length m2)))); [| |lia].
    - rewrite nth_error_app2 by lia. replace (S (length l1 + length m1) - length l1) with (S (length m1)) by lia. cbn. rewrite <- app_assoc, nth_error_app2, Nat.sub_diag by lia. reflexivity.
    - rewrite nth_error_app2 by lia. replace (S (S (length l1 + length m1 + length m2)) - length l1) with (S (length m1 + S (length m2))) by lia. cbn. rewrite <- app_assoc. cbn.
      rewrite nth_error_app2 by lia. replace (length m1 + S (length m2) - length m1) with (S (length m2)) by lia. cbn. rewrite nth_error_app2, Nat.sub_diag by lia. reflexivity. }
  (* one section ends before the other starts *)
  destruct Run as [Ty HI Hg Hr X]. pose proof (first_bit _ _ _ _ _ _ _ _ _ _ _ _ _ _ _ _ Run Hf Hs Hi) as H0. rewrite Hb in H0.
  destruct Ha as (La & (ca & Eca & Kca) & Na). destruct Hb' as (Lb & _ & Nb). destruct Hlc as (Lc & (cc & Ecc & Kcc) & Nc).
  destruct (mutual_exclusion objs Ty contents n programs evss ts outss st HI Hg Hr X f pl nb w sw same64 Hf i Hi H0 Hc Hd ta l0 ca tc lc cc Eca Kca Ecc Kcc ltac:(congruence))
    as [(u & (L3 & (cu & Eu & U) & _) & HB)|(u & (L3 & (cu & Eu & U) & _) & HB)].
  - apply Nbc. assert (kb < u) by (destruct (Nat.lt_ge_cases kb u) as [|L4]; [assumption|]; exfalso; apply (Nb u cu); [lia|exact Eu|exact U]).
    eapply hb_then; [apply (hb_sequenced _ (ta, kb) (ta, u)); split; [reflexivity|assumption]|]. eapply hb_then; [exact HB|]. apply hb_sequenced. split; [reflexivity|exact Lc].
  - apply Nca. assert (kc < u) by (destruct (Nat.lt_ge_cases kc u) as [|L4]; [assumption|]; exfalso; apply (Nc u cu); [lia|exact Eu|exact U]).
    eapply hb_then; [apply (hb_sequenced _ (tc, kc) (tc, u)); split; [reflexivity|assumption]|]. eapply hb_then; [exact HB|]. apply hb_sequenced. split; [reflexivity|exact La].
Qed.
End Objs.
