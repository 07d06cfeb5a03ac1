(** Proofs about an atomic integer that is counted down. *)
From Coq Require Import Permutation.
From Verif Require Import Base BitModel BitsetModel BitsetSpec ConcModel RelaxedModel AtomicModel AtomicSpec AtomicBitsetModel AtomicBitsetSpec.
From Verif Require Import MultiModel MultiSpec MultiProofs MultiProofs2 MultiProofs3 MultiProofs4 MultiProofs5 RaceSpec MultiProofs6 MultiProofs8 PetersonSpec PetersonProofs CountSpec CountProofs CountProps CountdownSpec.
Open Scope nat_scope.

Section Down.
Context (objs : nat -> object_type) (st : nat -> obj_state) (programs : list (list call)) (contents : nat -> nat -> N) (n : nat -> nat).
Context (evss : list (list mevent)) (ts : list (mthread call reply)) (outss : list (list (call * reply))) (x : nat) (iw wx ew : N) (sg esg : bool) (v0 : N).
Notation rs := (replies ts outss). Notation T := (length programs).
Context (Run : shared_run objs st programs contents n evss ts outss) (Ox : objs x = Int iw wx ew sg esg) (Sx : st x = IntState v0).
Context (Cd : countdown rs T x v0).
Notation cnt := (cnt rs x). Notation isf := (isf rs x).

Lemma count_only : only rs x (fun op => looks op || adds_one op || takes_one op).
Proof. eapply only_more; [|apply (cd_calls _ _ _ _ Cd)]. intros op. cbn. destruct (looks op), (adds_one op), (takes_one op); auto. Qed.
(** The calls on the counter in their order. *)
Record order_of_calls (l : list (nat * nat)) : Prop := {
  oc_lis : forall t k, In (t, k) l <-> exists co, nth_error (rs t) k = Some co /\ (target (fst co) =? x) = true;
  oc_once : NoDup l;
  oc_turn : ForallOrdPairs (fun a b => ~ turn evss b a) l;
  oc_made : cnt takes_one l = made rs T x takes_one;
  oc_counted : forall f t k c, counted rs x wx f t k c <-> exists l1 l2, l = l1 ++ (t, k) :: l2 /\ isf f (t, k) = true /\ c = (v0 - N.of_nat (cnt takes_one l1))%N;
  oc_end : represents (objs x) (contents x (n x)) (IntState (v0 - N.of_nat (cnt takes_one l))) }.
Lemma ordered_calls : exists l, order_of_calls l.
Proof.
  destruct (start_small _ _ _ _ _ _ _ _ _ _ _ _ _ _ _ Run Ox Sx) as [Wx Hv].
  destruct (on_its_own objs st programs contents n evss ts outss Run x) as (l & st' & [Ls On Or (calls & F & Tu)] & O & B).
  assert (Th : forall t k co, nth_error (rs t) k = Some co -> t < T) by (intros t k co E; eapply threads_length; eassumption).
  assert (Mk : cnt takes_one l = made rs T x takes_one) by (apply cnt_made; assumption).
  assert (No : forall l1 l2, l = l1 ++ l2 -> cnt adds_one l1 = 0).
  { intros l1 l2 El. unfold CountProofs.cnt. replace (filter (isf adds_one) l1) with (@nil (nat * nat)); [reflexivity|].
    assert (In1 : forall a, In a l1 -> In a l) by (intros a I; rewrite El; apply in_or_app; now left). clear El.
    induction l1 as [|[t k] l1 IH]; [reflexivity|]. cbn [filter]. rewrite <- IH by (intros; apply In1; now right).
    assert (isf adds_one (t, k) = false) as ->; [|reflexivity]. destruct (isf adds_one (t, k)) eqn:E; [exfalso|reflexivity].
    unfold CountProofs.isf in E. cbn in E. destruct (nth_error (rs t) k) as [co|] eqn:Ec; [|discriminate]. pose proof E as E0. unfold is_call in E. apply andb_true_iff in E as [E1 E2]. apply Nat.eqb_eq in E1.
    pose proof (cd_calls _ _ _ _ Cd t k co Ec E1) as K. unfold is_call in K. apply andb_true_iff in K as [_ K]. destruct (asked (fst co)) as [|i]; [discriminate|]. destruct (int_op i); discriminate. }
  assert (Va : forall l1 l2, l = l1 ++ l2 -> val rs x wx v0 l1 = (v0 - N.of_nat (cnt takes_one l1))%N).
  { intros l1 l2 El. unfold val, sum. rewrite (No l1 l2 El). pose proof (cd_agreed _ _ _ _ Cd) as A. rewrite <- Mk, El, cnt_app in A.
    assert (P : (2 ^ Z.of_N wx = Z.of_N (2 ^ wx))%Z) by now rewrite N2Z.inj_pow. rewrite P, Z.mod_small by lia. lia. }
  exists l. split; try assumption.
  - intros f t k c. rewrite (counted_at objs st st' rs x iw wx ew sg esg v0 l Wx Ox Sx Hv Ls count_only calls F Tu f t k c).
    split; intros (l1 & l2 & El & Fi & Ec); exists l1, l2; (split; [exact El|]); (split; [exact Fi|]); rewrite Ec; [apply (Va l1 _ El)|symmetry; apply (Va l1 _ El)].
  - rewrite (final objs st st' rs x iw wx ew sg esg v0 l Wx Ox Sx Hv Ls count_only calls F Tu) in B. rewrite (Va l [] ltac:(now rewrite app_nil_r)) in B. exact B.
Qed.
(** A thread that finds 0 comes after all that take one away. *)
Lemma load_counted t k v co : nth_error (rs t) k = Some co -> finds x v co -> (v < 2 ^ wx)%N -> counted rs x wx looks t k v.
Proof.
  intros E (Tg & i & A & Op & Rp) Bv. destruct co as [[y q] o]. cbn in *. subst y q o. exists i, v. split; [exact E|]. rewrite Op. split; [reflexivity|]. split; [exact Bv|reflexivity].
Qed.
Lemma after_all l t k : order_of_calls l -> finds_done rs x t k ->
  exists l1 l2, l = l1 ++ (t, k) :: l2 /\ N.of_nat (cnt takes_one l1) = v0 /\ cnt takes_one l2 = 0 /\ N.of_nat (made rs T x takes_one) = v0.
Proof.
  intros O (co & E & F). destruct (start_small _ _ _ _ _ _ _ _ _ _ _ _ _ _ _ Run Ox Sx) as [Wx Hv].
  pose proof (load_counted t k 0 co E F ltac:(lia)) as C. apply (oc_counted l O) in C as (l1 & l2 & El & Fi & Ec). exists l1, l2. split; [exact El|].
  pose proof (cd_agreed _ _ _ _ Cd) as A. rewrite <- (oc_made l O) in *. rewrite El in *. rewrite cnt_app, cnt_cons in *. lia.
Qed.
Lemma in_cnt f l1 a : In a l1 -> isf f a = true -> 1 <= cnt f l1.
Proof. intros I F. apply in_split in I as (p & q & ->). rewrite cnt_app, cnt_cons, F. lia. Qed.
Lemma arrival_before l t k u j : order_of_calls l -> finds_done rs x t k -> arrives rs x u j -> exists l1 l2, l = l1 ++ (t, k) :: l2 /\ In (u, j) l1.
Proof.
  intros O D (co & E & K). destruct (after_all l t k O D) as (l1 & l2 & El & _ & Z & _). exists l1, l2. split; [exact El|].
  assert (Fi : isf takes_one (u, j) = true) by (unfold CountProofs.isf; cbn; now rewrite E).
  assert (I : In (u, j) l) by (apply (oc_lis l O); exists co; split; [exact E|]; unfold is_call in K; now apply andb_true_iff in K as [K _]).
  rewrite El in I. apply in_app_or in I as [I|[I|I]]; [exact I|exfalso|exfalso].
  - injection I as -> ->. destruct D as (co' & E' & _ & i & A & Op & _). rewrite E in E'. injection E' as <-. unfold is_call in K. rewrite A, Op in K. now rewrite andb_false_r in K.
  - pose proof (in_cnt _ _ _ I Fi). lia.
Qed.
Lemma arrived_first t k u j : finds_done rs x t k -> arrives rs x u j -> arrivals_release rs x -> acquires_at rs t k -> happens_before evss (u, j) (t, k).
Proof.
  intros D Ar Rel Acq. destruct ordered_calls as (l & O). destruct (arrival_before l t k u j O D Ar) as (l1 & l2 & El & I).
  destruct Ar as (ca & Ea & Ka). destruct D as (cb & Eb & Fb).
  assert (Nt : ~ turn evss (t, k) (u, j)).
  { pose proof (oc_turn l O) as P. rewrite El in P. clear - P I. induction l1 as [|b l1 IH]; [destruct I|]. inversion P as [|? ? O1 O2]; subst. destruct I as [->|I]; [|now apply IH]. rewrite Forall_forall in O1. apply O1, in_or_app. right. now left. }
  assert (Ch : target (fst ca) = x /\ access_of (asked (fst ca)) = Changes).
  { unfold is_call in Ka. apply andb_true_iff in Ka as [K1 K2]. apply Nat.eqb_eq in K1. split; [exact K1|]. destruct (asked (fst ca)) as [|i]; [discriminate|]. cbn. destruct (int_op i); try discriminate; reflexivity. }
  destruct (r_ev objs st programs contents n evss ts outss Run _ _ _ Ea) as (ea & Na & Xa & Oa & _). destruct (r_ev objs st programs contents n evss ts outss Run _ _ _ Eb) as (eb & Nb & Xb & Ob & _).
  rewrite (proj1 Ch) in Oa. rewrite (proj1 Fb) in Ob.
  destruct (find_value objs st programs contents n evss ts outss Run x 0%N eb cb ltac:(do 5 eexists; exact Ox) Xb Ob Fb) as (Mb & Rd & _).
  assert (Ma : modifies (what ea) = true) by (rewrite (r_mod objs st programs contents n evss ts outss Run _ _ Xa), (proj2 Ch); reflexivity).
  assert (Rb : reads_at (what eb) = Some (place (what eb))) by (rewrite (r_reads objs contents _ _ Xb) by (rewrite Rd; discriminate); unfold since; now rewrite Mb).
  apply hb_synchronizes. exists ea, eb, (place (what ea)), (place (what eb)). split; [exact Na|]. split; [exact Nb|]. split; [congruence|].
  split; [rewrite <- (ex_order _ _ _ _ _ _ _ _ _ Xa); exact (Rel u j ca Ea Ka)|]. split; [rewrite <- (ex_order _ _ _ _ _ _ _ _ _ Xb); exact (Acq cb Eb)|].
  split; [now apply writes_place|]. split; [exact Rb|]. split.
  - unfold turn in Nt. rewrite Na, Nb in Nt. unfold goes_first in Nt. assert (~ place (what eb) < place (what ea)) by tauto. lia.
  - intros e q Ie Oe We _. apply event_at_in in Ie as ([t0 j0] & Ne). destruct (r_rep objs st programs contents n evss ts outss Run _ _ _ Ne) as (c0 & F0 & X0 & T0 & _).
    pose proof (cd_calls _ _ _ _ Cd t0 j0 c0 F0 ltac:(congruence)) as K. unfold is_call in K. apply andb_true_iff in K as [_ K]. destruct (asked (fst c0)) as [|i] eqn:A0; [discriminate|].
    rewrite (r_reads objs contents _ _ X0); [discriminate|]. rewrite A0. cbn. destruct (int_op i); try discriminate K; discriminate.
Qed.
(** The latch stays open. *)
Lemma done_later t k t' k' v co : finds_done rs x t k -> happens_before evss (t, k) (t', k') -> nth_error (rs t') k' = Some co -> finds x v co -> v = 0%N.
Proof.
  intros D HB E' F'. destruct ordered_calls as (l & O). destruct (after_all l t k O D) as (l1 & l2 & El & Z1 & Z2 & _). destruct D as (cb & Eb & Fb).
  destruct (start_small _ _ _ _ _ _ _ _ _ _ _ _ _ _ _ Run Ox Sx) as [Wx Hv].
  destruct (r_ev objs st programs contents n evss ts outss Run _ _ _ Eb) as (eb & Nb & Xb & Ob & _). rewrite (proj1 Fb) in Ob.
  destruct (r_ev objs st programs contents n evss ts outss Run _ _ _ E') as (e' & N' & X' & O' & _). rewrite (proj1 F') in O'.
  destruct (find_value objs st programs contents n evss ts outss Run x 0%N eb cb ltac:(do 5 eexists; exact Ox) Xb Ob Fb) as (Mb & Rd & Vb).
  destruct (find_value objs st programs contents n evss ts outss Run x v e' co ltac:(do 5 eexists; exact Ox) X' O' F') as (M' & Rd' & V').
  assert (Rb : reads_at (what eb) = Some (place (what eb))) by (rewrite (r_reads objs contents _ _ Xb) by (rewrite Rd; discriminate); unfold since; now rewrite Mb).
  assert (R' : reads_at (what e') = Some (place (what e'))) by (rewrite (r_reads objs contents _ _ X') by (rewrite Rd'; discriminate); unfold since; now rewrite M').
  destruct (hb_coherence _ _ _ _ (run_memory _ _ _ _ _ _ _ _ Run) _ _ _ _ HB Nb N' ltac:(congruence)) as (_ & RR & _). specialize (RR _ _ Rb R').
  destruct (Nat.eq_dec (place (what eb)) (place (what e'))) as [P|P]; [congruence|].
  assert (Tn : turn evss (t, k) (t', k')) by (unfold turn; rewrite Nb, N'; left; left; lia).
  assert (Bv : (v < 2 ^ wx)%N) by (rewrite <- V'; unfold value; rewrite Ox; apply N.mod_lt, N.pow_nonzero; discriminate).
  pose proof (load_counted t' k' v co E' F' Bv) as C. apply (oc_counted l O) in C as (m1 & m2 & Em & _ & ->).
  assert (I : In (t', k') l) by (rewrite Em; apply in_or_app; right; now left). pose proof (oc_once l O) as ND.
  assert (I2 : In (t', k') l2 \/ (t', k') = (t, k)).
  { rewrite El in I. apply in_app_or in I as [I|[I|I]]; [exfalso|right; congruence|now left].
    pose proof (oc_turn l O) as Q. rewrite El in Q. clear - Q I Tn. induction l1 as [|b l1 IH]; [destruct I|]. inversion Q as [|? ? O1 O2]; subst. destruct I as [->|I]; [|now apply IH].
    rewrite Forall_forall in O1. apply (O1 (t, k)); [apply in_or_app; right; now left|exact Tn]. }
  destruct I2 as [I2|I2]; [|assert (eb = e') by congruence; subst; now contradiction P].
  apply in_split in I2 as (p & q & Ep). rewrite El, Ep in Em, ND.
  assert (Em1 : m1 = l1 ++ (t, k) :: p).
  { assert (U : forall (a : nat * nat) r s r' s', NoDup (r ++ a :: s) -> r ++ a :: s = r' ++ a :: s' -> r = r').
    { clear. intros a r. induction r as [|b r IH]; intros s [|b' r'] s' N Eq; cbn in *; [reflexivity|injection Eq as <- Eq; exfalso|injection Eq as -> Eq; exfalso|].
      - inversion N as [|? ? N1 _]; subst. apply N1. apply in_or_app. right. now left.
      - inversion N as [|? ? N1 _]; subst. apply N1. apply in_or_app. right. now left.
      - injection Eq as <- Eq. inversion N; subst. f_equal. eapply IH; eassumption. }
    symmetry. apply (U (t', k') _ q _ m2); rewrite <- app_assoc; cbn [app]; [exact ND|exact Em]. }
  rewrite Em1, cnt_app. lia.
Qed.
Lemma at_the_end : N.of_nat (made rs T x takes_one) = v0 -> represents (objs x) (contents x (n x)) (IntState 0).
Proof. intros M. destruct ordered_calls as (l & O). pose proof (oc_end l O) as B. rewrite (oc_made l O), M, N.sub_diag in B. exact B. Qed.
Lemma all_made t k : finds_done rs x t k -> N.of_nat (made rs T x takes_one) = v0.
Proof. intros D. destruct ordered_calls as (l & O). now destruct (after_all l t k O D) as (_ & _ & _ & _ & _ & M). Qed.
(** With one reference for each arrival. *)
Lemma as_references : N.of_nat (made rs T x takes_one) = v0 -> reference_count rs T x wx (fun t => number x takes_one (rs t)) v0.
Proof.
  intros M. destruct (start_small _ _ _ _ _ _ _ _ _ _ _ _ _ _ _ Run Ox Sx) as [Wx Hv].
  assert (NoA : forall t, number x adds_one (rs t) = 0).
  { intros t. unfold number. destruct (filter _ (rs t)) as [|co r] eqn:Ef; [reflexivity|exfalso]. assert (I : In co (filter (fun co => is_call x adds_one (fst co)) (rs t))) by (rewrite Ef; now left).
    apply filter_In in I as [I K]. apply In_nth_error in I as (k & E). unfold is_call in K. apply andb_true_iff in K as [K1 K2]. apply Nat.eqb_eq in K1.
    pose proof (cd_calls _ _ _ _ Cd t k co E K1) as Q. unfold is_call in Q. apply andb_true_iff in Q as [_ Q]. destruct (asked (fst co)) as [|i]; [discriminate|]. destruct (int_op i); discriminate. }
  split.
  - exact count_only.
  - symmetry. exact M.
  - intros t k co E K. unfold has. assert (K' : is_call x takes_one (fst co) = true).
    { pose proof E as E0. unfold is_call in *. apply andb_true_iff in K as [K1 K2]. rewrite K1. pose proof K1 as K1'. apply Nat.eqb_eq in K1'. pose proof (cd_calls _ _ _ _ Cd t k co E K1') as Q. unfold is_call in Q. rewrite K1 in Q. cbn in *.
      destruct (asked (fst co)) as [|i]; [discriminate|]. destruct (int_op i); try discriminate; assumption. }
    assert (Sp : number x takes_one (rs t) = number x takes_one (firstn k (rs t)) + number x takes_one (skipn k (rs t))) by (unfold number; rewrite <- app_length, <- filter_app, firstn_skipn; reflexivity).
    assert (Sk : 1 <= number x takes_one (skipn k (rs t))).
    { unfold number. apply nth_error_split in E as (a & b & Eq & <-). rewrite Eq, skipn_app, skipn_all, Nat.sub_diag. cbn. rewrite K'. cbn. lia. }
    lia.
  - assert (Z : made rs T x adds_one = 0) by (unfold made; clear - NoA; induction (seq 0 T) as [|t r IH]; [reflexivity|]; cbn [map]; rewrite sum_cons, IH, NoA; reflexivity).
    rewrite Z. lia.
Qed.
End Down.
