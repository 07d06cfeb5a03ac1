(** Proofs about threads that work in phases. *)
From Coq Require Import Permutation.
From Verif Require Import Base BitModel BitsetModel BitsetSpec ConcModel RelaxedModel AtomicModel AtomicSpec AtomicBitsetModel AtomicBitsetSpec.
From Verif Require Import MultiModel MultiSpec MultiProofs MultiProofs2 MultiProofs3 MultiProofs4 MultiProofs5 RaceSpec MultiProofs6 MultiProofs8 PetersonSpec PetersonProofs CountSpec CountProofs CountProps PhaseSpec.
Open Scope nat_scope.

Lemma split_once (a : nat * nat) r : forall s r' s', NoDup (r ++ a :: s) -> r ++ a :: s = r' ++ a :: s' -> r = r'.
Proof.
  induction r as [|b r IH]; intros s [|b' r'] s' N Eq; cbn in *; [reflexivity|injection Eq as <- Eq; exfalso|injection Eq as -> Eq; exfalso|].
  - inversion N as [|? ? N1 _]; subst. apply N1. apply in_or_app. right. now left.
  - inversion N as [|? ? N1 _]; subst. apply N1. apply in_or_app. right. now left.
  - injection Eq as <- Eq. inversion N; subst. f_equal. eapply IH; eassumption.
Qed.
Lemma nodup_left (l1 l2 : list (nat * nat)) : NoDup (l1 ++ l2) -> NoDup l1.
Proof. induction l1 as [|b l1 IH]; intros H; [constructor|]. inversion H as [|? ? N D]; subst. constructor; [intros I; apply N, in_or_app; now left|now apply IH]. Qed.

Lemma over_const c m : over m (fun _ => c) = m * c.
Proof. unfold over. generalize 0. induction m as [|m IH]; intros s; [reflexivity|]. cbn [seq map]. rewrite sum_cons, IH. reflexivity. Qed.

Lemma last_counted x f : forall l c, number x f l = S c -> exists k co, nth_error l k = Some co /\ is_call x f (fst co) = true /\ number x f (firstn k l) = c.
Proof.
  intros l. induction l as [|co l IH] using rev_ind; intros c H; [discriminate|]. unfold number in *. rewrite filter_app, app_length in H. cbn [filter] in H. destruct (is_call x f (fst co)) eqn:K; cbn [length] in H.
  - exists (length l), co. split; [rewrite nth_error_app2, Nat.sub_diag by lia; reflexivity|]. split; [exact K|]. rewrite firstn_app, Nat.sub_diag, firstn_all, app_nil_r. lia.
  - destruct (IH c ltac:(lia)) as (k & co' & E & K' & N). exists k, co'. assert (Lk : k < length l) by (apply nth_error_Some; congruence).
    split; [rewrite nth_error_app1 by exact Lk; exact E|]. split; [exact K'|]. rewrite firstn_app. replace (k - length l) with 0 by lia. cbn [firstn]. rewrite app_nil_r. exact N.
Qed.

Section Phases.
Context (objs : nat -> object_type) (st : nat -> obj_state) (programs : list (list call)) (contents : nat -> nat -> N) (n : nat -> nat).
Context (evss : list (list mevent)) (ts : list (mthread call reply)) (outss : list (list (call * reply))) (x : nat) (iw wx ew : N) (sg esg : bool).
Notation rs := (replies ts outss). Notation T := (length programs).
Context (Run : shared_run objs st programs contents n evss ts outss) (Ox : objs x = Int iw wx ew sg esg) (Sx : st x = IntState 0).
Context (Ph : in_phases rs T x wx).
Notation cnt := (cnt rs x). Notation isf := (isf rs x). Notation mine u := (filter (fun a : nat * nat => fst a =? u)).

Record order_of_calls (l : list (nat * nat)) : Prop := {
  oc_lis : forall t k, In (t, k) l <-> exists co, nth_error (rs t) k = Some co /\ (target (fst co) =? x) = true;
  oc_once : NoDup l;
  oc_turn : ForallOrdPairs (fun a b => ~ turn evss b a) l;
  oc_ord : ForallOrdPairs (fun a b : nat * nat => fst a = fst b -> snd a < snd b) l;
  oc_threads : forall a, In a l -> fst a < T;
  oc_counted : forall f t k c, counted rs x wx f t k c -> exists l1 l2, l = l1 ++ (t, k) :: l2 /\ isf f (t, k) = true /\ c = N.of_nat (cnt adds_one l1) }.
Lemma ordered_calls : exists l, order_of_calls l.
Proof.
  destruct (start_small _ _ _ _ _ _ _ _ _ _ _ _ _ _ _ Run Ox Sx) as [Wx Hv].
  destruct (on_its_own objs st programs contents n evss ts outss Run x) as (l & st' & [Ls On Or (calls & F & Tu)] & O & B).
  assert (Th : forall t k co, nth_error (rs t) k = Some co -> t < T) by (intros t k co E; eapply threads_length; eassumption).
  assert (All : only rs x (fun op => looks op || adds_one op || takes_one op)) by (eapply only_more; [|apply (ph_calls _ _ _ _ Ph)]; intros op ->; reflexivity).
  exists l. split; try assumption.
  - intros a I. exact (in_threads rs T x l Ls Th a I).
  - intros f t k c C. apply (counted_at objs st st' rs x iw wx ew sg esg 0%N l Wx Ox Sx Hv Ls All calls F Tu f t k c) in C as (l1 & l2 & El & Fi & ->). exists l1, l2. split; [exact El|]. split; [exact Fi|].
    rewrite (val_up rs x wx 0%N l Ls (ph_calls _ _ _ _ Ph) l1 _ El). rewrite N.add_0_l. apply N.mod_small.
    pose proof (ph_enough _ _ _ _ Ph) as En. rewrite <- (cnt_made rs T x l Ls On Th), El, cnt_app in En. lia.
Qed.
Context (l : list (nat * nat)) (O : order_of_calls l).
Lemma load_counted t k v co : nth_error (rs t) k = Some co -> finds x v co -> (v < 2 ^ wx)%N -> counted rs x wx looks t k v.
Proof.
  intros E (Tg & i & A & Op & Rp) Bv. destruct co as [[y q] o]. cbn in *. subst y q o. exists i, v. split; [exact E|]. rewrite Op. split; [reflexivity|]. split; [exact Bv|reflexivity].
Qed.
Lemma pass_at t k r : passes rs T x t k r -> exists l1 l2, l = l1 ++ (t, k) :: l2 /\ T * S r <= cnt adds_one l1.
Proof.
  intros (co & v & E & F & L). destruct (r_ev objs st programs contents n evss ts outss Run _ _ _ E) as (e & Ne & Xe & Oe & _). rewrite (proj1 F) in Oe.
  destruct (find_value objs st programs contents n evss ts outss Run x v e co ltac:(do 5 eexists; exact Ox) Xe Oe F) as (_ & _ & V).
  assert (Bv : (v < 2 ^ wx)%N) by (rewrite <- V; unfold value; rewrite Ox; apply N.mod_lt, N.pow_nonzero; discriminate).
  destruct (oc_counted l O _ _ _ _ (load_counted t k v co E F Bv)) as (l1 & l2 & El & _ & ->). exists l1, l2. split; [exact El|]. lia.
Qed.
Lemma prefix_with f l1 : forall c, c <= cnt f l1 -> exists p q, l1 = p ++ q /\ cnt f p = c.
Proof.
  induction l1 as [|b l1 IH]; intros c L; [exists [], []; split; [reflexivity|cbn in *; lia]|].
  rewrite cnt_cons in L. destruct c as [|c]; [exists [], (b :: l1); auto|].
  destruct (isf f b) eqn:Eb.
  - destruct (IH c ltac:(lia)) as (p & q & -> & Ec). exists (b :: p), q. split; [reflexivity|]. rewrite cnt_cons, Eb, Ec. reflexivity.
  - destruct (IH (S c) ltac:(lia)) as (p & q & -> & Ec). exists (b :: p), q. split; [reflexivity|]. rewrite cnt_cons, Eb, Ec. reflexivity.
Qed.
(** The arrival of [u] that ends phase [c], among the calls [l0] that come first. *)
Lemma arrival l0 rest u c : l = l0 ++ rest -> c < cnt adds_one (mine u l0) -> exists k p q, l0 = p ++ (u, k) :: q /\ isf adds_one (u, k) = true /\ phase rs x u k = c.
Proof.
  intros El L. destruct (nth_counted rs x adds_one (mine u l0) c L) as (a1 & a & a2 & Ea & Fa & Ca).
  assert (I : In a (mine u l0)) by (rewrite Ea; apply in_or_app; right; now left). apply filter_In in I as [I Eu]. apply Nat.eqb_eq in Eu. destruct a as [u' k]. cbn in Eu. subst u'.
  apply in_split in I as (p & q & Ep). exists k, p, q. split; [exact Ep|]. split; [exact Fa|].
  assert (Nd : NoDup (mine u l0)) by (apply NoDup_filter; pose proof (oc_once l O) as N; rewrite El in N; eapply nodup_left; exact N).
  assert (Sp : mine u l0 = mine u p ++ (u, k) :: mine u q) by (rewrite Ep, filter_app; cbn; now rewrite Nat.eqb_refl).
  assert (A1 : mine u p = a1) by (apply (split_once (u, k) _ (mine u q) _ a2); rewrite <- Sp; [exact Nd|exact Ea]).
  unfold phase. rewrite <- (cnt_before rs x l (oc_lis l O) (oc_once l O) (oc_ord l O) adds_one p u k (q ++ rest)) by (rewrite El, Ep, <- app_assoc; reflexivity). now rewrite A1.
Qed.
Lemma at_most l0 rest r u : l = l0 ++ rest -> cnt adds_one l0 = T * S r -> cnt adds_one (mine u l0) <= S r.
Proof.
  intros El C. destruct (Nat.le_gt_cases (cnt adds_one (mine u l0)) (S r)) as [H|H]; [exact H|exfalso].
  destruct (arrival l0 rest u (S r) El H) as (k & p & q & Ep & Fa & Pk).
  unfold CountProofs.isf in Fa. cbn in Fa. destruct (nth_error (rs u) k) as [co|] eqn:E; [|discriminate].
  destruct (ph_wait _ _ _ _ Ph u k co r E Fa Pk) as (l' & Lk & _ & Ps). destruct (pass_at u l' r Ps) as (m1 & m2 & Em & Cm).
  assert (Eq : l = p ++ (u, k) :: q ++ rest) by (rewrite El, Ep, <- app_assoc; reflexivity).
  destruct Ps as (co' & v & E' & F' & _). destruct (in_prefix rs x l (oc_lis l O) (oc_ord l O) p (q ++ rest) u k Eq) as [_ Before].
  pose proof (Before l' co' Lk E' (proj1 F')) as I. apply in_split in I as (p1 & p2 & Ep1).
  assert (M1 : p1 = m1).
  { apply (split_once (u, l') p1 (p2 ++ (u, k) :: q ++ rest) m1 m2).
    - pose proof (oc_once l O) as N. rewrite Eq, Ep1, <- app_assoc in N. exact N.
    - rewrite <- Em, Eq, Ep1, <- app_assoc. reflexivity. }
  assert (Fa' : isf adds_one (u, k) = true) by (unfold CountProofs.isf; cbn; now rewrite E).
  rewrite Ep, Ep1, cnt_app, cnt_app, cnt_cons, cnt_cons, Fa', M1 in C. lia.
Qed.
Lemma over_zero g u : over T g = 0 -> u < T -> g u = 0.
Proof.
  unfold over. intros Z L. assert (I : In u (seq 0 T)) by (apply in_seq; lia). revert Z I. induction (seq 0 T) as [|a r IH]; intros Z I; [destruct I|].
  cbn [map] in Z. rewrite sum_cons in Z. destruct I as [->|I]; [lia|apply IH; [lia|exact I]].
Qed.
Lemma exactly l0 rest r u : l = l0 ++ rest -> cnt adds_one l0 = T * S r -> u < T -> cnt adds_one (mine u l0) = S r.
Proof.
  intros El C L. pose proof (fun u => at_most l0 rest r u El C) as Le.
  rewrite (cnt_over rs T x adds_one l0) in C by (intros a I; apply (oc_threads l O); rewrite El; apply in_or_app; now left).
  pose proof (over_plus T (fun t => cnt adds_one (mine t l0)) (fun t => S r - cnt adds_one (mine t l0))) as P.
  rewrite (over_ext T _ (fun _ => S r)) in P by (intros t _; specialize (Le t); lia). rewrite over_const, C in P.
  assert (Z : over T (fun t => S r - cnt adds_one (mine t l0)) = 0) by (clear - P; revert P; generalize (T * S r); generalize (over T (fun t => S r - cnt adds_one (mine t l0))); intros a b P; lia). apply (over_zero _ u) in Z; [|exact L]. cbv beta in Z. specialize (Le u). lia.
Qed.
(** What was done in the phases up to [r] comes before. *)
Lemma ended t k r u i : passes rs T x t k r -> u < T -> phase rs x u i <= r -> exists l1 l2 j, l = l1 ++ (t, k) :: l2 /\ In (u, j) l1 /\ isf adds_one (u, j) = true /\ i <= j.
Proof.
  intros Ps L Pi. destruct (pass_at t k r Ps) as (l1 & l2 & El & C). destruct (prefix_with adds_one l1 (T * S r) C) as (l0 & q0 & El1 & C0).
  assert (El0 : l = l0 ++ q0 ++ (t, k) :: l2) by (rewrite El, El1, <- app_assoc; reflexivity).
  destruct (arrival l0 (q0 ++ (t, k) :: l2) u r El0) as (j & p & q & Ep & Fa & Pj); [rewrite (exactly l0 _ r u El0 C0 L); lia|].
  exists l1, l2, j. split; [exact El|]. split; [rewrite El1, Ep; apply in_or_app; left; apply in_or_app; right; now left|]. split; [exact Fa|].
  destruct (Nat.le_gt_cases i j) as [H|H]; [exact H|exfalso].
  unfold CountProofs.isf in Fa. cbn in Fa. destruct (nth_error (rs u) j) as [co|] eqn:E; [|discriminate].
  unfold phase in *. assert (Sp : firstn i (rs u) = firstn j (rs u) ++ skipn j (firstn i (rs u))).
  { rewrite <- (firstn_skipn j (firstn i (rs u))) at 1. rewrite firstn_firstn, Nat.min_l by lia. reflexivity. }
  assert (One : 1 <= number x adds_one (skipn j (firstn i (rs u)))).
  { rewrite skipn_firstn_comm. apply nth_error_split in E as (a & b & -> & <-). rewrite skipn_app, skipn_all, Nat.sub_diag. cbn [skipn app]. destruct (i - length a) as [|d] eqn:Ed; [lia|].
    cbn [firstn]. unfold number. cbn [filter]. rewrite Fa. cbn. lia. }
  assert (Ad : number x adds_one (firstn i (rs u)) = number x adds_one (firstn j (rs u)) + number x adds_one (skipn j (firstn i (rs u)))) by (rewrite Sp at 1; unfold number; now rewrite filter_app, app_length).
  lia.
Qed.
Lemma all_ended t k r u : passes rs T x t k r -> u < T -> S r <= number x adds_one (rs u).
Proof.
  intros Ps L. destruct (pass_at t k r Ps) as (l1 & l2 & El & C). destruct (prefix_with adds_one l1 (T * S r) C) as (l0 & q0 & El1 & C0).
  assert (El0 : l = l0 ++ q0 ++ (t, k) :: l2) by (rewrite El, El1, <- app_assoc; reflexivity).
  rewrite <- (cnt_all rs x l (oc_lis l O) (oc_once l O) adds_one u), El0, filter_app, cnt_app, (exactly l0 _ r u El0 C0 L). lia.
Qed.
Lemma ended_first t k r u i : passes rs T x t k r -> u < T -> phase rs x u i <= r -> ends_release rs x -> pass_acquires rs t k -> happens_before evss (u, i) (t, k).
Proof.
  intros Ps Lu Pi Rel Acq. destruct (ended t k r u i Ps Lu Pi) as (l1 & l2 & j & El & I & Fa & Le).
  assert (HB : happens_before evss (u, j) (t, k)); [|destruct (Nat.eq_dec i j) as [->|Nj]; [exact HB|apply hb_then with (u, j); [apply hb_sequenced; split; [reflexivity|cbn; lia]|exact HB]]].
  unfold CountProofs.isf in Fa. cbn in Fa. destruct (nth_error (rs u) j) as [ca|] eqn:Ea; [|discriminate]. destruct Ps as (cb & v & Eb & Fb & _).
  assert (Nt : ~ turn evss (t, k) (u, j)).
  { pose proof (oc_turn l O) as P. rewrite El in P. clear - P I. induction l1 as [|b l1 IH]; [destruct I|]. inversion P as [|? ? O1 O2]; subst. destruct I as [->|I]; [|now apply IH]. rewrite Forall_forall in O1. apply O1, in_or_app. right. now left. }
  assert (Ch : target (fst ca) = x /\ access_of (asked (fst ca)) = Changes).
  { pose proof Fa as Ka. unfold is_call in Ka. apply andb_true_iff in Ka as [K1 K2]. apply Nat.eqb_eq in K1. split; [exact K1|]. destruct (asked (fst ca)) as [|q]; [discriminate|]. cbn. destruct (int_op q); try discriminate; reflexivity. }
  destruct (r_ev objs st programs contents n evss ts outss Run _ _ _ Ea) as (ea & Na & Xa & Oa & _). destruct (r_ev objs st programs contents n evss ts outss Run _ _ _ Eb) as (eb & Nb & Xb & Ob & _).
  rewrite (proj1 Ch) in Oa. rewrite (proj1 Fb) in Ob.
  destruct (find_value objs st programs contents n evss ts outss Run x v eb cb ltac:(do 5 eexists; exact Ox) Xb Ob Fb) as (Mb & Rd & _).
  assert (Ma : modifies (what ea) = true) by (rewrite (r_mod objs st programs contents n evss ts outss Run _ _ Xa), (proj2 Ch); reflexivity).
  assert (Rb : reads_at (what eb) = Some (place (what eb))) by (rewrite (r_reads objs contents _ _ Xb) by (rewrite Rd; discriminate); unfold since; now rewrite Mb).
  apply hb_synchronizes. exists ea, eb, (place (what ea)), (place (what eb)). split; [exact Na|]. split; [exact Nb|]. split; [congruence|].
  split; [rewrite <- (ex_order _ _ _ _ _ _ _ _ _ Xa); exact (Rel u j ca Ea Fa)|]. split; [rewrite <- (ex_order _ _ _ _ _ _ _ _ _ Xb); exact (Acq cb Eb)|].
  split; [now apply writes_place|]. split; [exact Rb|]. split.
  - unfold turn in Nt. rewrite Na, Nb in Nt. unfold goes_first in Nt. assert (~ place (what eb) < place (what ea)) by tauto. lia.
  - intros e q Ie Oe We _. apply event_at_in in Ie as ([t0 j0] & Ne). destruct (r_rep objs st programs contents n evss ts outss Run _ _ _ Ne) as (c0 & F0 & X0 & T0 & _).
    pose proof (ph_calls _ _ _ _ Ph t0 j0 c0 F0 ltac:(congruence)) as K. unfold is_call in K. apply andb_true_iff in K as [_ K]. destruct (asked (fst c0)) as [|i0] eqn:A0; [discriminate|].
    rewrite (r_reads objs contents _ _ X0); [discriminate|]. rewrite A0. cbn. destruct (int_op i0); try discriminate K; discriminate.
Qed.
End Phases.
