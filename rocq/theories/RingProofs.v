From Coq Require Import Permutation.
From Verif Require Import Base BaseLemmas BitModel BitsetSpec ConcModel RelaxedModel RelaxedProofs AtomicModel AtomicSpec AtomicBitsetModel AtomicBitsetSpec MultiModel MultiSpec MultiProofs MultiProofs2 MultiProofs3 MultiProofs4 PetersonSpec PetersonProofs RingSpec.
Open Scope nat_scope.

(** ** Counting modifications *)
Section Counting.
Context (x : nat) (rs : list (call * reply)).
Lemma changed_0 : changed x rs 0 = 0.
Proof. reflexivity. Qed.
Lemma changed_S k : changed x rs (S k) = changed x rs k + match nth_error rs k with Some co => if modifying x co then 1 else 0 | None => 0 end.
Proof.
  unfold changed. revert k. induction rs as [|co l IH]; intros k; [destruct k; reflexivity|]. destruct k as [|k].
  - cbn. now destruct (modifying x co).
  - change (firstn (S (S k)) (co :: l)) with (co :: firstn (S k) l). change (firstn (S k) (co :: l)) with (co :: firstn k l). cbn [filter nth_error].
    specialize (IH k). destruct (modifying x co); cbn [length]; lia.
Qed.
Lemma changed_le k k' : k <= k' -> changed x rs k <= changed x rs k'.
Proof. induction 1 as [|k' L IH]; [lia|]. rewrite changed_S. lia. Qed.
Lemma changed_lt k k' co : nth_error rs k = Some co -> modifying x co = true -> k < k' -> changed x rs k < changed x rs k'.
Proof. intros E M L. pose proof (changed_le (S k) k' L). rewrite changed_S, E, M in H. lia. Qed.
Lemma changed_same k k' : k <= k' -> (forall m co, k <= m < k' -> nth_error rs m = Some co -> modifying x co = false) -> changed x rs k' = changed x rs k.
Proof.
  induction 1 as [|k' L IH]; intros H; [reflexivity|]. rewrite changed_S, IH by (intros m co B; apply H; lia).
  destruct (nth_error rs k') as [co|] eqn:E; [|lia]. rewrite (H k' co) by (lia || assumption). lia.
Qed.
Lemma changed_at k i : i < changed x rs k -> exists q co, q < k /\ nth_error rs q = Some co /\ modifying x co = true /\ changed x rs q = i.
Proof.
  induction k as [|k IH]; intros L; [cbn in L; lia|]. rewrite changed_S in L. destruct (Nat.lt_ge_cases i (changed x rs k)) as [H|H].
  - destruct (IH H) as (q & co & Lq & A). exists q, co. split; [lia|exact A].
  - destruct (nth_error rs k) as [co|] eqn:E; [|lia]. destruct (modifying x co) eqn:M; [|lia]. exists k, co. repeat split; try assumption; lia.
Qed.
End Counting.

(** ** Happens-before is well-founded *)
Lemma acc_finite {A} (dec : forall a b : A, {a = b} + {a <> b}) (R : A -> A -> Prop) :
  (forall a, ~ R a a) -> (forall a b c, R a b -> R b c -> R a c) -> forall m L, length L <= m -> forall a, (forall b, R b a -> In b L) -> Acc R a.
Proof.
  intros Irr Tr. induction m as [|m IH]; intros L Len a H.
  - destruct L; [|cbn in Len; lia]. constructor. intros b Rb. destruct (H b Rb).
  - constructor. intros b Rb. apply (IH (remove dec b L)).
    + pose proof (remove_length_lt dec L b (H b Rb)). lia.
    + intros c Rc. apply in_in_remove; [intros ->; exact (Irr _ Rc)|]. apply H. eauto.
Qed.

Lemma wpl a : modifies a = true -> writes_at a = Some (place a).
Proof. intros M. now apply writes_place. Qed.

Section Run.
Context (objs : nat -> object_type) (st : nat -> obj_state) (programs : list (list call)) (contents : nat -> nat -> N) (n : nat -> nat).
Context (evss : list (list mevent)) (ts : list (mthread call reply)) (outss : list (list (call * reply))).
Context (R : shared_run objs st programs contents n evss ts outss).
Notation rs := (replies ts outss).
Notation expl := (explains (code objs) target (fun c => wanted (asked c)) (good_call objs) (fun x => represents (objs x)) (fun s c o s' => effect (objs (target c)) s (asked c) o s') contents).

Lemma hb_source a b : happens_before evss a b -> sequenced a b \/ exists s r, (a = s \/ happens_before evss a s) /\ synchronizes evss s r /\ (r = b \/ happens_before evss r b).
Proof.
  induction 1 as [a b H|a b H|a b c H1 IH1 H2 IH2]; [now left|right; exists a, b; auto|].
  destruct IH1 as [S1|(s & r & A & Sy & B)].
  - destruct IH2 as [S2|(s & r & A & Sy & B)].
    + left. destruct S1, S2. split; [congruence|lia].
    + right. exists s, r. split; [right|auto]. destruct A as [<- | A]; [exact H1|eapply hb_then; eassumption].
  - right. exists s, r. split; [exact A|]. split; [exact Sy|]. right. destruct B as [-> | B]; [exact H2|eapply hb_then; eassumption].
Qed.
Lemma hb_irreflexive a : ~ happens_before evss a a.
Proof.
  intros H. destruct (hb_source a a H) as [[_ L]|(s & r & A & Sy & B)]; [lia|].
  assert (C : happens_before evss s s).
  { apply hb_then with r; [apply hb_synchronizes; exact Sy|]. assert (RA : r = a \/ happens_before evss r a) by exact B.
    destruct A as [-> | A], RA as [-> | RA]; try assumption. eapply hb_then; eassumption. }
  destruct Sy as (es & er & i & j & Es & _ & _ & _ & _ & W & _). destruct R as [_ _ _ _ X].
  destruct (hb_coherence _ _ _ _ X s s es es C Es Es eq_refl) as (WW & _). specialize (WW i i W W). lia.
Qed.
Lemma hb_has_event a b : happens_before evss a b -> event_at evss b <> None -> event_at evss a <> None.
Proof.
  induction 1 as [a b [H1 H2]|a b (ea & eb & i & j & E & _)|a b c _ IH1 _ IH2]; intros N.
  - unfold event_at in *. rewrite H1. destruct (nth_error evss (fst b)); [|contradiction]. apply nth_error_Some. apply nth_error_Some in N. lia.
  - congruence.
  - auto.
Qed.
Definition names : list name := flat_map (fun t => map (pair t) (seq 0 (length (nth t evss [])))) (seq 0 (length evss)).
Lemma in_names a : event_at evss a <> None -> In a names.
Proof.
  destruct a as [t k]. unfold event_at. cbn. destruct (nth_error evss t) as [l|] eqn:E; [|contradiction]. intros H. apply nth_error_Some in H.
  apply in_flat_map. exists t. split; [apply in_seq; split; [lia|]; apply nth_error_Some; congruence|]. apply in_map, in_seq. rewrite (nth_error_nth _ _ _ E). lia.
Qed.
Lemma hb_acc a : event_at evss a <> None -> Acc (happens_before evss) a.
Proof.
  intros E. apply (acc_finite (fun a b : name => ltac:(decide equality; apply Nat.eq_dec)) (happens_before evss) hb_irreflexive (hb_then evss) (length names) names (le_n _)).
  intros b H. apply in_names. eapply hb_has_event; eassumption.
Qed.

(** ** A counter that one thread increases *)
Section Single.
Context (x own : nat) (w : N).
Context (Int_x : exists iw ew sg esg, objs x = Int iw w ew sg esg).
Context (Start : st x = IntState 0).
Context (Others : forall t k co, t <> own -> nth_error (rs t) k = Some co -> target (fst co) = x -> access_of (asked (fst co)) = Reads).
Context (Inc : forall k co, nth_error (rs own) k = Some co -> target (fst co) = x -> access_of (asked (fst co)) = Reads \/ increases x (rolled w (changed x (rs own) k + 1)) (fst co)).

Lemma modifying_of e co : expl e co -> object e = target (fst co) -> object e = x -> modifying x co = modifies (what e).
Proof. intros Hx O Ox. unfold modifying. rewrite <- O, Ox, Nat.eqb_refl, (r_mod objs st programs contents n evss ts outss R _ _ Hx). reflexivity. Qed.
Lemma writer k : 1 <= k <= n x -> exists q e co, event_at evss (own, q) = Some e /\ nth_error (rs own) q = Some co /\ expl e co /\ object e = x /\ target (fst co) = x /\ modifies (what e) = true /\ modifying x co = true /\ place (what e) = k.
Proof.
  clear Inc Int_x Start w. intros B. pose proof (run_memory _ _ _ _ _ _ _ _ R) as X. destruct (event_with_place _ contents n evss X x k B) as (e & I & O & M & P).
  apply event_at_in in I as ([u q] & E). destruct (r_rep objs st programs contents n evss ts outss R _ _ _ E) as (co & Eq & Hx & T & _).
  assert (u = own) as ->.
  { destruct (Nat.eq_dec u own) as [|N]; [assumption|]. exfalso. pose proof (Others u q co N Eq ltac:(congruence)) as A. rewrite (r_mod objs st programs contents n evss ts outss R _ _ Hx), A in M. discriminate. }
  exists q, e, co. repeat (split; [first [assumption|congruence]|]). split; [|exact P]. now rewrite (modifying_of e co Hx T O).
Qed.
Lemma modifying_event q co : nth_error (rs own) q = Some co -> modifying x co = true -> exists e, event_at evss (own, q) = Some e /\ expl e co /\ object e = x /\ modifies (what e) = true /\ 1 <= place (what e) <= n x.
Proof.
  clear Inc Int_x Start w. intros E M. destruct (r_ev objs st programs contents n evss ts outss R _ _ _ E) as (e & Ee & Hx & O & I). exists e.
  assert (Ox : object e = x) by (unfold modifying in M; apply andb_true_iff in M as [M _]; apply Nat.eqb_eq in M; congruence).
  rewrite (modifying_of e co Hx O Ox) in M. repeat (split; [assumption|]). rewrite <- Ox. apply (modifies_place objs contents n evss (run_memory _ _ _ _ _ _ _ _ R)); assumption.
Qed.
Lemma place_of k : forall q e co, event_at evss (own, q) = Some e -> nth_error (rs own) q = Some co -> modifying x co = true -> place (what e) = S k -> changed x (rs own) q = k.
Proof.
  clear Inc Int_x Start w. induction k as [|k IH]; intros q e co E Eq M P.
  - destruct (Nat.eq_dec (changed x (rs own) q) 0) as [Z|Z]; [exact Z|]. exfalso. destruct (changed_at x (rs own) q 0 ltac:(lia)) as (q' & co' & L & E' & M' & _).
    destruct (modifying_event _ _ E' M') as (e' & Ee' & _ & O' & Mo' & B'). destruct (modifying_event _ _ Eq M) as (e0 & Ee0 & _ & O & Mo & _). rewrite E in Ee0. injection Ee0 as <-.
    destruct (po_coherent objs st programs contents n evss ts outss R own q' e' q e Ee' E ltac:(congruence) L) as (WW & _).
    specialize (WW _ _ (wpl _ Mo') (wpl _ Mo)). lia.
  - destruct (modifying_event _ _ Eq M) as (e0 & Ee0 & _ & O & Mo & B). rewrite E in Ee0. injection Ee0 as <-.
    destruct (writer (S k) ltac:(lia)) as (p & ep & cp & Ep & Rp & Hp & Op & Tp & Mp & Mcp & Pp). pose proof (IH p ep cp Ep Rp Mcp Pp) as C.
    assert (L : p < q) by (apply (po_writes objs st programs contents n evss ts outss R own p ep q e Ep E ltac:(congruence) Mp Mo); lia).
    rewrite (changed_same x (rs own) (S p) q L).
    + rewrite changed_S, Rp, Mcp. lia.
    + intros m cm Bm Em. destruct (modifying x cm) eqn:Mm; [|reflexivity]. exfalso. destruct (modifying_event _ _ Em Mm) as (em & Eem & _ & Om & Mom & _).
      destruct (po_coherent objs st programs contents n evss ts outss R own p ep m em Ep Eem ltac:(congruence) ltac:(lia)) as (W1 & _).
      destruct (po_coherent objs st programs contents n evss ts outss R own m em q e Eem E ltac:(congruence) ltac:(lia)) as (W2 & _).
      specialize (W1 _ _ (wpl _ Mp) (wpl _ Mom)). specialize (W2 _ _ (wpl _ Mom) (wpl _ Mo)). lia.
Qed.
(** Its value counts its modifications. *)
Lemma counter_value k : k <= n x -> value objs contents x k = rolled w k.
Proof.
  destruct Int_x as (iw & ew & sg & esg & Ox). induction k as [|k IH]; intros B.
  - pose proof (run_start _ _ _ _ _ _ _ _ R x) as S0. unfold represents in S0. rewrite Ox, Start in S0. destruct S0 as [_ S0]. unfold value. rewrite Ox, <- S0. unfold rolled. symmetry. apply N.mod_0_l, N.pow_nonzero. discriminate.
  - destruct (writer (S k) ltac:(lia)) as (q & e & co & E & Eq & Hx & O & T & M & Mc & P). pose proof (place_of k q e co E Eq Mc P) as C.
    destruct (Inc q co Eq T) as [A|[A|A]].
    + rewrite (r_mod objs st programs contents n evss ts outss R _ _ Hx), A in M. discriminate.
    + destruct (put_value objs st programs contents n evss ts outss R x _ e co ltac:(do 5 eexists; exact Ox) Hx O A) as [_ V]. rewrite P, C in V. rewrite V. f_equal. lia.
    + specialize (IH ltac:(lia)). destruct A as (_ & i & A & H). destruct (ex_effect _ _ _ _ _ _ _ _ _ Hx) as (s & s' & R1 & Ef & R2). cbn in Ef. rewrite O in R1, R2. rewrite T, A, Ox in Ef.
      unfold represents in *. rewrite Ox in R1, R2. unfold value in *. rewrite Ox in *. unfold since in R1. rewrite M in R1. rewrite P in *. replace (S k - 1) with k in R1 by lia.
      destruct s as [|m]; [contradiction|]. destruct (snd co) as [|o]; [contradiction|]. destruct s' as [|m']; [contradiction|]. destruct R1 as [_ ->], R2 as [_ <-]. cbn in Ef. unfold aspec in Ef.
      rewrite IH in Ef. assert (m' = (rolled w k + 1) mod 2 ^ w)%N as -> by (destruct H as [H|[H|[H|H]]]; rewrite H in Ef; cbn in Ef; congruence).
      unfold rolled. rewrite N.add_mod_idemp_l by (apply N.pow_nonzero; discriminate). f_equal. lia.
Qed.
End Single.
End Run.
