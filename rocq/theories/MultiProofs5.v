(** Consequences for small programs; executions without synchronization. *)
From Coq Require Import Permutation.
From Verif Require Import Base BaseLemmas BitModel BitsetModel BitsetSpec ConcModel RelaxedModel RelaxedProofs AtomicModel AtomicSpec.
From Verif Require Import AtomicBitsetModel AtomicBitsetSpec AtomicProps MultiModel MultiSpec MultiProofs MultiProofs2 MultiProofs3 MultiProofs4.
Open Scope nat_scope.

(** ** Programs and replies *)
Section Prefix.
Context {Op Out : Type} (run : Op -> mprog Out).
Definition left_to_do (t : mthread Op Out) : list Op := match mcur t with Some (op, _) => [op] | None => [] end ++ mtodo t.
Lemma performs_calls t evs t' outs : mperforms run t evs t' outs -> left_to_do t = map fst outs ++ left_to_do t'.
Proof. induction 1; cbn in *; auto. unfold left_to_do in *. cbn in *. now f_equal. Qed.
Lemma pending_calls (t : mthread Op Out) : exists rest, left_to_do t = map fst (pending t) ++ rest.
Proof. unfold left_to_do, pending. destruct (mcur t) as [[op [o| |]]|]; cbn; eauto. Qed.
Lemma all_perform_nth ts evss ts' outss : mall_perform run ts evss ts' outss -> forall i t, nth_error ts i = Some t ->
  exists evs t' outs, nth_error evss i = Some evs /\ nth_error ts' i = Some t' /\ nth_error outss i = Some outs /\ mperforms run t evs t' outs.
Proof.
  induction 1 as [|t evs t' outs ts evss ts' outss H _ IH]; intros i u E; [destruct i; discriminate|]. destruct i as [|i]; cbn in *; [|eauto].
  injection E as <-. exists evs, t', outs. auto.
Qed.
Lemma replies_prefix programs evss ts' outss : mall_perform run (mstart programs) evss ts' outss -> forall i p, nth_error programs i = Some p ->
  exists rest, p = map fst (replies ts' outss i) ++ rest.
Proof.
  intros H i p E. destruct (all_perform_nth _ _ _ _ H i (MThread None p)) as (evs & t' & outs & _ & E2 & E3 & P).
  { unfold mstart. rewrite nth_error_map, E. reflexivity. }
  unfold replies. rewrite (nth_error_nth _ _ _ E3), E2. apply performs_calls in P. cbn in P. rewrite P. destruct (pending_calls t') as (rest & ->).
  exists rest. now rewrite map_app, app_assoc.
Qed.
End Prefix.

(** ** Without synchronization *)
Lemma hb_unsynchronized evss : (forall a b, ~ synchronizes evss a b) -> forall a b, happens_before evss a b -> sequenced a b.
Proof. intros N a b. induction 1 as [a b H|a b H|a b c _ IH1 _ IH2]; [exact H|now apply N in H|]. destruct IH1, IH2. split; [congruence|lia]. Qed.
Lemma on_pairs x evs : ForallOrdPairs coherent (on x evs) -> forall p q a b, nth_error evs p = Some a -> nth_error evs q = Some b -> p < q ->
  object a = x -> object b = x -> coherent (what a) (what b).
Proof.
  induction evs as [|e evs IH]; intros F p q a b Ea Eb L Oa Ob; [destruct p; discriminate|]. unfold on in F. cbn [filter] in F. destruct q as [|q]; [lia|]. cbn in Eb.
  destruct p as [|p]; cbn in Ea.
  - injection Ea as ->. rewrite Oa, Nat.eqb_refl in F. cbn [map] in F. inversion F as [|? ? F1 _]; subst. rewrite Forall_forall in F1. apply F1.
    apply on_in. exists b. eauto using nth_error_In.
  - apply (IH ltac:(destruct (object e =? x); [inversion F; assumption|exact F]) p q); try assumption. lia.
Qed.
Lemma unsynchronized w contents n evss : (forall x, execution (w x) (contents x) (n x) (map (on x) evss)) -> (forall a b, ~ synchronizes evss a b) ->
  (forall e, In e (concat evss) -> order e <> SeqCst) -> mexecution w contents n evss.
Proof.
  intros X NS SC. split; [exact X| |].
  - intros [t j] [t' j'] ea eb H Ea Eb O. apply hb_unsynchronized in H; [|exact NS]. destruct H as [Et L]. cbn in Et, L. subst t'.
    unfold event_at in *. cbn in *. destruct (nth_error evss t) as [evs|] eqn:E; [|discriminate].
    pose proof (coherence _ _ _ _ (X (object ea))) as F. rewrite Forall_forall in F.
    apply (on_pairs (object ea) evs) with (p := j) (q := j'); auto. apply F. apply in_map. eapply nth_error_In. exact E.
  - exists []. split; [|constructor]. intros i. cbn. destruct (nth_error evss i) as [evs|] eqn:E.
    + symmetry. apply nth_error_nth. rewrite nth_error_map, E. cbn. f_equal.
      assert (S : forall e, In e evs -> order e <> SeqCst) by (intros e I; apply SC; apply in_concat; eauto using nth_error_In).
      clear - S. induction evs as [|e evs IH]; cbn; [reflexivity|]. unfold is_seq_cst at 1. destruct (order e) eqn:Eo; try (apply IH; intros; apply S; now right).
      exfalso. apply (S e); [now left|exact Eo].
    + symmetry. apply nth_overflow. rewrite map_length. now apply nth_error_None.
Qed.

(** ** Two threads *)
Lemma merges2 {A} (s : list (nat * A)) l0 l1 : merges s [l0; l1] ->
  match s with
  | [] => l0 = [] /\ l1 = []
  | (i, a) :: r => (i = 0 /\ exists l, l0 = a :: l /\ merges r [l; l1]) \/ (i = 1 /\ exists l, l1 = a :: l /\ merges r [l0; l])
  end.
Proof.
  intros M. destruct s as [|[i a] r].
  - pose proof (M 0). pose proof (M 1). cbn in *. auto.
  - apply merges_cons in M as (l & E & M). destruct i as [|[|i]]; cbn in *.
    + injection E as ->. left. eauto.
    + injection E as ->. right. eauto.
    + destruct i; discriminate.
Qed.
Lemma store_buffering objs st contents n evss ts outss x y iw w ew sg esg iw' w' ew' sg' esg' vx vy a b r0 r1 :
  shared_run objs st [[Call x (IntCall (ICall (AStore a) None)); Call y (IntCall (ICall ALoad None))];
                      [Call y (IntCall (ICall (AStore b) None)); Call x (IntCall (ICall ALoad None))]] contents n evss ts outss ->
  objs x = Int iw w ew sg esg -> objs y = Int iw' w' ew' sg' esg' -> x <> y -> st x = IntState vx -> st y = IntState vy -> a <> vx -> b <> vy ->
  nth_error (replies ts outss 0) 1 = Some (Call y (IntCall (ICall ALoad None)), IntReply (Some r0)) ->
  nth_error (replies ts outss 1) 1 = Some (Call x (IntCall (ICall ALoad None)), IntReply (Some r1)) ->
  ~ (r0 = vy /\ r1 = vx).
Proof.
  intros [Ty Hi Hg Hr X] Ex Ey Nxy Sx Sy Na Nb R0 R1 [-> ->].
  destruct (consistent objs Ty contents n _ evss ts outss st Hi Hg Hr X) as (_ & s & st' & M & T & _).
  { intros c I. cbn in I. decompose [or] I; subst; try reflexivity; contradiction. }
  destruct (replies_prefix _ _ _ _ _ Hr 0 _ eq_refl) as (rest0 & P0), (replies_prefix _ _ _ _ _ Hr 1 _ eq_refl) as (rest1 & P1).
  cbn [length seq map] in M. destruct (replies ts outss 0) as [|[c0 o0] [|[c0' o0'] l0]], (replies ts outss 1) as [|[c1 o1] [|[c1' o1'] l1]]; try discriminate.
  cbn in P0, P1, R0, R1. injection R0 as -> ->. injection R1 as -> ->. injection P0 as <- P0. injection P1 as <- P1.
  destruct l0; [|discriminate]. destruct l1; [|discriminate]. clear P0 P1.
  assert (Nyx : (y =? x) = false) by now apply Nat.eqb_neq, not_eq_sym. assert (Nxy' : (x =? y) = false) by now apply Nat.eqb_neq.
  assert (K : forall u c o rest, in_turn objs u ((c, o) :: rest) st' -> exists s1, effect (objs (target c)) (u (target c)) (asked c) o s1 /\ in_turn objs (update u (target c) s1) rest st') by (intros u c o rest H; exact H).
  assert (Kx : forall u1 v o s1, effect (objs x) (u1 x) (IntCall (ICall (AStore v) None)) o s1 -> s1 = IntState v).
  { intros u1 v o s1 H. rewrite Ex in H. cbn in H. destruct (u1 x); [contradiction|]. destruct o; [contradiction|]. destruct s1; [contradiction|]. unfold aspec in H. cbn in H. congruence. }
  assert (Ky : forall u1 v o s1, effect (objs y) (u1 y) (IntCall (ICall (AStore v) None)) o s1 -> s1 = IntState v).
  { intros u1 v o s1 H. rewrite Ey in H. cbn in H. destruct (u1 y); [contradiction|]. destruct o; [contradiction|]. destruct s1; [contradiction|]. unfold aspec in H. cbn in H. congruence. }
  assert (Lx : forall u1 v s1, effect (objs x) (u1 x) (IntCall (ICall ALoad None)) (IntReply (Some v)) s1 -> s1 = u1 x /\ u1 x = IntState v).
  { intros u1 v s1 H. rewrite Ex in H. cbn in H. destruct (u1 x); [contradiction|]. destruct s1; [contradiction|]. unfold aspec in H. cbn in H. split; congruence. }
  assert (Ly : forall u1 v s1, effect (objs y) (u1 y) (IntCall (ICall ALoad None)) (IntReply (Some v)) s1 -> s1 = u1 y /\ u1 y = IntState v).
  { intros u1 v s1 H. rewrite Ey in H. cbn in H. destruct (u1 y); [contradiction|]. destruct s1; [contradiction|]. unfold aspec in H. cbn in H. split; congruence. }
  assert (Kn : forall (z : nat) (u1 : nat -> obj_state) q, update u1 z q z = q) by (intros; apply update_at).
  assert (Kxy : forall (u1 : nat -> obj_state) q, update u1 y q x = u1 x) by (intros; now apply update_other).
  assert (Kyx : forall (u1 : nat -> obj_state) q, update u1 x q y = u1 y) by (intros; apply update_other; congruence).
  assert (Step : forall (s : list (nat * (call * reply))) l0 l1 u, merges s [l0; l1] -> in_turn objs u (map snd s) st' -> l0 <> [] \/ l1 <> [] ->
    (exists c o l r s1, l0 = (c, o) :: l /\ merges r [l; l1] /\ effect (objs (target c)) (u (target c)) (asked c) o s1 /\ in_turn objs (update u (target c) s1) (map snd r) st') \/
    (exists c o l r s1, l1 = (c, o) :: l /\ merges r [l0; l] /\ effect (objs (target c)) (u (target c)) (asked c) o s1 /\ in_turn objs (update u (target c) s1) (map snd r) st')).
  { clear. intros s l0 l1 u M T N. apply merges2 in M. destruct s as [|[i [c o]] r]; [destruct M; subst; tauto|]. cbn in T. destruct T as (s1 & E & T).
    destruct M as [[-> (l & -> & M)]|[-> (l & -> & M)]]; [left|right]; exists c, o, l, r, s1; auto. }
  Ltac next Step M T :=
    let c := fresh "c" in let o := fresh "o" in let l := fresh "l" in let r := fresh "r" in let s1 := fresh "s" in let E := fresh "E" in let Ef := fresh "Ef" in
    destruct (Step _ _ _ _ M T ltac:(solve [left; discriminate | right; discriminate])) as [(c & o & l & r & s1 & E & M' & Ef & T')|(c & o & l & r & s1 & E & M' & Ef & T')];
    [try discriminate E|try discriminate E]; clear M T; rename M' into M; rename T' into T; injection E as <- <- <-; cbn [target asked] in Ef, T.
  Ltac known Kx Ky Lx Ly := repeat match goal with
    | H : effect _ _ (IntCall (ICall (AStore _) None)) _ _ |- _ => first [apply Kx in H|apply Ky in H]; subst
    | H : effect _ _ (IntCall (ICall ALoad None)) _ _ |- _ => first [apply Lx in H|apply Ly in H]; destruct H; subst
    end.
  next Step M T; next Step M T; next Step M T; try next Step M T; known Kx Ky Lx Ly.
  all: exfalso.
  all: repeat match goal with H : _ = IntState _ |- _ => progress rewrite ?Kn, ?Kxy, ?Kyx, ?Sx, ?Sy in H end.
  all: try congruence.
Qed.

(** ** Publication *)
Lemma first_bit objs st programs contents n evss ts outss f pl nb wb sw same64 m0 i :
  shared_run objs st programs contents n evss ts outss -> objs f = Bits pl nb wb sw same64 -> st f = BitsState m0 -> (i < nb)%N ->
  N.testbit (contents f 0) i = bit m0 i.
Proof.
  intros R Ef Es Hi. pose proof (run_start _ _ _ _ _ _ _ _ R f) as H. rewrite Ef, Es in H. cbn in H. symmetry. exact (stores_bit nb i Hi _ _ H).
Qed.
Section Runs.
Context (objs : nat -> object_type) (st : nat -> obj_state) (programs : list (list call)) (contents : nat -> nat -> N) (n : nat -> nat).
Context (evss : list (list mevent)) (ts : list (mthread call reply)) (outss : list (list (call * reply))).
Context (R : shared_run objs st programs contents n evss ts outss).
Notation the_replies := (replies ts outss).
Lemma one_store x iw w ew sg esg ta ja v mo oa tb jb ib ob : objs x = Int iw w ew sg esg ->
  nth_error (the_replies ta) ja = Some (Call x (IntCall (ICall (AStore v) mo)), oa) ->
  (forall t j c o, nth_error (the_replies t) j = Some (c, o) -> target c = x -> access_of (asked c) <> Reads -> (t, j) = (ta, ja)) ->
  nth_error (the_replies tb) jb = Some (Call x (IntCall ib), ob) -> int_op ib = ALoad -> happens_before evss (ta, ja) (tb, jb) -> ob = IntReply (Some v).
Proof.
  destruct R as [Ty Hi Hg Hr X]. intros Ex Ea Only Eb Op Hb.
  pose proof (only_modification objs Ty contents n programs evss ts outss st Hi Hg Hr X x ta ja _ _ Ea eq_refl ltac:(discriminate) Only) as N1.
  destruct (seen_after objs Ty contents n programs evss ts outss st Hi Hg Hr X ta ja _ _ tb jb _ _ x Ea Eb eq_refl eq_refl ltac:(discriminate)) as (k1 & k2 & s1 & s1' & s2 & s2' & B1 & B2 & _ & E1 & R1 & R2 & E2).
  { cbn. rewrite Op. discriminate. }
  { exact Hb. }
  assert (k1 = 1 /\ k2 = 1) as [-> ->] by lia. rewrite Ex in *. cbn in *.
  destruct s1 as [|m1]; [contradiction|]. destruct oa as [|oa]; [contradiction|]. destruct s1' as [|m1']; [contradiction|]. unfold aspec in E1. cbn in E1. injection E1 as -> _.
  destruct s2 as [|m2]; [contradiction|]. destruct ob as [|ob]; [contradiction|]. destruct s2' as [|m2']; [contradiction|]. rewrite Op in E2. unfold aspec in E2. cbn in E2. injection E2 as _ ->.
  destruct R1 as [_ ->], R2 as [_ ->]. reflexivity.
Qed.
Lemma message f pl nb wb sw same64 m0 i x iw w ew sg esg ta ja v mo oa tb jb cb bb ob kb il ol :
  objs f = Bits pl nb wb sw same64 -> (i < nb)%N -> st f = BitsState m0 -> bit m0 i = false ->
  (forall c b, In c (concat programs) -> target c = f -> asked c = BitsCall b ->
     bits_access (bits_op b) <> Replaces /\ (becomes wb (bits_op b) i false = true -> releases (wanted (asked c)) = true)) ->
  objs x = Int iw w ew sg esg -> nth_error (the_replies ta) ja = Some (Call x (IntCall (ICall (AStore v) mo)), oa) ->
  (forall t j c o, nth_error (the_replies t) j = Some (c, o) -> target c = x -> access_of (asked c) <> Reads -> (t, j) = (ta, ja)) ->
  (forall t j c b o, nth_error (the_replies t) j = Some (c, o) -> target c = f -> asked c = BitsCall b -> becomes wb (bits_op b) i false = true -> t = ta /\ ja < j) ->
  nth_error (the_replies tb) jb = Some (cb, BitsReply ob) -> target cb = f -> asked cb = BitsCall bb -> acquires (wanted (asked cb)) = true -> tells nb wb i true (bits_op bb) ob ->
  jb < kb -> nth_error (the_replies tb) kb = Some (Call x (IntCall il), ol) -> int_op il = ALoad -> ol = IntReply (Some v).
Proof.
  intros Ef Hi Es Hb Hcalls Ex Ea Only Setters Eb Tb Ab Acq Tell Lt El Op. pose proof (first_bit _ _ _ _ _ _ _ _ _ _ _ _ _ _ _ _ R Ef Es Hi) as H0. rewrite Hb in H0.
  destruct R as [Ty HI Hg Hr X].
  destruct (publish objs Ty contents n programs evss ts outss st HI Hg Hr X f pl nb wb sw same64 Ef i true Hi H0 Hcalls tb jb cb bb ob Eb Tb Ab Acq Tell) as (t & j & c' & b' & o' & E & T & A & Bc & HB).
  destruct (Setters t j c' b' o' E T A Bc) as [-> L].
  apply (one_store x iw w ew sg esg ta ja v mo oa tb kb il ol Ex Ea Only El Op).
  eapply hb_then; [apply (hb_sequenced _ (ta, ja) (ta, j)); split; [reflexivity|exact L]|]. eapply hb_then; [exact HB|]. apply hb_sequenced. split; [reflexivity|exact Lt].
Qed.
End Runs.

(** ** Locks *)
Lemma race_free objs st programs contents n evss ts outss f pl nb w sw same64 m0 i ta la ka tb lb kb :
  shared_run objs st programs contents n evss ts outss -> objs f = Bits pl nb w sw same64 -> (i < nb)%N -> st f = BitsState m0 -> bit m0 i = false ->
  (forall c, In c (concat programs) -> protocol f w i c) -> (forall t, disciplined f w i (replies ts outss t)) ->
  holding f w i (replies ts outss ta) la ka -> holding f w i (replies ts outss tb) lb kb -> ta <> tb ->
  happens_before evss (ta, ka) (tb, kb) \/ happens_before evss (tb, kb) (ta, ka).
Proof.
  intros R Ef Hi Es Hb Hc Hd (La & (ca & Ea & Ka) & Na) (Lb & (cb & Eb & Kb) & Nb) Ne.
  pose proof (first_bit _ _ _ _ _ _ _ _ _ _ _ _ _ _ _ _ R Ef Es Hi) as H0. rewrite Hb in H0. destruct R as [Ty HI Hg Hr X].
  assert (G : forall t l k t' l' k', l < k -> (forall m co, l < m <= k -> nth_error (replies ts outss t) m = Some co -> ~ unlocked f w i co) -> l' < k' ->
    (exists u, section_end f w i (replies ts outss t) l u /\ happens_before evss (t, u) (t', l')) -> happens_before evss (t, k) (t', k')).
  { intros t l k t' l' k' L1 N L2 (u & (L3 & (co & E & U) & _) & HB).
    assert (k < u) by (destruct (Nat.lt_ge_cases k u) as [|L4]; [assumption|]; exfalso; apply (N u co); [lia|exact E|exact U]).
    eapply hb_then; [apply (hb_sequenced _ (t, k) (t, u)); split; [reflexivity|assumption]|]. eapply hb_then; [exact HB|]. apply hb_sequenced. split; [reflexivity|exact L2]. }
  destruct (mutual_exclusion objs Ty contents n programs evss ts outss st HI Hg Hr X f pl nb w sw same64 Ef i Hi H0 Hc Hd ta la ca tb lb cb Ea Ka Eb Kb ltac:(congruence)) as [D|D]; [left|right]; eapply G; eassumption.
Qed.
