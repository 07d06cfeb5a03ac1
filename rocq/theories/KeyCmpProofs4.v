From Verif Require Import Base BaseLemmas CxSetModel CxMapModel CxMultimapModel KeyCmpModel KeyCmpSpec.
From Verif Require Import KeyCmpProofs KeyCmpProofs2 KeyCmpProofs3.

Section P.
Context {E : Type}.

(** ** The exact comparisons, if == answers. *)
Definition traces {S A} (c : ending A * S * list E) (tr t : list E) : Prop :=
  forall a s' u, c = (Ret a, s', u) -> u = tr ++ t.
Lemma traces_plainly {S A} (g : S -> option (S * A)) s tr : traces (plainly g s tr) tr [].
Proof.
  intros a s' u H. unfold plainly in H. rewrite app_nil_r. destruct (g s) as [[x y]|]; congruence.
Qed.
Lemma traces_ret {S A} (a : A) (s : S) tr : traces (ret a s tr) tr [].
Proof. intros b s' u H. unfold ret in H. rewrite app_nil_r. congruence. Qed.
Lemma traces_bind {S A B} (m : call E S A) (k : A -> call E S B) s tr t1 t2 :
  traces (m s tr) tr t1 ->
  (forall a s' tr', m s tr = (Ret a, s', tr') -> traces (k a s' tr') tr' t2) ->
  traces (bind m k s tr) tr (t1 ++ t2).
Proof.
  intros H1 H2 b s' u H. unfold bind in H. destruct (m s tr) as [[[a| |] s1] tr1] eqn:X; try discriminate.
  pose proof (H1 _ _ _ eq_refl) as Y. subst tr1. apply (H2 _ _ _ eq_refl) in H. subst u. rewrite app_assoc. reflexivity.
Qed.
(** With a first part that is known. *)
Lemma traces_after {S A B} (m : call E S A) (k : A -> call E S B) s tr a s1 t1 t2 :
  m s tr = (Ret a, s1, tr ++ t1) -> traces (k a s1 (tr ++ t1)) (tr ++ t1) t2 ->
  traces (bind m k s tr) tr (t1 ++ t2).
Proof.
  intros H1 H2 b s' u H. unfold bind in H. rewrite H1 in H. apply H2 in H. subst u. rewrite app_assoc. reflexivity.
Qed.
Lemma traces_silent {S A B} (m : call E S A) (k : A -> call E S B) s tr t :
  traces (m s tr) tr t -> (forall a s' tr', traces (k a s' tr') tr' []) -> traces (bind m k s tr) tr t.
Proof. intros H1 H2. rewrite <- (app_nil_r t). apply traces_bind; auto. Qed.

Lemma find_holds {X T} (f : T -> T -> bool) (key : X -> T) l t :
  is_some (find_idx (fun x => f (key x) t) l) = holds f (map key l) t.
Proof.
  unfold holds. induction l as [|x r IH]; cbn; [reflexivity|]. destruct (f (key x) t); cbn; [reflexivity|].
  rewrite <- IH. destruct (find_idx _ r); reflexivity.
Qed.
Lemma find_idx_lt {X} (p : X -> bool) l i : find_idx p l = Some i -> (i < length l)%nat.
Proof.
  revert i. induction l as [|x r IH]; intros i; cbn; [discriminate|]. destruct (p x).
  - intros H. injection H as <-. lia.
  - destruct (find_idx p r) as [j|]; cbn; [|discriminate]. intros H. injection H as <-. specialize (IH j eq_refl). lia.
Qed.

Section Set_.
Context {T : Type} (ev : T -> T -> E) (f : T -> T -> bool).
Lemma inv_items (s : cset T) l : inv_s s -> s_items s = Some l ->
  exists r, s_storage s = l ++ r /\ s_size s = len l /\ (len (l ++ r) < size_mod)%N.
Proof.
  intros [H1 H2] X. unfold s_items in X. destruct (N.leb_spec (s_size s) (len (s_storage s))); [|lia].
  injection X as <-. exists (skipn (N.to_nat (s_size s)) (s_storage s)). rewrite firstn_skipn.
  split; [reflexivity|]. split; [|exact H2]. rewrite len_firstn; lia.
Qed.
Lemma cs_insert_pure t s tr l : inv_s s -> s_items s = Some l ->
  forall b s' u, cs_insert ev (answers f) t s tr = (Ret b, s', u) ->
  u = tr ++ lookup ev f l t /\ s_items s' = Some (if holds f l t then l else l ++ [t]).
Proof.
  intros Hi Hl b s' u H. destruct (inv_items _ _ Hi Hl) as (r & S1 & S2 & S3).
  unfold cs_insert, bind in H. rewrite (cs_contains_pure ev f t s tr l Hl) in H.
  pose proof (find_holds f (fun x => x) l t) as FH. rewrite map_id in FH. rewrite FH in H.
  destruct (holds f l t).
  - unfold ret in H. injection H as <- <- <-. auto.
  - unfold plainly in H. destruct (wr (s_storage s) (s_size s) t) as [st|] eqn:W; cbn in H; [|discriminate].
    injection H as <- <- <-. split; [reflexivity|].
    rewrite S1, S2 in W. destruct r as [|x r].
    { rewrite app_nil_r in W. rewrite wr_ge_None in W by lia. discriminate. }
    rewrite wr_app_len in W. injection W as <-. unfold s_items. cbn [s_size s_storage].
    rewrite S2. rewrite sz_inc_small by (rewrite len_app, len_cons in S3; lia).
    destruct (N.leb_spec (len l + 1) (len (l ++ t :: r))) as [_|L]; [|rewrite len_app, len_cons in L; lia].
    f_equal. replace (l ++ t :: r) with ((l ++ [t]) ++ r) by (rewrite <- app_assoc; reflexivity).
    replace (N.to_nat (len l + 1)) with (length (l ++ [t])) by (rewrite app_length; unfold len; cbn; lia).
    apply firstn_app_len.
Qed.
Lemma cs_insert_traces t s tr l : inv_s s -> s_items s = Some l ->
  traces (cs_insert ev (answers f) t s tr) tr (lookup ev f l t).
Proof. intros Hi Hl b s' u H. exact (proj1 (cs_insert_pure t s tr l Hi Hl b s' u H)). Qed.
Lemma cs_erase_traces t s tr l : s_items s = Some l ->
  traces (cs_erase ev (answers f) t s tr) tr (lookup ev f l t).
Proof.
  intros Hl. unfold cs_erase. rewrite <- (app_nil_r (lookup ev f l t)).
  eapply traces_after; [apply cs_find_pure, Hl|]. destruct (find_idx _ l); [apply traces_plainly|apply traces_ret].
Qed.
Lemma cs_contains_traces t s tr l : s_items s = Some l ->
  traces (cs_contains ev (answers f) t s tr) tr (lookup ev f l t).
Proof. intros Hl a s' u H. rewrite (cs_contains_pure _ _ _ _ _ _ Hl) in H. congruence. Qed.
Lemma cs_merge_traces ts : forall s tr l, inv_s s -> s_items s = Some l ->
  traces (cs_merge ev (answers f) ts s tr) tr (merging ev f l ts).
Proof.
  induction ts as [|t r IH]; intros s tr l Hi Hl; cbn; [apply traces_ret|].
  apply traces_bind; [apply cs_insert_traces; auto|]. intros b s' tr' X. apply IH.
  - exact (cs_insert_keeps ev _ t _ _ _ _ _ Hi X).
  - exact (proj2 (cs_insert_pure t s tr l Hi Hl _ _ _ X)).
Qed.
Lemma cs_step_traces op s tr l : inv_s s -> s_items s = Some l ->
  traces (cs_step ev (answers f) op s tr) tr (set_compares ev f l op).
Proof.
  intros Hi Hl. destruct op; cbn [cs_step set_compares]; try apply traces_plainly.
  - apply traces_silent; [apply cs_insert_traces; auto|intros; apply traces_ret].
  - apply traces_silent; [apply cs_erase_traces; auto|intros; apply traces_ret].
  - apply traces_silent; [apply cs_merge_traces; auto|intros; apply traces_ret].
  - apply traces_silent; [apply cs_contains_traces; auto|intros; apply traces_ret].
Qed.
End Set_.

Section Map_.
Context {K V : Type} (ev : K -> K -> E) (f : K -> K -> bool).
Notation mp := (cmap K V).
Notation lk := (lookup ev f).
Lemma cm_get_pure k (m : mp) tr l i : m_items m = Some l -> find_idx (fun e => f (fst e) k) l = Some i ->
  cm_get ev (answers f) k m tr = (Ret i, m, tr ++ lk (map fst l) k).
Proof. intros H F. unfold cm_get, bind. rewrite (cm_find_pure ev f k m tr l H), F. reflexivity. Qed.
Lemma cm_get_traces k (m : mp) tr l : m_items m = Some l ->
  traces (cm_get ev (answers f) k m tr) tr (lk (map fst l) k).
Proof.
  intros H. unfold cm_get. rewrite <- (app_nil_r (lk _ _)). eapply traces_after; [apply cm_find_pure, H|].
  destruct (find_idx _ l); [apply traces_ret|apply traces_plainly].
Qed.
Lemma cm_contains_pure k (m : mp) tr l : m_items m = Some l ->
  cm_contains ev (answers f) k m tr =
  (Ret (is_some (find_idx (fun e => f (fst e) k) l)), m, tr ++ lk (map fst l) k).
Proof. intros H. unfold cm_contains, bind. rewrite (cm_find_pure ev f k m tr l H). reflexivity. Qed.
Lemma cm_put_traces k v (m : mp) tr l : m_items m = Some l ->
  traces (cm_put ev (answers f) k v m tr) tr (lk (map fst l) k).
Proof.
  intros H. unfold cm_put. rewrite <- (app_nil_r (lk _ _)). eapply traces_after; [apply cm_find_pure, H|].
  destruct (find_idx _ l); [|apply traces_plainly].
  apply traces_silent; [apply traces_plainly|intros; apply traces_ret].
Qed.
Lemma cm_erase_traces k (m : mp) tr l : m_items m = Some l ->
  traces (cm_erase ev (answers f) k m tr) tr (lk (map fst l) k).
Proof.
  intros H. unfold cm_erase. rewrite <- (app_nil_r (lk _ _)). eapply traces_after; [apply cm_find_pure, H|].
  destruct (find_idx _ l); [apply traces_plainly|apply traces_ret].
Qed.
Lemma cm_step_traces cap op (m : mp) tr l : m_items m = Some l ->
  traces (cm_step ev (answers f) cap op m tr) tr (map_compares ev f l op).
Proof.
  intros H. destruct op; cbn [cm_step map_compares]; try apply traces_plainly.
  - apply traces_silent; [apply cm_put_traces; auto|intros; apply traces_ret].
  - apply traces_silent; [apply cm_erase_traces; auto|intros; apply traces_ret].
  - apply traces_silent; [apply cm_get_traces; auto|]. intros.
    apply traces_silent; [apply traces_plainly|intros; apply traces_ret].
  - apply traces_silent; [apply cm_get_traces; auto|]. intros.
    apply traces_silent; [apply traces_plainly|intros; apply traces_ret].
  - apply traces_silent; [|intros; apply traces_ret]. intros a s' u X.
    rewrite (cm_contains_pure _ _ _ _ H) in X. congruence.
Qed.
End Map_.

Section Parts.
Context {K V : Type}.
Notation mm := (cmap K (cset V)).
Notation inv := (@inv_m K (cset V) inv_s).
Lemma inv_mm_parts (m : mm) l : inv m -> mm_items m = Some l ->
  exists l0 r, m_items m = Some l0 /\ m_storage m = l0 ++ r /\ m_size m = len l0 /\ mm_lists l0 = Some l.
Proof.
  intros H X. unfold mm_items in X. pose proof (inv_m_items _ _ H) as Y. rewrite Y in X.
  exists (firstn (N.to_nat (m_size m)) (m_storage m)), (skipn (N.to_nat (m_size m)) (m_storage m)).
  rewrite firstn_skipn. split; [exact Y|]. split; [reflexivity|]. split; [|exact X].
  destruct H as [[H1 _] _]. rewrite len_firstn; lia.
Qed.

Lemma on_set_pure {A} i (c : call E (cset V) A) (m : mm) l0 r k s tr :
  m_storage m = l0 ++ r -> nth_error l0 i = Some (k, s) ->
  exists st, forall r0 s' u, c s tr = (r0, s', u) ->
  wr (m_storage m) (N.of_nat i) (k, s') = Some (st s') /\
  on_set i c m tr = (r0, {| m_storage := st s'; m_size := m_size m |}, u) /\
  st s' = set_nth i (k, s') l0 ++ r.
Proof.
  intros Hs Hn. assert (L : (i < length l0)%nat) by (apply nth_error_Some; congruence).
  exists (fun s' => set_nth i (k, s') l0 ++ r). intros r0 s' u C. unfold on_set.
  assert (R : rd (m_storage m) (N.of_nat i) = Some (k, s)).
  { rewrite rd_nth_error, Hs, Nat2N.id, nth_error_app1 by exact L. exact Hn. }
  assert (W : wr (m_storage m) (N.of_nat i) (k, s') = Some (set_nth i (k, s') l0 ++ r)).
  { unfold wr. rewrite Hs. destruct (N.ltb_spec (N.of_nat i) (len (l0 ++ r))) as [_|X].
    - rewrite Nat2N.id, set_nth_app1 by exact L. reflexivity.
    - unfold len in X. rewrite app_length in X. lia. }
  rewrite R, C, W. auto.
Qed.
End Parts.

Section Multimap_.
Context {K V : Type} (kev : K -> K -> E) (kf : K -> K -> bool) (vev : V -> V -> E) (vf : V -> V -> bool).
Context (vcap : N) (dv : V).
Notation mm := (cmap K (cset V)).
Notation inv := (@inv_m K (cset V) inv_s).

Lemma mm_lists_keys (l0 : list (K * cset V)) l : mm_lists l0 = Some l -> map fst l0 = map fst l.
Proof.
  revert l. induction l0 as [|[k s] r IH]; cbn; intros l H; [injection H as <-; reflexivity|].
  destruct (s_items s); [|discriminate]. destruct (mm_lists r); [|discriminate]. injection H as <-.
  cbn. f_equal. apply IH. reflexivity.
Qed.
Lemma mm_lists_find (l0 : list (K * cset V)) l k : mm_lists l0 = Some l ->
  match find_idx (fun e => kf (fst e) k) l0 with
  | Some i => exists k' s vs, nth_error l0 i = Some (k', s) /\ s_items s = Some vs /\ values kf l k = Some vs
  | None => values kf l k = None
  end.
Proof.
  unfold values. revert l. induction l0 as [|[k0 s0] r IH]; cbn; intros l H; [injection H as <-; reflexivity|].
  destruct (s_items s0) as [vs0|] eqn:S0; [|discriminate]. destruct (mm_lists r) as [t|]; [|discriminate].
  injection H as <-. specialize (IH t eq_refl). cbn. destruct (kf k0 k).
  - cbn. eauto 8.
  - destruct (find_idx _ r) as [i|]; cbn; exact IH.
Qed.
Lemma on_set_traces {A} i (c : call E (cset V) A) (m : mm) l0 r k s tr t :
  m_storage m = l0 ++ r -> nth_error l0 i = Some (k, s) ->
  traces (c s tr) tr t -> traces (on_set i c m tr) tr t.
Proof.
  intros Hs Hn Ht a m' u X. destruct (on_set_pure i c m l0 r k s tr Hs Hn) as (st & H).
  destruct (c s tr) as [[r0 s'] u'] eqn:C. destruct (H _ _ _ eq_refl) as (_ & Y & _). rewrite Y in X.
  injection X as -> <- <-. exact (Ht _ _ _ eq_refl).
Qed.
Lemma nth_inv (m : mm) l0 r i k s : inv m -> m_storage m = l0 ++ r -> nth_error l0 i = Some (k, s) -> inv_s s.
Proof.
  intros [_ H] X N. rewrite X in H. apply Forall_app in H as [H _]. rewrite Forall_forall in H.
  exact (H _ (nth_error_In _ _ N)).
Qed.
Lemma map_fst_set_nth (l0 : list (K * cset V)) i k s s' :
  nth_error l0 i = Some (k, s) -> map fst (set_nth i (k, s') l0) = map fst l0.
Proof.
  revert i. induction l0 as [|e r IH]; intros [|i]; cbn; try discriminate.
  - intros H. injection H as ->. reflexivity.
  - intros H. f_equal. exact (IH _ H).
Qed.

(** What erasing a value leaves. *)
Lemma cs_erase_size v s tr vs : inv_s s -> s_items s = Some vs ->
  forall n s' u, cs_erase vev (answers vf) v s tr = (Ret n, s', u) -> (s_size s' =? 0)%N = emptied vf vs v.
Proof.
  intros Hi Hl n s' u H. destruct (inv_items _ _ Hi Hl) as (r & S1 & S2 & S3).
  unfold cs_erase, bind in H. rewrite (cs_find_pure vev vf v s tr vs Hl) in H.
  destruct (find_idx (fun x => vf x v) vs) as [i|] eqn:F.
  - unfold plainly in H. destruct (rd (s_storage s) (sz_dec (s_size s))) as [y|]; [|discriminate].
    destruct (wr (s_storage s) (N.of_nat i) y); cbn in H; [|discriminate]. injection H as _ <- _. cbn.
    destruct vs as [|x [|y' vs]]; cbn in F; [discriminate| |].
    + change (len [x]) with 1%N in S2. rewrite S2, sz_dec_pos; [|lia|reflexivity]. cbn. destruct (vf x v); [reflexivity|discriminate].
    + rewrite S2, sz_dec_pos; [|rewrite len_cons; lia|rewrite len_app in S3; lia].
      rewrite !len_cons. cbn. apply N.eqb_neq. lia.
  - unfold ret in H. injection H as <- <- <-. rewrite S2.
    destruct vs as [|x [|y' vs]]; cbn in F; cbn [emptied].
    + reflexivity.
    + destruct (vf x v); [discriminate|reflexivity].
    + rewrite !len_cons. apply N.eqb_neq. lia.
Qed.

Lemma cmm_erase_traces k v (m : mm) (l : list (K * list V)) l0 r i k' s vs tr : inv m ->
  m_items m = Some l0 -> m_storage m = l0 ++ r -> m_size m = len l0 -> map fst l0 = map fst l ->
  find_idx (fun e => kf (fst e) k) l0 = Some i -> nth_error l0 i = Some (k', s) -> s_items s = Some vs ->
  traces (cmm_erase kev (answers kf) vev (answers vf) k v m tr) tr
    (lookup kev kf (map fst l) k ++ lookup kev kf (map fst l) k ++ lookup vev vf vs v ++
     (if emptied vf vs v then lookup kev kf (map fst l) k else [])).
Proof.
  intros Hm H0 Hs Hz Hk F Hn Hv. pose proof (nth_inv _ _ _ _ _ _ Hm Hs Hn) as Hi.
  unfold cmm_erase. rewrite <- Hk. eapply traces_after; [apply cm_contains_pure, H0|]. rewrite F. cbn [is_some].
  eapply traces_after; [apply (cm_get_pure kev kf k m _ l0 i H0 F)|].
  set (tr2 := (_ ++ _) ++ _). clearbody tr2.
  destruct (on_set_pure i (cs_erase vev (answers vf) v) m l0 r k' s tr2 Hs Hn) as (st & HO).
  destruct (cs_erase vev (answers vf) v s tr2) as [[[n| |] s'] u] eqn:C.
  2,3: destruct (HO _ _ _ eq_refl) as (_ & Y & _); intros a s1 u1 X; unfold bind at 1 in X; rewrite Y in X; discriminate.
  destruct (HO _ _ _ eq_refl) as (_ & Y & Z).
  pose proof (cs_erase_traces vev vf v s tr2 vs Hv _ _ _ C) as ->.
  eapply traces_after; [exact Y|].
  set (m1 := {| m_storage := st s'; m_size := m_size m |}).
  assert (R1 : rd (m_storage m1) (N.of_nat i) = Some (k', s')).
  { unfold m1. cbn. rewrite Z. assert (L : (i < length l0)%nat) by (apply nth_error_Some; congruence).
    rewrite rd_nth_error, Nat2N.id, nth_error_app1 by (rewrite set_nth_length; exact L).
    rewrite nth_error_set_nth by exact L. rewrite Nat.eqb_refl. reflexivity. }
  match goal with |- traces (bind ?c ?g ?a ?b) _ _ => assert (X : c a b = (Ret s', m1, b ++ [])) end.
  { unfold cm_read, plainly. rewrite R1. cbn. rewrite app_nil_r. reflexivity. }
  match goal with |- traces _ _ ?t => rewrite <- (app_nil_l t) end.
  eapply traces_after; [exact X|]. rewrite (cs_erase_size v s tr2 vs Hi Hv _ _ _ C).
  destruct (emptied vf vs v); [|apply traces_ret].
  apply traces_silent; [|intros; apply traces_ret].
  rewrite <- (map_fst_set_nth _ _ _ _ s' Hn). apply cm_erase_traces.
  unfold m_items, m1. cbn. rewrite Z, Hz. destruct (N.leb_spec (len l0) (len (set_nth i (k', s') l0 ++ r))) as [_|L].
  - f_equal. rewrite len_to_nat, <- (set_nth_length i (k', s') l0). apply firstn_app_len.
  - unfold len in L. rewrite app_length, set_nth_length in L. lia.
Qed.

Lemma cmm_step_traces op (m : mm) tr l : inv m -> mm_items m = Some l ->
  traces (cmm_step kev (answers kf) vev (answers vf) vcap dv op m tr) tr (multimap_compares kev kf vev vf l op).
Proof.
  intros Hm Hl. destruct (inv_mm_parts _ _ Hm Hl) as (l0 & r & H0 & Hs & Hz & Hll).
  pose proof (mm_lists_keys _ _ Hll) as Hk. pose proof (fun k => mm_lists_find _ _ k Hll) as Hf.
  destruct op as [k v|k|k v|k|k|k v|k sop| | | |]; cbn [cmm_step multimap_compares]; try apply traces_plainly; rewrite <- ?Hk.
  - apply traces_silent; [|intros; apply traces_ret]. specialize (Hf k). unfold cmm_insert.
    eapply traces_after; [apply cm_contains_pure, H0|].
    destruct (find_idx _ l0) as [i|] eqn:F; cbn [is_some].
    + destruct Hf as (k' & s & vs & Hn & Hv & ->). eapply traces_after; [apply (cm_get_pure kev kf k m _ l0 i H0 F)|].
      apply traces_silent; [|intros; apply traces_ret]. eapply on_set_traces; [exact Hs|exact Hn|].
      apply cs_insert_traces; [exact (nth_inv _ _ _ _ _ _ Hm Hs Hn)|exact Hv].
    + rewrite Hf, app_nil_r. match goal with |- traces _ _ ?t => rewrite <- (app_nil_l t) end.
      apply traces_bind; [apply traces_plainly|]. intros s m' tr' X.
      assert (m' = m) as -> by (exact (make_set_reads _ _ _ _ _ _ _ _ X)).
      apply traces_silent; [|intros; apply traces_ret]. apply cm_put_traces, H0.
  - apply traces_silent; [|intros; apply traces_ret]. specialize (Hf k). unfold cmm_insert_key.
    eapply traces_after; [apply cm_contains_pure, H0|].
    destruct (find_idx _ l0) as [i|] eqn:F; cbn [is_some].
    + destruct Hf as (k' & s & vs & Hn & Hv & ->). apply traces_ret.
    + rewrite Hf. match goal with |- traces _ _ ?t => rewrite <- (app_nil_l t) end.
      apply traces_bind; [apply traces_plainly|]. intros s m' tr' X.
      assert (m' = m) as -> by (exact (make_set_reads _ _ _ _ _ _ _ _ X)).
      apply traces_silent; [|intros; apply traces_ret]. apply cm_put_traces, H0.
  - apply traces_silent; [|intros; apply traces_ret]. specialize (Hf k).
    destruct (find_idx _ l0) as [i|] eqn:F.
    + destruct Hf as (k' & s & vs & Hn & Hv & ->).
      rewrite Hk. exact (cmm_erase_traces k v m l l0 r i k' s vs tr Hm H0 Hs Hz Hk F Hn Hv).
    + unfold cmm_erase. rewrite Hf. eapply traces_after; [apply cm_contains_pure, H0|].
      rewrite F. apply traces_ret.
  - apply traces_silent; [|intros; apply traces_ret]. apply cm_erase_traces, H0.
  - apply traces_silent; [|intros; apply traces_ret]. intros a s' u X.
    rewrite (cm_contains_pure kev kf k m tr l0 H0) in X. congruence.
  - apply traces_silent; [|intros; apply traces_ret]. specialize (Hf k). unfold cmm_contains2.
    eapply traces_after; [apply cm_contains_pure, H0|].
    destruct (find_idx _ l0) as [i|] eqn:F; cbn [is_some].
    + destruct Hf as (k' & s & vs & Hn & Hv & ->). eapply traces_after; [apply (cm_get_pure kev kf k m _ l0 i H0 F)|].
      eapply on_set_traces; [exact Hs|exact Hn|]. apply cs_contains_traces, Hv.
    + rewrite Hf. apply traces_ret.
  - specialize (Hf k). destruct (find_idx _ l0) as [i|] eqn:F.
    + destruct Hf as (k' & s & vs & Hn & Hv & ->). eapply traces_after; [apply (cm_get_pure kev kf k m _ l0 i H0 F)|].
      apply traces_silent; [|intros; apply traces_ret]. eapply on_set_traces; [exact Hs|exact Hn|].
      apply cs_step_traces; [exact (nth_inv _ _ _ _ _ _ Hm Hs Hn)|exact Hv].
    + intros a s' u X. unfold bind at 1, cm_get, bind at 1 in X. rewrite (cm_find_pure kev kf k m tr l0 H0), F in X.
      discriminate.
Qed.
End Multimap_.
End P.
