From Verif Require Import Base BaseLemmas CxQueueModel CxQueueSpec CxQueueProofs CxVectorModel
  CxVectorSpec CxVectorProofs CxSetModel CxSetProofs CxMapModel RefModel RefSpec.
Open Scope N_scope.

Section Queue.
Context {A : Type} (mv : A -> A) (cap : N) (cap_pos : 0 < cap) (cap_small : cap < size_mod).

Lemma push_body_pop (q : queue A) v q' i : push_body cap q v = Some (q', i) -> q_pop q' = q_pop q.
Proof.
  unfold push_body. destruct (wr _ _ _); [|discriminate]. intro H. injection H as <- <-. reflexivity.
Qed.
Lemma pop_body_pop (q : queue A) q' x : pop_body mv cap q = Some (q', x) ->
  q_pop q' = (if sz_inc (q_pop q) =? cap then 0 else sz_inc (q_pop q)).
Proof.
  unfold pop_body. destruct (rd _ _); [|discriminate]. destruct (wr _ _ _); [|discriminate].
  intro H. injection H as <- <-. reflexivity.
Qed.
Lemma set_at_pop (q : queue A) i v q' o : set_at q i v = Some (q', o) -> q_pop q' = q_pop q.
Proof. unfold set_at. destruct (wr _ _ _); [|discriminate]. intro H. injection H as <- <-. reflexivity. Qed.

Lemma after_check_done h p (s : queue A) body s' o :
  after_check h p s body = Done s' o [] -> body = Some (s', o).
Proof.
  unfold after_check. destruct p as [p|].
  - destruct h; [destruct body as [[? ?]|]; intro H; discriminate H | discriminate].
  - destruct body as [[? ?]|]; [|discriminate]. intro H. injection H as -> ->. reflexivity.
Qed.

Lemma slot_step pol h q l op l' o q' p p' :
  Rep cap q l -> fifo_step cap l op = Some (l', o) -> q_step mv pol h cap q op = Done q' o [] ->
  (p < length l)%nat -> q_moves p op = Some p' ->
  slot cap (q_pop q') (N.of_nat p') = slot cap (q_pop q) (N.of_nat p) /\ (p' < length l')%nat.
Proof.
  intros HR Hs Hq Hp Hm.
  assert (Hpop : q_pop q < cap) by apply HR.
  assert (Hle : len l <= cap) by apply HR.
  destruct op; cbn [q_moves] in Hm; cbn [q_step] in Hq; cbn [fifo_step] in Hs.
  all: try (injection Hm as <-).
  - (* Push *) apply after_check_done in Hq. destruct (push_body cap q v) as [[q1 i]|] eqn:E; [|discriminate].
    inversion Hq; subst; clear Hq. rewrite (push_body_pop _ _ _ _ E).
    destruct (len l <? cap); [|discriminate]. inversion Hs; subst; clear Hs. rewrite app_length. cbn. split; [reflexivity | lia].
  - apply after_check_done in Hq. destruct (push_body cap q v) as [[q1 i]|] eqn:E; [|discriminate].
    rewrite (set_at_pop _ _ _ _ _ Hq), (push_body_pop _ _ _ _ E).
    destruct (len l <? cap); [|discriminate]. inversion Hs; subst; clear Hs. rewrite app_length. cbn. split; [reflexivity | lia].
  - (* Pop *) apply after_check_done in Hq. destruct (pop_body mv cap q) as [[q1 x]|] eqn:E; [|discriminate].
    inversion Hq; subst; clear Hq. destruct p as [|p0]; [discriminate|]. injection Hm as <-.
    destruct l as [|y l]; [discriminate|]. inversion Hs; subst; clear Hs. cbn [length] in Hp. split; [|lia].
    rewrite (pop_body_pop _ _ _ E), sz_inc_small by lia.
    assert (N.of_nat (S p0) < cap) by (rewrite len_cons in Hle; unfold len in Hle; lia).
    unfold slot. destruct (N.eqb_spec (q_pop q + 1) cap);
      repeat match goal with |- context [?a <? ?b] => destruct (N.ltb_spec a b) end; lia.
  - apply after_check_done in Hq. destruct (rd _ _); [|discriminate]. inversion Hq; subst; clear Hq.
    destruct l; [discriminate|]. inversion Hs; subst; clear Hs. split; [reflexivity | assumption].
  - apply after_check_done in Hq. destruct (rd _ _); [|discriminate]. inversion Hq; subst; clear Hq.
    destruct (last_opt l); [|discriminate]. inversion Hs; subst; clear Hs. split; [reflexivity | assumption].
  - apply after_check_done in Hq. rewrite (set_at_pop _ _ _ _ _ Hq).
    destruct l; [discriminate|]. inversion Hs; subst; clear Hs. split; [reflexivity | assumption].
  - apply after_check_done in Hq. rewrite (set_at_pop _ _ _ _ _ Hq).
    destruct l as [|y l]; [discriminate|]. inversion Hs; subst; clear Hs. split; [reflexivity|].
    rewrite (set_last_set_nth mv cap cap_pos cap_small) by discriminate. now rewrite set_nth_length.
  - discriminate.
  - inversion Hq; subst; clear Hq. inversion Hs; subst; clear Hs. split; [reflexivity | assumption].
  - inversion Hq; subst; clear Hq. inversion Hs; subst; clear Hs. split; [reflexivity | assumption].
  - inversion Hq; subst; clear Hq. inversion Hs; subst; clear Hs. split; [reflexivity | assumption].
Qed.

Lemma slot_run pol h ops : forall q l l' os p p',
  Rep cap q l -> spec_run (fifo_step cap) l ops = Some (l', os) -> (p < length l)%nat ->
  q_follow p ops = Some p' ->
  exists q', run (q_step mv pol h cap) q ops = Done q' os [] /\ Rep cap q' l' /\
    slot cap (q_pop q') (N.of_nat p') = slot cap (q_pop q) (N.of_nat p) /\ (p' < length l')%nat.
Proof.
  induction ops as [|op ops IH]; intros q l l' os p p' HR Hs Hp Hf; cbn [spec_run q_follow run] in *.
  - injection Hs as <- <-. injection Hf as <-. exists q. repeat split; try apply HR. exact Hp.
  - destruct (fifo_step cap l op) as [[l1 o]|] eqn:E1; [|discriminate].
    destruct (spec_run (fifo_step cap) l1 ops) as [[l2 os2]|] eqn:E2; [|discriminate].
    injection Hs as <- <-. destruct (q_moves p op) as [p1|] eqn:Em; [|discriminate].
    destruct (step_ok mv cap cap_pos cap_small pol h q l op l1 o HR E1) as (q1 & Hq1 & HR1).
    destruct (slot_step pol h q l op l1 o q1 p p1 HR E1 Hq1 Hp Em) as [Hslot Hp1].
    destruct (IH q1 l1 l2 os2 p1 p' HR1 E2 Hp1 Hf) as (q2 & Hq2 & HR2 & Hs2 & Hp2).
    rewrite Hq1, Hq2. exists q2. split; [reflexivity|]. split; [exact HR2|].
    split; [now rewrite Hs2 | exact Hp2].
Qed.

Lemma slot0 b : b < cap -> slot cap b 0 = b.
Proof. intro. unfold slot. destruct (N.ltb_spec (b + 0) cap); lia. Qed.

(** What a reference to position [p] is good for. *)
Lemma ref_good pol h q l p r :
  Rep cap q l -> (p < length l)%nat -> r = slot cap (q_pop q) (N.of_nat p) ->
  q_read q r = nth_error l p /\
  (p = O -> q_front_ref q = r) /\ (S p = length l -> q_back_ref q = r) /\
  forall w, exists q', q_assign q r w = Some q' /\
    forall ops l' os, spec_run (fifo_step cap) (set_nth p w l) ops = Some (l', os) ->
    exists q'', run (q_step mv pol h cap) q' ops = Done q'' os [].
Proof.
  intros HR Hp ->. assert (Hpop : q_pop q < cap) by apply HR. split; [|split; [|split]].
  - unfold q_read. destruct HR as (_ & _ & _ & _ & _ & Hrd). rewrite Hrd by (unfold len; lia).
    rewrite rd_nth_error. f_equal. lia.
  - intros ->. unfold q_front_ref. symmetry. now apply slot0.
  - intro Hl. unfold q_back_ref. rewrite (back_slot mv cap cap_pos cap_small q l HR).
    + f_equal. unfold len. lia.
    + destruct l; [cbn in Hp; lia | discriminate].
  - intro w. destruct (set_at_ok mv cap cap_pos cap_small q l (N.of_nat p) w HR) as (q' & Hset & HR').
    { unfold len. lia. }
    exists q'. unfold q_assign. rewrite Hset. split; [reflexivity|].
    intros ops l' os Hrun. rewrite Nat2N.id in HR'.
    destruct (run_ok mv cap cap_pos cap_small pol h q' _ ops l' os HR' Hrun) as (q'' & H & _). eauto.
Qed.
End Queue.

Lemma queue_refs A (mv : A -> A) cap d pol h ops0 l0 outs0 :
  0 < cap -> cap < size_mod -> spec_run (fifo_step cap) [] ops0 = Some (l0, outs0) ->
  exists q0, run (q_step mv pol h cap) (q_init cap d) ops0 = Done q0 outs0 [] /\
  forall p r, (p < length l0)%nat ->
  (p = O /\ r = q_front_ref q0) \/ (S p = length l0 /\ r = q_back_ref q0) ->
  forall ops l outs p', spec_run (fifo_step cap) l0 ops = Some (l, outs) -> q_follow p ops = Some p' ->
  exists q, run (q_step mv pol h cap) q0 ops = Done q outs [] /\
    q_read q r = nth_error l p' /\
    (p' = O -> q_front_ref q = r) /\ (S p' = length l -> q_back_ref q = r) /\
    forall w, exists q', q_assign q r w = Some q' /\
      forall ops2 l2 outs2, spec_run (fifo_step cap) (set_nth p' w l) ops2 = Some (l2, outs2) ->
      exists q2, run (q_step mv pol h cap) q' ops2 = Done q2 outs2 [].
Proof.
  intros Hc Hs H0.
  destruct (run_ok mv cap Hc Hs pol h (q_init cap d) [] ops0 l0 outs0 (rep_init mv cap Hc Hs d) H0) as (q0 & Hq0 & HR0).
  exists q0. split; [exact Hq0|]. intros p r Hp Hr ops l outs p' Hrun Hf.
  assert (Hslot : r = slot cap (q_pop q0) (N.of_nat p)).
  { destruct (ref_good mv cap Hc Hs pol h q0 l0 p _ HR0 Hp eq_refl) as (_ & H1 & H2 & _).
    destruct Hr as [[-> ->] | [Hl ->]]; [now apply H1 | now apply H2]. }
  destruct (slot_run mv cap Hc Hs pol h ops q0 l0 l outs p p' HR0 Hrun Hp Hf) as (q & Hq & HR & Hsl & Hp').
  exists q. split; [exact Hq|]. apply (ref_good mv cap Hc Hs pol h q l p' r HR Hp').
  now rewrite Hsl.
Qed.

(** push returns the reference back() will return. *)
Lemma queue_push_ref A (mv : A -> A) cap pol h q v q' o ps :
  q_step mv pol h cap q (Push v) = Done q' o ps -> q_push_ref (A := A) cap q v = Some (q_back_ref q').
Proof.
  cbn [q_step]. unfold q_push_ref, after_check, push_body, q_back_ref.
  destruct (wr _ _ _) as [st|]; cbn [option_map fst snd].
  - destruct (check_push pol (q_size q) cap), h; intro H; try discriminate H; injection H as <- _ _; reflexivity.
  - destruct (check_push pol (q_size q) cap), h; discriminate.
Qed.

(** ** cx_vector *)
Lemma vector_refs A cap (d : A) ts v0 ops0 l0 outs0 :
  cap < size_mod -> v_make cap d ts = Some v0 -> spec_run (vlist_step cap) ts ops0 = Some (l0, outs0) ->
  exists v, run (v_step cap) v0 ops0 = Done v outs0 [] /\
  (l0 <> [] -> v_back_ref v = Some (len l0 - 1)) /\
  forall i, i < len l0 -> v_index_ref v i = Some i /\
  forall ops l outs, spec_run (vlist_step cap) l0 ops = Some (l, outs) -> v_stays cap i l0 ops ->
  exists v', run (v_step cap) v ops = Done v' outs [] /\
    v_read v' i = nth_error l (N.to_nat i) /\
    forall w, exists v'', v_assign v' i w = Some v'' /\
      forall ops2 l2 outs2, spec_run (vlist_step cap) (set_nth (N.to_nat i) w l) ops2 = Some (l2, outs2) ->
      exists v2, run (v_step cap) v'' ops2 = Done v2 outs2 [].
Proof.
  intros Hc Hmk H0. pose proof (v_make_rep cap d ts v0 Hmk) as HR0.
  destruct (v_run_ok cap ops0 v0 ts l0 outs0 Hc HR0 H0) as (v & Hv & HR).
  exists v. split; [exact Hv|]. destruct HR as (Hst & Hsz & t & Ht).
  assert (Hle : len l0 <= cap) by (rewrite <- Hst, Ht, len_app; lia). split.
  - intro Hne. assert (0 < len l0) by (destruct l0; [congruence | rewrite len_cons; lia]).
    unfold v_back_ref, v_index_ref. rewrite Hsz, sz_dec_pos by lia. rewrite Hst.
    destruct (N.ltb_spec (len l0 - 1) cap); [reflexivity | lia].
  - intros i Hi. split.
    { unfold v_index_ref. rewrite Hst. destruct (N.ltb_spec i cap); [reflexivity | lia]. }
    intros ops l outs Hrun Hstay.
    assert (HR : VRep cap v l0) by (split; [assumption | split; [assumption | eauto]]).
    destruct (v_run_ok cap ops v l0 l outs Hc HR Hrun) as (v' & Hv' & HR').
    assert (Hil : i < len l).
    { clear - Hrun Hstay. revert l0 outs Hrun Hstay.
      induction ops as [|op ops IH]; intros l0 outs Hrun [Hi Hstay]; cbn [spec_run] in Hrun.
      - injection Hrun as <- _. exact Hi.
      - destruct (vlist_step cap l0 op) as [[l1 o]|]; [|contradiction].
        destruct (spec_run (vlist_step cap) l1 ops) as [[l2 os]|] eqn:E; [|discriminate].
        injection Hrun as <- _. eapply IH; [exact E | exact Hstay]. }
    exists v'. split; [exact Hv'|].
    pose proof HR' as (Hst' & Hsz' & t' & Ht').
    assert (Hle' : len l <= cap) by (rewrite <- Hst', Ht', len_app; lia).
    split; [unfold v_read; rewrite Ht', rd_app1 by assumption; apply rd_nth_error|].
    intro w. destruct (v_step_ok cap v' l (VSet i w) (set_nth (N.to_nat i) w l) VUnit Hc HR') as (v'' & Hs & HR'').
    { cbn [vlist_step]. destruct (N.ltb_spec i (len l)); [reflexivity | lia]. }
    exists v''. split.
    + cbn [v_step] in Hs. unfold v_assign. destruct (v_write v' i w (v_size v')); cbn in Hs; [|discriminate].
      injection Hs as <-. reflexivity.
    + intros ops2 l2 outs2 H2. destruct (v_run_ok cap ops2 v'' _ l2 outs2 Hc HR'' H2) as (v2 & H & _). eauto.
Qed.

(** ** Maps and sets *)
Lemma find_idx_app {A} (p : A -> bool) l1 l2 i : find_idx p l1 = Some i -> find_idx p (l1 ++ l2) = Some i.
Proof.
  revert i. induction l1 as [|x l1 IH]; intros i H; cbn in *; [discriminate|].
  destruct (p x); [exact H|]. destruct (find_idx p l1) as [j|]; [|discriminate].
  injection H as <-. now rewrite (IH j eq_refl).
Qed.

Lemma find_idx_ext {A} (p : A -> bool) l1 l2 : map p l1 = map p l2 -> find_idx p l1 = find_idx p l2.
Proof.
  revert l2. induction l1 as [|x l1 IH]; destruct l2 as [|y l2]; intro H; try discriminate; [reflexivity|].
  cbn in *. injection H as H1 H2. rewrite H1, (IH l2 H2). reflexivity.
Qed.

Section Map.
Context {K V : Type} (eqb : K -> K -> bool).

Lemma set_nth_map_fst (l : list (K * V)) n k v v' : nth_error l n = Some (k, v) ->
  map fst (set_nth n (k, v') l) = map fst l.
Proof.
  revert n. induction l as [|x l IH]; intros [|n] H; cbn in *; try discriminate.
  - injection H as ->. reflexivity.
  - now rewrite (IH n H).
Qed.

Lemma m_items_prefix (m : cmap K V) l : m_items m = Some l -> exists t, m_storage m = l ++ t /\ len l = m_size m.
Proof.
  unfold m_items. destruct (N.leb_spec (m_size m) (len (m_storage m))) as [H|]; [|discriminate].
  intro E. injection E as <-. exists (skipn (N.to_nat (m_size m)) (m_storage m)).
  rewrite firstn_skipn. split; [reflexivity|]. unfold len in *. rewrite firstn_length. lia.
Qed.

Lemma m_find_items (m : cmap K V) k r : m_find eqb m k = Some r ->
  exists l, m_items m = Some l /\ r = find_idx (fun e => eqb (fst e) k) l.
Proof. unfold m_find. destruct (m_items m) as [l|]; [|discriminate]. intro H. injection H as <-. eauto. Qed.

Lemma firstn_set_nth {A} n m (x : A) l : firstn n (set_nth m x l) = set_nth m x (firstn n l).
Proof.
  revert n m. induction l as [|y l IH]; intros n m; [destruct m; cbn [set_nth]; now rewrite !firstn_nil|].
  destruct n as [|n]; [destruct m; reflexivity|]. destruct m as [|m]; [reflexivity|].
  cbn [set_nth firstn]. now rewrite IH.
Qed.

(** Assigning a mapped value changes no key and no size. *)
Lemma m_set_at_keys (m m' : cmap K V) i v : m_set_at m i v = Some m' ->
  m_size m' = m_size m /\ map fst (m_storage m') = map fst (m_storage m) /\ len (m_storage m') = len (m_storage m).
Proof.
  unfold m_set_at. destruct (rd (m_storage m) (N.of_nat i)) as [[k u]|] eqn:E; [|discriminate].
  destruct (wr (m_storage m) (N.of_nat i) (k, v)) as [st|] eqn:W; [|discriminate].
  intro H. injection H as <-. cbn [m_size m_storage]. split; [reflexivity|].
  pose proof (wr_len _ _ _ _ W) as Hl. unfold wr in W.
  destruct (_ <? _); [|discriminate]. injection W as <-. rewrite Nat2N.id in *. split; [|exact Hl].
  apply (set_nth_map_fst _ _ k u). now rewrite rd_nth_error, Nat2N.id in E.
Qed.

Lemma keys_find (m m' : cmap K V) k : m_size m' = m_size m ->
  map fst (m_storage m') = map fst (m_storage m) -> len (m_storage m') = len (m_storage m) ->
  m_find eqb m' k = m_find eqb m k.
Proof.
  intros H1 H2 H3. unfold m_find, m_items. rewrite H1, H3.
  destruct (m_size m <=? len (m_storage m)); [|reflexivity]. cbn [option_map]. f_equal.
  apply find_idx_ext.
  rewrite <- (map_map fst (fun x => eqb x k)). rewrite <- (map_map fst (fun x => eqb x k) (firstn _ (m_storage m))).
  now rewrite <- !firstn_map, H2.
Qed.

Lemma m_step_ref cap (m m' : cmap K V) op o ps k r : len (m_storage m) < size_mod ->
  m_keeps op -> m_step eqb cap m op = Done m' o ps -> m_ref eqb m k = Some r ->
  m_ref eqb m' k = Some r /\ len (m_storage m') = len (m_storage m).
Proof.
  intros Hc Hk Hs Hr. destruct op; cbn [m_keeps] in Hk; try contradiction; cbn [m_step] in Hs.
  - (* put *) destruct (m_put eqb m k0 v) as [[m1 b]|] eqn:E; [|discriminate]. injection Hs as <- _ _.
    unfold m_put in E. destruct (m_find eqb m k0) as [[i|]|] eqn:Ef; [| |discriminate].
    + destruct (m_set_at m i v) as [m2|] eqn:Es; [|discriminate]. injection E as -> _.
      destruct (m_set_at_keys _ _ _ _ Es) as (H1 & H2 & H3). split; [|exact H3].
      unfold m_ref in *. now rewrite (keys_find m m1 k H1 H2 H3).
    + destruct (wr (m_storage m) (m_size m) (k0, v)) as [st|] eqn:W; [|discriminate]. injection E as <- _.
      pose proof (wr_len _ _ _ _ W) as Hl. pose proof (wr_Some_lt _ _ _ _ W) as Hlt. cbn [m_storage]. split; [|exact Hl].
      unfold m_ref in *. destruct (m_find eqb m k) as [[i|]|] eqn:Ek; try discriminate. injection Hr as <-.
      destruct (m_find_items _ _ _ Ek) as (l & Hl0 & Hi). destruct (m_items_prefix _ _ Hl0) as (t & Ht & Hsz).
      assert (Hi' : m_find eqb {| m_storage := st; m_size := sz_inc (m_size m) |} k = Some (Some i)).
      { unfold m_find, m_items. cbn [m_size m_storage]. rewrite sz_inc_small by lia. rewrite Hl.
        destruct (N.leb_spec (m_size m + 1) (len (m_storage m))); [|lia]. cbn [option_map].
        destruct t as [|y t]; [rewrite Ht, app_nil_r in Hlt; lia|].
        rewrite <- Hsz, Ht, wr_app_len in W. injection W as <-.
        replace (N.to_nat (m_size m + 1)) with (length (l ++ [(k0, v)])) by (rewrite app_length; cbn; unfold len in Hsz; lia).
        replace (l ++ (k0, v) :: t) with ((l ++ [(k0, v)]) ++ t) by now rewrite <- app_assoc.
        rewrite firstn_app_len. f_equal. apply find_idx_app. now symmetry. }
      now rewrite Hi'.
  - destruct (m_get eqb m k0); [|discriminate]. injection Hs as <- _ _. split; [exact Hr | reflexivity].
  - unfold m_get_assign in Hs. destruct (m_find eqb m k0) as [[i|]|]; [| discriminate | discriminate].
    destruct (m_set_at m i v) as [m1|] eqn:Es; [|discriminate]. injection Hs as <- _ _.
    destruct (m_set_at_keys _ _ _ _ Es) as (H1 & H2 & H3). split; [|exact H3].
    unfold m_ref in *. now rewrite (keys_find m m1 k H1 H2 H3).
  - destruct (m_contains eqb m k0); [|discriminate]. injection Hs as <- _ _. split; [exact Hr | reflexivity].
  - injection Hs as <- _ _. split; [exact Hr | reflexivity].
  - injection Hs as <- _ _. split; [exact Hr | reflexivity].
  - injection Hs as <- _ _. split; [exact Hr | reflexivity].
  - destruct (m_items m); [|discriminate]. injection Hs as <- _ _. split; [exact Hr | reflexivity].
Qed.

Lemma map_refs cap ops : forall (m m' : cmap K V) outs ps k r, len (m_storage m) < size_mod ->
  Forall m_keeps ops -> run (m_step eqb cap) m ops = Done m' outs ps -> m_ref eqb m k = Some r ->
  m_ref eqb m' k = Some r.
Proof.
  induction ops as [|op ops IH]; intros m m' outs ps k r Hc Hk Hr Href; cbn [run] in Hr.
  - injection Hr as <- _ _. exact Href.
  - inversion Hk as [|? ? H1 H2]; subst.
    destruct (m_step eqb cap m op) as [m1 o ps1|?|] eqn:E; try discriminate.
    destruct (run (m_step eqb cap) m1 ops) as [m2 os ps2|?|] eqn:E2; try discriminate.
    injection Hr as <- _ _.
    destruct (m_step_ref cap m m1 op o ps1 k r Hc H1 E Href) as [Hr1 Hl1].
    eapply IH; [rewrite Hl1; exact Hc | exact H2 | exact E2 | exact Hr1].
Qed.

(** Reading and assigning through get's reference is reading and assigning the key. *)
Lemma map_ref_use (m : cmap K V) k r v : m_ref eqb m k = Some r ->
  m_read m r = m_get eqb m k /\ m_assign m r v = m_get_assign eqb m k v.
Proof.
  unfold m_ref, m_read, m_get, m_assign, m_get_assign.
  destruct (m_find eqb m k) as [[i|]|]; try discriminate. intro H. injection H as <-.
  now rewrite Nat2N.id.
Qed.

Lemma find_idx_nth {A} (p : A -> bool) l i : find_idx p l = Some i -> exists x, nth_error l i = Some x /\ p x = true.
Proof.
  revert i. induction l as [|x l IH]; intros i H; cbn in *; [discriminate|].
  destruct (p x) eqn:E; [injection H as <-; cbn; eauto|].
  destruct (find_idx p l) as [j|]; [|discriminate]. injection H as <-. cbn. now apply IH.
Qed.

Hypothesis Heq : forall x y, eqb x y = true <-> x = y.

Lemma find_idx_unique {B} (l : list (K * B)) i k x :
  NoDup (map fst l) -> nth_error l i = Some (k, x) -> find_idx (fun e => eqb (fst e) k) l = Some i.
Proof.
  revert i. induction l as [|[k0 y] l IH]; intros [|i] Hn H; cbn in *; try discriminate.
  - injection H as -> ->. now rewrite (proj2 (Heq k k) eq_refl).
  - inversion Hn as [|? ? Hnot Hn']; subst. destruct (eqb k0 k) eqn:E.
    + apply Heq in E. subst k0. exfalso. apply Hnot. apply nth_error_In in H.
      change k with (fst (k, x)). now apply in_map.
    + now rewrite (IH i Hn' H).
Qed.

Lemma snoc_cases' {A} (l : list A) n : length l = S n -> exists r x, l = r ++ [x] /\ length r = n.
Proof.
  intro H. destruct (rev_cases l) as [->|(r & x & ->)]; [discriminate|].
  exists r, x. rewrite app_length in H. cbn in H. split; [reflexivity | lia].
Qed.

(** Erasing another key: only the last entry moves. *)
Lemma map_erase_refs (m : cmap K V) l k k' r r' :
  len (m_storage m) < size_mod -> m_items m = Some l -> NoDup (map fst l) -> k <> k' ->
  m_ref eqb m k = Some r -> m_ref eqb m k' = Some r' ->
  exists m', m_erase eqb m k' = Some (m', 1) /\ m_size m' = m_size m - 1 /\
    m_ref eqb m' k = Some (if r =? m_size m - 1 then r' else r) /\ r' <> r /\
    (r = m_size m - 1 -> ~ r < m_size m').
Proof.
  intros Hc Hl Hn Hne Hr Hr'. destruct (m_items_prefix _ _ Hl) as (t & Ht & Hsz).
  unfold m_ref, m_find in Hr, Hr'. rewrite Hl in Hr, Hr'. cbn [option_map] in Hr, Hr'.
  destruct (find_idx (fun e => eqb (fst e) k) l) as [i|] eqn:Ei; [|discriminate]. injection Hr as <-.
  destruct (find_idx (fun e => eqb (fst e) k') l) as [i'|] eqn:Ei'; [|discriminate]. injection Hr' as <-.
  destruct (find_idx_nth _ _ _ Ei) as ([k1 v] & Hi & Hk1). cbn in Hk1. apply Heq in Hk1. subst k1.
  destruct (find_idx_nth _ _ _ Ei') as ([k1 v'] & Hi' & Hk1). cbn in Hk1. apply Heq in Hk1. subst k1.
  assert (Hii : i' <> i) by (intros ->; congruence).
  assert (Hlt : (i < length l)%nat) by (apply nth_error_Some; congruence).
  assert (Hlt' : (i' < length l)%nat) by (apply nth_error_Some; congruence).
  destruct (length l) as [|n] eqn:Hlen; [lia|].
  destruct (snoc_cases' l n Hlen) as (l0 & e & -> & Hl0).
  assert (Hsm : m_size m = N.of_nat n + 1) by (rewrite <- Hsz; unfold len; lia).
  assert (Hst : len (m_storage m) = m_size m + len t) by (rewrite Ht, len_app; lia).
  assert (HE : exists m', m_erase eqb m k' = Some (m', 1) /\ m_size m' = N.of_nat n /\
     m_storage m' = set_nth i' e (m_storage m)).
  { unfold m_erase, m_find. rewrite Hl. cbn [option_map]. rewrite Ei', Hsm, sz_dec_pos by lia.
    replace (N.of_nat n + 1 - 1) with (len l0) by (unfold len; lia).
    rewrite Ht. replace ((l0 ++ [e]) ++ t) with (l0 ++ e :: t) by now rewrite <- app_assoc.
    rewrite rd_len. unfold wr. destruct (N.ltb_spec (N.of_nat i') (len (l0 ++ e :: t))) as [|Hge].
    2: { rewrite len_app, len_cons in Hge. unfold len in Hge. lia. }
    cbn [option_map]. rewrite Nat2N.id. eexists. split; [reflexivity|]. cbn [m_size m_storage].
    split; [unfold len; lia | reflexivity]. }
  destruct HE as (m' & Hme & Hms & Hmst). exists m'. split; [exact Hme|].
  split; [lia|]. split; [|split; [lia | intros Hlast; lia]].
  assert (Hitems : m_items m' = Some (set_nth i' e l0)).
  { unfold m_items. rewrite Hms, Hmst. unfold len. rewrite set_nth_length. fold (len (m_storage m)).
    destruct (N.leb_spec (N.of_nat n) (len (m_storage m))); [|lia].
    f_equal. rewrite firstn_set_nth, Nat2N.id, Ht. rewrite <- app_assoc. rewrite <- Hl0, firstn_app_len. reflexivity. }
  unfold m_ref, m_find. rewrite Hitems. cbn [option_map].
  (* keys of the new entries *)
  assert (Hn0 : NoDup (map fst l0) /\ ~ In (fst e) (map fst l0)).
  { rewrite map_app in Hn. cbn [map] in Hn. apply NoDup_remove in Hn. now rewrite app_nil_r in Hn. }
  destruct Hn0 as [Hn0 Hnot].
  assert (Hn' : NoDup (map fst (set_nth i' e l0))).
  { clear - Hn0 Hnot. revert i'. induction l0 as [|x l0 IH]; intros [|i']; cbn in *; auto.
    - inversion Hn0; subst. constructor; [tauto | assumption].
    - inversion Hn0 as [|? ? Hx Hn1]; subst. constructor.
      + intro Hin. apply in_map_iff in Hin as (y & Hy & Hin).
        assert (Hy2 : y = e \/ In y l0).
        { clear - Hin. revert i' Hin. induction l0 as [|z l0 IH]; intros [|i'] Hin; cbn in *; try tauto.
          - destruct Hin as [<-|H]; [now left | right; now right].
          - destruct Hin as [<-|H]; [right; now left|]. destruct (IH i' H); tauto. }
        destruct Hy2 as [-> | Hy2]; [apply Hnot; left; congruence|]. apply Hx. rewrite <- Hy. now apply in_map.
      + apply IH; [assumption | tauto]. }
  destruct (N.eqb_spec (N.of_nat i) (m_size m - 1)) as [Hlast | Hnl].
  - (* k was last: it is now in the slot of k' *)
    assert (i = n) by lia. subst i.
    rewrite nth_error_app2 in Hi by lia. rewrite Hl0, Nat.sub_diag in Hi. injection Hi as ->.
    rewrite (find_idx_unique (set_nth i' (k, v) l0) i' k v Hn'); [reflexivity|].
    rewrite nth_error_set_nth by lia. now rewrite Nat.eqb_refl.
  - assert (i < n)%nat by lia. rewrite nth_error_app1 in Hi by lia.
    rewrite (find_idx_unique (set_nth i' e l0) i k v Hn'); [reflexivity|].
    destruct (Nat.lt_ge_cases i' (length l0)).
    + rewrite nth_error_set_nth by lia. destruct (Nat.eqb_spec i i'); [congruence | exact Hi].
    + assert (Hid : set_nth i' e l0 = l0).
      { clear - H0. revert i' H0. induction l0 as [|x l0 IH]; intros [|i'] H; cbn in *; try reflexivity; [lia|].
        now rewrite IH by lia. }
      now rewrite Hid.
Qed.
End Map.

Section Set_.
Context {K : Type} (eqb : K -> K -> bool).

Lemma s_items_prefix (s : cset K) l : s_items s = Some l -> exists t, s_storage s = l ++ t /\ len l = s_size s.
Proof.
  unfold s_items. destruct (N.leb_spec (s_size s) (len (s_storage s))) as [H|]; [|discriminate].
  intro E. injection E as <-. exists (skipn (N.to_nat (s_size s)) (s_storage s)).
  rewrite firstn_skipn. split; [reflexivity|]. unfold len in *. rewrite firstn_length. lia.
Qed.

Lemma s_insert_ref (s s' : cset K) k b x r : len (s_storage s) < size_mod ->
  s_insert eqb s k = Some (s', b) -> s_ref eqb s x = Some r ->
  s_ref eqb s' x = Some r /\ len (s_storage s') = len (s_storage s).
Proof.
  intros Hc Hi Hr. unfold s_insert in Hi. destruct (s_contains eqb s k) as [[|]|]; [| |discriminate].
  - injection Hi as <- _. split; [exact Hr | reflexivity].
  - destruct (wr (s_storage s) (s_size s) k) as [st|] eqn:W; [|discriminate]. injection Hi as <- _.
    pose proof (wr_len _ _ _ _ W) as Hl. pose proof (wr_Some_lt _ _ _ _ W) as Hlt. cbn [s_storage]. split; [|exact Hl].
    unfold s_ref in *. destruct (s_items s) as [l|] eqn:E; [|discriminate].
    destruct (s_items_prefix _ _ E) as (t & Ht & Hsz).
    assert (Hi : s_items {| s_storage := st; s_size := sz_inc (s_size s) |} = Some (l ++ [k])).
    { unfold s_items. cbn [s_size s_storage]. rewrite sz_inc_small by lia. rewrite Hl.
      destruct (N.leb_spec (s_size s + 1) (len (s_storage s))); [|lia].
      destruct t as [|y t]; [rewrite Ht, app_nil_r in Hlt; lia|].
      rewrite <- Hsz, Ht, wr_app_len in W. injection W as <-.
      replace (N.to_nat (s_size s + 1)) with (length (l ++ [k])) by (rewrite app_length; cbn; unfold len in Hsz; lia).
      replace (l ++ k :: t) with ((l ++ [k]) ++ t) by now rewrite <- app_assoc.
      now rewrite firstn_app_len. }
    rewrite Hi. destruct (find_idx (fun y => eqb y x) l) as [j|] eqn:Ej; [|discriminate].
    now rewrite (find_idx_app _ _ [k] _ Ej).
Qed.

Lemma s_merge_ref l : forall (s s' : cset K) x r, len (s_storage s) < size_mod ->
  s_merge eqb s l = Some s' -> s_ref eqb s x = Some r ->
  s_ref eqb s' x = Some r /\ len (s_storage s') = len (s_storage s).
Proof.
  induction l as [|k l IH]; intros s s' x r Hc Hm Hr; cbn in Hm.
  - injection Hm as <-. split; [exact Hr | reflexivity].
  - destruct (s_insert eqb s k) as [[s1 b]|] eqn:E; [|discriminate].
    destruct (s_insert_ref s s1 k b x r Hc E Hr) as [Hr1 Hl1].
    destruct (IH s1 s' x r ltac:(rewrite Hl1; exact Hc) Hm Hr1) as [Hr2 Hl2].
    split; [exact Hr2 | congruence].
Qed.

Lemma set_refs ops : forall (s s' : cset K) outs ps x r, len (s_storage s) < size_mod ->
  Forall s_keeps ops -> run (s_step eqb) s ops = Done s' outs ps -> s_ref eqb s x = Some r ->
  s_ref eqb s' x = Some r.
Proof.
  induction ops as [|op ops IH]; intros s s' outs ps x r Hc Hk Hr Href; cbn [run] in Hr.
  - injection Hr as <- _ _. exact Href.
  - inversion Hk as [|? ? H1 H2]; subst.
    destruct (s_step eqb s op) as [s1 o ps1|?|] eqn:E; try discriminate.
    destruct (run (s_step eqb) s1 ops) as [s2 os ps2|?|] eqn:E2; try discriminate.
    injection Hr as <- _ _.
    assert (HS : s_ref eqb s1 x = Some r /\ len (s_storage s1) = len (s_storage s)).
    { destruct op; cbn [s_keeps] in H1; try contradiction; cbn [s_step] in E.
      - destruct (s_insert eqb s k) as [[s3 b]|] eqn:Ei; [|discriminate]. injection E as <- _ _.
        now apply (s_insert_ref s s3 k b).
      - destruct (s_merge eqb s l) as [s3|] eqn:Ei; [|discriminate]. injection E as <- _ _.
        now apply (s_merge_ref l).
      - destruct (s_contains eqb s k); [|discriminate]. injection E as <- _ _. now split.
      - injection E as <- _ _. now split.
      - injection E as <- _ _. now split.
      - destruct (s_items s); [|discriminate]. injection E as <- _ _. now split. }
    destruct HS as [HS1 HS2]. eapply IH; [rewrite HS2; exact Hc | exact H2 | exact E2 | exact HS1].
Qed.
End Set_.
