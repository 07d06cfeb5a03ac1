(** C87 What containers keep alive. *)
From Verif Require Import Base BaseLemmas CxVectorModel CxVectorProofs CxQueueModel CxSetModel CxMapModel RetainSpec RetainProofs.
Open Scope N_scope.

(** Whatever holds of the initial value of a slot and of every value given to the container
    holds of everything in it and of everything it hands out: nothing else ever gets in.  There
    are always as many objects as the capacity says. *)
Theorem C87_vector : forall A (P : A -> Prop) cap d ts v ops v' rs ps,
  v_make cap d ts = Some v -> P d -> Forall P ts -> Forall (fun o => Forall P (v_given o)) ops ->
  run (v_step cap) v ops = Done v' rs ps ->
  Forall P (v_storage v') /\ len (v_storage v') = cap /\ Forall (fun r => Forall P (v_got r)) rs.
Proof.
  intros A P cap d ts v ops v' rs ps M Hd Ht Ho R.
  destruct (run_keeps (v_step cap) (fun v => Forall P (v_storage v) /\ length (v_storage v) = N.to_nat cap) (fun o => Forall P (v_given o)) (fun r => Forall P (v_got r))
    (fun s o s' r ps E I G => v_keeps P cap _ s o s' r ps E I G) ops v v' rs ps R) as [[H L] O]; [|exact Ho|].
  - revert M. unfold v_make. destruct (N.leb_spec (len ts) cap) as [Hl|]; [|discriminate]. intros M. injection M as <-. cbn. unfold len in *. split.
    + apply Forall_app. split; [exact Ht|]. apply Forall_forall. intros y Hy. apply repeat_spec in Hy. subst. exact Hd.
    + rewrite app_length, repeat_length. lia.
  - split; [exact H|]. split; [unfold len; lia|exact O].
Qed.
Print Assumptions C87_vector.
Theorem C87_queue : forall A (mv : A -> A) (P : A -> Prop) pol h cap d ops q rs ps,
  (forall x, P x -> P (mv x)) -> P d -> Forall (fun o => Forall P (q_given o)) ops ->
  run (q_step mv pol h cap) (q_init cap d) ops = Done q rs ps ->
  Forall P (q_storage q) /\ len (q_storage q) = cap /\ Forall (fun r => Forall P (q_got r)) rs.
Proof.
  intros A mv P pol h cap d ops q rs ps Hm Hd Ho R.
  destruct (run_keeps (q_step mv pol h cap) (fun q => Forall P (q_storage q) /\ length (q_storage q) = N.to_nat cap) (fun o => Forall P (q_given o)) (fun r => Forall P (q_got r))
    (fun s o s' r ps E I G => q_keeps mv P Hm pol h cap _ s o s' r ps E I G) ops _ q rs ps R) as [[H L] O]; [|exact Ho|].
  - cbn. split; [|apply repeat_length]. apply Forall_forall. intros y Hy. apply repeat_spec in Hy. subst. exact Hd.
  - split; [exact H|]. split; [unfold len; lia|exact O].
Qed.
Print Assumptions C87_queue.
Theorem C87_set : forall K (eqb : K -> K -> bool) (P : K -> Prop) cap d ts s ops s' rs ps,
  s_make cap d ts = Some s -> P d -> Forall P ts -> Forall (fun o => Forall P (s_given o)) ops ->
  run (s_step eqb) s ops = Done s' rs ps ->
  Forall P (s_storage s') /\ len (s_storage s') = cap /\ Forall (fun r => Forall P (s_got r)) rs.
Proof.
  intros K eqb P cap d ts s ops s' rs ps M Hd Ht Ho R.
  destruct (run_keeps (s_step eqb) (sinv P (N.to_nat cap)) (fun o => Forall P (s_given o)) (fun r => Forall P (s_got r))
    (fun s o s' r ps E I G => s_keeps eqb P _ s o s' r ps E I G) ops s s' rs ps R) as [[H L] O]; [|exact Ho|].
  - revert M. unfold s_make. destruct (N.leb_spec (len ts) cap) as [Hl|]; [|discriminate]. intros M. injection M as <-. unfold sinv. cbn. unfold len in *. split.
    + apply Forall_app. split; [exact Ht|]. apply Forall_forall. intros y Hy. apply repeat_spec in Hy. subst. exact Hd.
    + rewrite app_length, repeat_length. lia.
  - split; [exact H|]. split; [unfold len; lia|exact O].
Qed.
Print Assumptions C87_set.
Theorem C87_map : forall K V (eqb : K -> K -> bool) (P : K -> Prop) (Q : V -> Prop) cap d es m ops m' rs ps,
  m_make cap d es = Some m -> P (fst d) -> Q (snd d) -> Forall (fun e => P (fst e) /\ Q (snd e)) es ->
  Forall (fun o => Forall P (m_keys o) /\ Forall Q (m_given o)) ops ->
  run (m_step eqb cap) m ops = Done m' rs ps ->
  Forall (fun e => P (fst e) /\ Q (snd e)) (m_storage m') /\ len (m_storage m') = cap /\ Forall (fun r => Forall Q (m_got r)) rs.
Proof.
  intros K V eqb P Q cap d es m ops m' rs ps M Hd Hd' Ht Ho R.
  destruct (run_keeps (m_step eqb cap) (minv P Q (N.to_nat cap)) (fun o => Forall P (m_keys o) /\ Forall Q (m_given o)) (fun r => Forall Q (m_got r))
    (fun s o s' r ps E I G => m_keeps eqb P Q _ cap s o s' r ps E I G) ops m m' rs ps R) as [[H L] O]; [|exact Ho|].
  - revert M. unfold m_make. destruct (N.leb_spec (len es) cap) as [Hl|]; [|discriminate]. intros M. injection M as <-. unfold minv, entry. cbn. unfold len in *. split.
    + apply Forall_app. split; [exact Ht|]. apply Forall_forall. intros y Hy. apply repeat_spec in Hy. subst. split; assumption.
    + rewrite app_length, repeat_length. lia.
  - split; [exact H|]. split; [unfold len; lia|exact O].
Qed.
Print Assumptions C87_map.
Example C87_example : exists v v', v_make 3 0 [7] = Some v /\
  run (v_step 3) v [VPush 4; VPop; VPush 5; VSet 0 6; VItems] = Done v' [VVal 4; VVal 4; VVal 5; VUnit; VList [6; 5]] [] /\ v_storage v' = [6; 5; 0].
Proof. eexists _, _. repeat split; reflexivity. Qed.

(** cx_queue::pop lets go of what it hands out, if moving from it does. *)
Theorem C87_queue_pop : forall A (mv : A -> A) (dec : forall x y : A, {x = y} + {x <> y}) pol h cap q q' x,
  q_step mv pol h cap q Pop = Done q' (OVal x) [] -> mv x <> x ->
  (count_occ dec (q_storage q') x + 1 = count_occ dec (q_storage q) x)%nat.
Proof.
  intros A mv dec pol h cap q q' x E N. cbn [q_step] in E. unfold after_check in E.
  assert (B : pop_body mv cap q = Some (q', x)).
  { destruct (check_pop pol (q_size q)), h; try discriminate; destruct (pop_body mv cap q) as [[q1 y]|]; try discriminate; cbn in E; injection E as -> ->; reflexivity. }
  revert B. unfold pop_body, rd, wr. destruct (q_pop q <? len (q_storage q)); [|discriminate].
  destruct (nth_error (q_storage q) (N.to_nat (q_pop q))) as [e|] eqn:R; [|discriminate]. intros B. injection B as <- <-. cbn. exact (count_set_nth dec _ _ _ _ R N).
Qed.
Print Assumptions C87_queue_pop.
Example C87_queue_pop_example : exists q q' rs,
  run (q_step (fun _ => 0) Safe DoesNotReturn 2) (q_init 2 0) [Push 5; Push 6] = Done q rs [] /\
  q_step (fun _ => 0) Safe DoesNotReturn 2 q Pop = Done q' (OVal 5) [] /\ q_storage q' = [0; 6].
Proof. eexists _, _, _. repeat split; reflexivity. Qed.

(** Nothing else does: what clear, pop_back and erase remove stays in the slots. *)
Theorem C87_vector_refuted : forall A cap (v : vector A),
  (forall l, v_step cap v VItems = Done v (VList l) [] -> exists v', v_step cap v VClear = Done v' VUnit [] /\
     v_step cap v' VItems = Done v' (VList []) [] /\ exists t, unused (v_size v') (v_storage v') = l ++ t) /\
  (forall v' x, v_step cap v VPop = Done v' (VVal x) [] -> exists t, unused (v_size v') (v_storage v') = x :: t).
Proof.
  intros A cap v. split.
  - intros l E. eexists. split; [reflexivity|]. cbn. unfold v_items. cbn.
    destruct (N.leb_spec 0 (len (v_storage v))); [|lia]. split; [reflexivity|]. exists (skipn (N.to_nat (v_size v)) (v_storage v)).
    cbn in E. unfold v_items in E. destruct (_ <=? _); [|discriminate]. injection E as <-. rewrite firstn_skipn. reflexivity.
  - intros v' x E. cbn in E. unfold rd in E. destruct (sz_dec (v_size v) <? len (v_storage v)); [|discriminate].
    destruct (nth_error _ _) as [y|] eqn:R; [|discriminate]. injection E as <- ->. cbn. unfold unused.
    apply nth_error_split in R as (l1 & l2 & -> & <-). exists l2. rewrite skipn_app, skipn_all, Nat.sub_diag. reflexivity.
Qed.
Print Assumptions C87_vector_refuted.
Theorem C87_queue_clear_refuted : forall A (mv : A -> A) pol h cap q, exists q',
  q_step mv pol h cap q Clear = Done q' OUnit [] /\ q_step mv pol h cap q' Empty = Done q' (OBool true) [] /\ q_storage q' = q_storage q.
Proof. intros. eexists. repeat split. Qed.
Print Assumptions C87_queue_clear_refuted.
(** erase: the last element is now there twice, once among the elements unless it is the one
    erased, and once past them. *)
Theorem C87_set_refuted : forall K (eqb : K -> K -> bool), (forall x y, eqb x y = true <-> x = y) ->
  forall s l y k, len (s_storage s) < size_mod -> s_step eqb s SItems = Done s (SList (l ++ [y])) [] -> In k (l ++ [y]) ->
  (exists s', s_step eqb s (SErase k) = Done s' (SNum 1) [] /\ In y (unused (s_size s') (s_storage s'))) /\
  (exists s' t, s_step eqb s SPop = Done s' (SKey y) [] /\ unused (s_size s') (s_storage s') = y :: t) /\
  (exists s' t, s_step eqb s SClear = Done s' SUnit [] /\ unused (s_size s') (s_storage s') = l ++ y :: t).
Proof.
  intros K eqb Heq s l y k Hc E Hk. cbn in E. unfold s_items in E. destruct (N.leb_spec (s_size s) (len (s_storage s))) as [Hs|]; [|discriminate].
  injection E as E. destruct (unused_last _ _ _ _ Hs E) as (Hn & t & Est).
  assert (D : sz_dec (s_size s) = len l) by (rewrite Hn, sz_dec_pos; lia).
  assert (R : rd (s_storage s) (len l) = Some y).
  { rewrite Est. unfold rd, len. rewrite app_length. cbn [length]. destruct (N.ltb_spec (N.of_nat (length l)) (N.of_nat (length l + S (length t)))); [|lia].
    rewrite Nat2N.id, nth_error_app2, Nat.sub_diag by lia. reflexivity. }
  split; [|split].
  - cbn [s_step]. unfold s_erase, s_items. destruct (N.leb_spec (s_size s) (len (s_storage s))); [|lia]. rewrite E.
    assert (F : exists i, find_idx (fun x => eqb x k) (l ++ [y]) = Some i /\ (i < length l + 1)%nat /\ nth_error (l ++ [y]) i = Some k).
    { clear -Hk Heq. revert Hk. generalize (l ++ [y]) (app_length l [y]). cbn [length]. intros m <-. revert k. induction m as [|x m IH]; intros k Hk; [destruct Hk|]. cbn [find_idx].
      destruct (eqb x k) eqn:X.
      - apply Heq in X. subst. exists 0%nat. cbn. repeat split; lia.
      - destruct Hk as [->|Hk]; [rewrite (proj2 (Heq k k) eq_refl) in X; discriminate|]. destruct (IH k Hk) as (i & -> & H & N). exists (S i). cbn. repeat split; [lia|exact N]. }
    destruct F as (i & -> & Hi & Ni). cbn zeta. rewrite D, R. unfold wr. rewrite Est. unfold len. rewrite app_length. cbn [length].
    destruct (N.ltb_spec (N.of_nat i) (N.of_nat (length l + S (length t)))); [|lia]. cbn. eexists. split; [reflexivity|]. cbn. unfold unused. rewrite !Nat2N.id.
    destruct (Nat.eq_dec i (length l)) as [->|Ne].
    + rewrite set_nth_same, skipn_app, skipn_all, Nat.sub_diag. left. reflexivity.
    + apply set_nth_rest. lia.
  - cbn [s_step]. unfold s_pop_back. rewrite D, R. cbn. eexists _, t. split; [reflexivity|]. cbn. unfold unused. rewrite Est. apply skipn_len_app.
  - eexists _, t. split; [reflexivity|]. cbn. unfold unused. cbn. exact Est.
Qed.
Print Assumptions C87_set_refuted.
Example C87_set_example : exists s s' s'', s_make 4 0 [1; 2; 3] = Some s /\
  s_step N.eqb s (SErase 1) = Done s' (SNum 1) [] /\ s_storage s' = [3; 2; 3; 0] /\ s_step N.eqb s SItems = Done s'' (SList [1; 2; 3]) [].
Proof. eexists _, _, _. repeat split; reflexivity. Qed.
(** cx_map in the same way: clear, pop_back, and erase of the last entry. *)
Theorem C87_map_refuted : forall K V (eqb : K -> K -> bool) cap (m : cmap K V),
  (forall l, m_step eqb cap m MItems = Done m (MList l) [] -> exists m' t, m_step eqb cap m MClear = Done m' MUnit [] /\
     unused (m_size m') (m_storage m') = l ++ t) /\
  (forall m' e, m_step eqb cap m MPop = Done m' (MEntry e) [] -> exists t, unused (m_size m') (m_storage m') = e :: t).
Proof.
  intros K V eqb cap m. split.
  - intros l E. cbn in E. unfold m_items in E. destruct (_ <=? _); [|discriminate]. injection E as <-.
    eexists _, (skipn (N.to_nat (m_size m)) (m_storage m)). split; [reflexivity|]. cbn. rewrite firstn_skipn. reflexivity.
  - intros m' x E. cbn in E. unfold m_pop_back, rd in E. destruct (sz_dec (m_size m) <? len (m_storage m)); [|discriminate].
    destruct (nth_error _ _) as [y|] eqn:R; [|discriminate]. injection E as <- ->. cbn. unfold unused.
    apply nth_error_split in R as (l1 & l2 & -> & <-). exists l2. rewrite skipn_app, skipn_all, Nat.sub_diag. reflexivity.
Qed.
Print Assumptions C87_map_refuted.
