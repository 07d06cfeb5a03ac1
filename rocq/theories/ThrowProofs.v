(** Proofs about ThrowModel.v. *)
From Coq Require Import Permutation.
From Verif Require Import Base BaseLemmas CxVectorModel CxVectorSpec CxVectorProofs CxQueueModel CxQueueSpec CxQueueProofs CxSetModel CxSetProofs CxMapModel CxMapProofs ThrowModel ThrowSpec.
Open Scope N_scope.

Lemma any_left_with {A} (old : A) j : any_left j (left_with old j).
Proof. intros y ->. reflexivity. Qed.
Lemma bad_wr_app {A} (l t : list A) x j : bad_wr (l ++ x :: t) (len l) j = Some (l ++ left_with x j :: t).
Proof. unfold bad_wr. rewrite rd_len, wr_app_len. reflexivity. Qed.
Lemma last_split {A} (l : list A) : l <> [] -> exists r x, l = r ++ [x].
Proof. destruct (rev_cases l) as [->|H]; [congruence|auto]. Qed.

(** ** cx_vector *)
Lemma vt_step_ok {A} cap (v : vector A) l a : cap < size_mod -> VRep cap v l -> vt_pre cap l a ->
  exists v' o l', either (v_step cap) v_bad v a = Done v' o [] /\ vt_spec cap l a o l' /\ VRep cap v' l'.
Proof.
  intros Hc HR Hp. destruct a as [op|[j|]]; cbn [vt_pre vt_spec either] in *.
  - destruct (vlist_step cap l op) as [[l' o]|] eqn:E; [|congruence].
    destruct (v_step_ok cap v l op l' o Hc HR E) as (v' & E' & HR'). rewrite E'.
    exists v', (Some o), l'. split; [reflexivity|]. split; [exists o; auto|exact HR'].
  - destruct HR as (H1 & H2 & t & Ht). cbn [v_bad]. rewrite H2, Ht.
    destruct t as [|y t]; [rewrite app_nil_r in Ht; rewrite Ht in H1; lia|].
    rewrite bad_wr_app. cbn [option_map]. exists {| v_storage := l ++ left_with y j :: t; v_size := sz_inc (len l) |}, None, (l ++ [left_with y j]).
    split; [reflexivity|]. split; [split; [reflexivity|]; exists (left_with y j); split; [apply any_left_with|reflexivity]|].
    split; [|split]; cbn [v_storage v_size].
    + rewrite <- H1, Ht, !len_app, !len_cons. reflexivity.
    + rewrite sz_inc_small by lia. rewrite len_app, len_cons, len_nil. lia.
    + exists t. rewrite <- app_assoc. reflexivity.
  - destruct (last_split l Hp) as (r & x & ->). destruct HR as (H1 & H2 & t & Ht). cbn [v_bad].
    rewrite H2, len_app, len_cons, len_nil.
    assert (len r < cap) by (rewrite <- H1, Ht, !len_app, len_cons; lia).
    rewrite sz_dec_pos by lia. replace (len r + (0 + 1) - 1) with (len r) by lia.
    rewrite Ht, <- app_assoc. cbn [app]. rewrite rd_len. cbn [option_map].
    eexists _, None, r. split; [reflexivity|]. split; [split; [reflexivity|]; rewrite removelast_last; reflexivity|].
    split; [|split]; cbn [v_storage v_size].
    + rewrite <- H1, Ht, <- app_assoc. reflexivity.
    + reflexivity.
    + exists (x :: t). reflexivity.
Qed.

(** ** cx_queue *)
Section Queue.
Context {A : Type} (mv : A -> A) (cap : N) (Hpos : 0 < cap) (Hcap : cap < size_mod).
Lemma q_bad_push (q : queue A) l j : Rep cap q l -> len l < cap ->
  exists q' x, q_bad cap q (QTPush j) = Some q' /\ any_left j x /\ Rep cap q' (l ++ [x]).
Proof.
  intros HR Hl.
  assert (K : exists old, rd (q_storage q) (slot cap (q_pop q) (len l)) = Some old).
  { apply rd_lt_Some. destruct HR as (H1 & H2 & _). rewrite H1. apply slot_lt; auto. }
  destruct K as (old & K).
  destruct (push_body_ok mv cap Hpos Hcap q l (left_with old j) HR Hl) as (q' & E & HR' & _).
  exists q', (left_with old j). split; [|split; [apply any_left_with|exact HR']].
  unfold push_body in E. cbn [q_bad].
  set (i := if sz_inc (q_push q) =? cap then 0 else sz_inc (q_push q)) in *.
  destruct (wr (q_storage q) i (left_with old j)) as [st|] eqn:W; [|discriminate].
  injection E as <- Ei. unfold bad_wr. rewrite Ei, K. rewrite <- Ei, W. reflexivity.
Qed.
Lemma qt_step_ok pol h (q : queue A) l a : Rep cap q l -> qt_pre cap l a ->
  exists q' o l', either (q_step mv pol h cap) (q_bad cap) q a = Done q' o [] /\ qt_spec cap l a o l' /\ Rep cap q' l'.
Proof.
  intros HR Hp. destruct a as [op|[j|j]]; cbn [qt_pre qt_spec either] in *; [| |contradiction].
  - destruct (fifo_step cap l op) as [[l' o]|] eqn:E; [|congruence].
    destruct (step_ok mv cap Hpos Hcap pol h q l op l' o HR E) as (q' & E' & HR'). rewrite E'.
    exists q', (Some o), l'. split; [reflexivity|]. split; [exists o; auto|exact HR'].
  - destruct (q_bad_push q l j HR Hp) as (q' & x & E & Hx & HR'). rewrite E.
    exists q', None, (l ++ [x]). split; [reflexivity|]. split; [|exact HR']. eauto.
Qed.
(** A pop that throws: past the end of the storage, or one element out of step. *)
Lemma q_bad_pop (q : queue A) x l j pol h : Rep cap q (x :: l) ->
  exists q', q_bad cap q (QTPop j) = Some q' /\ q_size q' = len (x :: l) /\
    (q_pop q + 1 = cap -> q_step mv pol h cap q' Front = Undef /\ q_step mv pol h cap q' Pop = Undef) /\
    (q_pop q + 1 < cap -> forall y r, l = y :: r -> q_step mv pol h cap q' Front = Done q' (OVal y) []).
Proof.
  intros (H1 & H2 & H3 & H4 & H5 & H6). cbn [q_bad].
  assert (K0 : rd (q_storage q) (q_pop q) = Some x).
  { specialize (H6 0 ltac:(rewrite len_cons; lia)). unfold slot in H6.
    rewrite N.add_0_r in H6. destruct (N.ltb_spec (q_pop q) cap); [|lia]. rewrite H6, rd_cons0. reflexivity. }
  destruct (wr_lt_Some (q_storage q) (q_pop q) (left_with x j) ltac:(lia)) as [st W].
  unfold bad_wr. rewrite K0, W. cbn [option_map]. eexists. split; [reflexivity|]. cbn [q_size]. split; [exact H3|].
  pose proof (wr_len _ _ _ _ W) as HL. rewrite sz_inc_small by lia. split.
  - intros E. rewrite E. unfold q_step. cbn [q_size q_storage q_pop].
    assert (R : rd st cap = None) by (apply rd_ge_None; lia).
    rewrite H3, (check_pop_ok mv cap Hpos Hcap) by congruence. unfold after_check, pop_body. cbn [q_storage q_pop]. rewrite R. auto.
  - intros E y r ->. unfold q_step. cbn [q_size q_storage q_pop]. rewrite H3, (check_pop_ok mv cap Hpos Hcap) by congruence. unfold after_check.
    rewrite (rd_wr _ _ _ _ _ W). destruct (N.eqb_spec (q_pop q + 1) (q_pop q)); [lia|].
    specialize (H6 1 ltac:(rewrite !len_cons; lia)). unfold slot in H6.
    destruct (N.ltb_spec (q_pop q + 1) cap); [|lia]. rewrite H6.
    rewrite rd_cons_pos, N.sub_diag, rd_cons0 by lia. reflexivity.
Qed.
End Queue.

(** ** Arrays with a size, as cx_set and cx_map keep their elements *)
Lemma split_first {A} (p : A -> bool) l : find_idx p l <> None ->
  exists l1 x l2, l = l1 ++ x :: l2 /\ find_idx p l = Some (length l1) /\ p x = true /\ (forall y, In y l1 -> p y = false).
Proof.
  destruct (find_idx p l) as [i|] eqn:E; [|congruence]. intros _.
  destruct (find_idx_Some p l i E) as (l1 & x & l2 & H1 & H2 & H3 & H4). exists l1, x, l2. subst i. auto.
Qed.
Lemma drop_last {A} (l t : list A) : l <> [] -> exists y t', removelast l ++ y :: t = l ++ t /\ t' = y :: t.
Proof.
  intros H. destruct (last_split l H) as (r & x & ->). exists x, (x :: t). rewrite removelast_last, <- app_assoc. auto.
Qed.

Section Arr.
Context {K : Type} (cap : N) (Hcap : cap < size_mod).
Notation SRepL := (SRepL cap).
Lemma grow (s : cset K) (l : list K) : SRepL s l -> len l < cap -> exists y t, s_storage s = l ++ y :: t.
Proof.
  intros (H1 & H2 & t & Ht) Hl. destruct t as [|y t]; [rewrite app_nil_r in Ht; rewrite Ht in H1; lia|eauto].
Qed.
Lemma grown (s : cset K) (l : list K) x y t : SRepL s l -> len l < cap -> s_storage s = l ++ y :: t ->
  SRepL {| s_storage := l ++ x :: t; s_size := sz_inc (s_size s) |} (l ++ [x]).
Proof.
  intros (H1 & H2 & _) Hl Ht. split; [|split]; cbn [s_storage s_size].
  - rewrite <- H1, Ht, !len_app, !len_cons. reflexivity.
  - rewrite H2, sz_inc_small by lia. rewrite len_app, len_cons, len_nil. lia.
  - exists t. rewrite <- app_assoc. reflexivity.
Qed.
Lemma shrunk (s : cset K) (l : list K) st t x : SRepL s l -> l <> [] -> st = removelast l ++ x :: t -> s_storage s = l ++ t ->
  SRepL {| s_storage := st; s_size := sz_dec (s_size s) |} (removelast l).
Proof.
  intros HR Hn -> Ht. pose proof (SRepL_le cap Hcap s l HR) as Hle. destruct HR as (H1 & H2 & _). destruct (last_split l Hn) as (r & y & ->).
  rewrite removelast_last. rewrite len_app, len_cons, len_nil in *. split; [|split]; cbn [s_storage s_size].
  - rewrite <- H1, Ht, <- app_assoc, !len_app, !len_cons, len_nil. lia.
  - rewrite H2, sz_dec_pos by lia. lia.
  - exists (x :: t). reflexivity.
Qed.
Lemma pop_rd (s : cset K) (l : list K) : SRepL s l -> l <> [] -> exists r x t, l = r ++ [x] /\ s_storage s = r ++ x :: t /\ sz_dec (s_size s) = len r /\
  rd (s_storage s) (sz_dec (s_size s)) = Some x.
Proof.
  intros HR Hn. pose proof (SRepL_le cap Hcap s l HR) as Hle. destruct HR as (H1 & H2 & t & Ht). destruct (last_split l Hn) as (r & x & ->).
  rewrite len_app, len_cons, len_nil in *. exists r, x, t. split; [reflexivity|]. rewrite <- app_assoc in Ht. cbn [app] in Ht. split; [exact Ht|].
  assert (E : sz_dec (s_size s) = len r) by (rewrite H2, sz_dec_pos by lia; lia). split; [exact E|]. rewrite E, Ht. apply rd_len.
Qed.
(** Erasing at a position: the slot gets [x], the last slot falls out. *)
Lemma erase_at (s : cset K) (l1 : list K) k l2 x : SRepL s (l1 ++ k :: l2) ->
  exists st, wr (s_storage s) (len l1) x = Some st /\
    SRepL {| s_storage := st; s_size := sz_dec (s_size s) |} (removelast (l1 ++ x :: l2)).
Proof.
  intros HR. pose proof HR as (H1 & H2 & t & Ht).
  exists (l1 ++ x :: l2 ++ t). split; [rewrite Ht, <- app_assoc; cbn [app]; apply wr_app_len|].
  assert (HR2 : SRepL {| s_storage := l1 ++ x :: l2 ++ t; s_size := s_size s |} (l1 ++ x :: l2)).
  { split; [|split]; cbn [s_storage s_size].
    - rewrite <- H1, Ht, <- app_assoc. rewrite !len_app. cbn [app]. rewrite !len_cons, !len_app. lia.
    - rewrite H2, !len_app, !len_cons. reflexivity.
    - exists t. rewrite <- app_assoc. reflexivity. }
  assert (N0 : l1 ++ x :: l2 <> []) by (destruct l1; discriminate).
  destruct (last_split _ N0) as (r & y & E).
  refine (shrunk _ _ _ t y HR2 N0 _ _); cbn [s_storage].
  - rewrite E, removelast_last. change (l1 ++ x :: l2 ++ t) with (l1 ++ (x :: l2) ++ t). rewrite app_assoc, E, <- app_assoc. reflexivity.
  - rewrite <- app_assoc. reflexivity.
Qed.
End Arr.
Lemma swap_out {K} (l1 : list K) k l2 y r : l1 ++ k :: l2 = r ++ [y] -> Permutation (k :: removelast (l1 ++ y :: l2)) (l1 ++ k :: l2).
Proof.
  intros E. destruct (rev_cases l2) as [->|(r2 & z & ->)].
  - apply app_inj_tail in E as [-> ->]. rewrite removelast_last. apply Permutation_cons_append.
  - assert (E' : (l1 ++ k :: r2) ++ [z] = r ++ [y]) by (rewrite <- E, <- app_assoc; reflexivity).
    apply app_inj_tail in E' as [_ ->].
    replace (l1 ++ y :: r2 ++ [y]) with ((l1 ++ y :: r2) ++ [y]) by (rewrite <- app_assoc; reflexivity).
    rewrite removelast_last. apply Permutation_trans with (k :: y :: l1 ++ r2).
    + constructor. apply Permutation_sym, Permutation_middle.
    + apply Permutation_trans with (k :: l1 ++ r2 ++ [y]).
      * constructor. rewrite app_assoc. apply Permutation_cons_append.
      * apply Permutation_middle.
Qed.

Section Set_.
Context {K : Type} (eqb : K -> K -> bool) (Heq : forall x y, eqb x y = true <-> x = y) (cap : N) (Hcap : cap < size_mod).
Notation SRepL := (SRepL cap).
Lemma find_cases l k :
  (exists l1 l2, l = l1 ++ k :: l2 /\ ~ In k l1 /\ find_idx (fun x => eqb x k) l = Some (length l1)) \/
  (~ In k l /\ find_idx (fun x => eqb x k) l = None).
Proof.
  destruct (find_idx (fun x => eqb x k) l) as [i|] eqn:E.
  - left. destruct (find_idx_Some _ l i E) as (l1 & x & l2 & H1 & H2 & H3 & H4). apply Heq in H3. subst x i.
    exists l1, l2. split; [exact H1|]. split; [|reflexivity]. intros H. specialize (H4 k H).
    assert (eqb k k = true) by (apply Heq; reflexivity). congruence.
  - right. split; [|reflexivity]. intros H. pose proof (find_idx_None _ l E k H) as H'. cbn in H'.
    assert (eqb k k = true) by (apply Heq; reflexivity). congruence.
Qed.
Lemma contains_bag s l k : SRepL s l -> exists b, s_contains eqb s k = Some b /\ (b = true <-> In k l).
Proof.
  intros HR. unfold s_contains. rewrite (s_items_ok cap Hcap s l HR).
  destruct (find_cases l k) as [(l1 & l2 & El & Hn & Ef)|(Hn & Ef)]; rewrite Ef.
  - exists true. split; [reflexivity|]. split; [|auto]. intros _. rewrite El. apply in_or_app. right. left. reflexivity.
  - exists false. split; [reflexivity|]. split; [discriminate|tauto].
Qed.
Lemma insert_bag (s : cset K) (l : list K) k : SRepL s l -> In k l \/ len l < cap ->
  exists s' b, s_insert eqb s k = Some (s', b) /\
   ((In k l /\ b = false /\ SRepL s' l) \/ (~ In k l /\ len l < cap /\ b = true /\ SRepL s' (l ++ [k]))).
Proof.
  intros HR Hp. unfold s_insert. destruct (contains_bag s l k HR) as (b & E & Hb). rewrite E. destruct b.
  - exists s, false. split; [reflexivity|]. left. split; [apply Hb; reflexivity|auto].
  - assert (Hn : ~ In k l) by (intros H; apply Hb in H; discriminate).
    destruct Hp as [Hp|Hp]; [contradiction|]. destruct (grow cap Hcap s l HR Hp) as (y & t & Ht).
    pose proof (grown cap Hcap s l k y t HR Hp Ht) as G.
    destruct HR as (H1 & H2 & _). rewrite Ht, H2, wr_app_len in *. eexists _, true. split; [reflexivity|]. right. auto.
Qed.
Lemma erase_bag (s : cset K) (l : list K) k : SRepL s l ->
  exists s' n l', s_erase eqb s k = Some (s', n) /\ SRepL s' l' /\
   ((In k l /\ n = 1 /\ Permutation (k :: l') l) \/ (~ In k l /\ n = 0 /\ l' = l)).
Proof.
  intros HR. unfold s_erase. rewrite (s_items_ok cap Hcap s l HR).
  destruct (find_cases l k) as [(l1 & l2 & El & Hn & Ef)|(Hn & Ef)]; rewrite Ef.
  - subst l. destruct (pop_rd cap Hcap s _ HR ltac:(destruct l1; discriminate)) as (r & y & t & E1 & _ & _ & E2). rewrite E2.
    destruct (erase_at cap Hcap s l1 k l2 y HR) as (st & W & HR'). change (N.of_nat (length l1)) with (len l1). rewrite W.
    eexists _, 1, _. split; [reflexivity|]. split; [exact HR'|]. left. split; [apply in_or_app; right; left; reflexivity|].
    split; [reflexivity|]. apply (swap_out l1 k l2 y r E1).
  - exists s, 0, l. split; [reflexivity|]. split; [exact HR|]. right. auto.
Qed.
Lemma merge_bag xs : forall s l l', SRepL s l -> merged cap l xs l' -> exists s', s_merge eqb s xs = Some s' /\ SRepL s' l'.
Proof.
  induction xs as [|x xs IH]; intros s l l' HR M; inversion M; subst; cbn [s_merge]; [eauto| |].
  - destruct (insert_bag s l x HR ltac:(auto)) as (s' & b & E & [(_ & _ & HR')|(N0 & _)]); [|contradiction]. rewrite E. eapply IH; eauto.
  - destruct (insert_bag s l x HR ltac:(auto)) as (s' & b & E & [(I0 & _)|(_ & _ & _ & HR')]); [contradiction|]. rewrite E. eapply IH; eauto.
Qed.
Lemma bag_step_ok s l a : SRepL s l -> bag_pre cap l a ->
  exists s' o l', either (s_step eqb) (s_bad eqb) s a = Done s' o [] /\ bag_spec cap l a o l' /\ SRepL s' l'.
Proof.
  intros HR Hp. pose proof (SRepL_le cap Hcap s l HR) as Hle.
  destruct a as [op|t]; [destruct op as [k|k|xs| | |k| | |]|destruct t as [k j|k j|]]; cbn [bag_pre bag_spec either s_step s_bad] in *.
  - destruct (insert_bag s l k HR Hp) as (s' & b & E & H). rewrite E. cbn [option_map].
    destruct H as [(H1 & -> & H3)|(H1 & H2 & -> & H3)]; eexists _, _, _; (split; [reflexivity|]); (split; [|exact H3]); auto.
  - destruct (erase_bag s l k HR) as (s' & n & l' & E & HR' & H). rewrite E. cbn [option_map].
    eexists _, _, l'. split; [reflexivity|]. split; [|exact HR'].
    destruct H as [(H1 & -> & H3)|(H1 & -> & ->)]; auto.
  - destruct Hp as (l' & M). destruct (merge_bag xs s l l' HR M) as (s' & E & HR'). rewrite E. cbn [option_map].
    eexists _, _, l'. split; [reflexivity|]. auto.
  - destruct (pop_rd cap Hcap s l HR Hp) as (r & x & t & -> & Ht & E1 & E2). unfold s_pop_back. rewrite E2. cbn [option_map].
    eexists _, _, r. split; [reflexivity|]. split; [eauto|].
    assert (Q := shrunk cap Hcap s (r ++ [x]) (s_storage s) t x HR ltac:(destruct r; discriminate)).
    rewrite removelast_last in Q. apply Q; [exact Ht|]. rewrite <- app_assoc. exact Ht.
  - eexists _, _, []. split; [reflexivity|]. split; [auto|]. destruct HR as (H1 & H2 & t & Ht). split; [|split]; cbn [s_clear s_storage s_size]; auto.
    exists (s_storage s). reflexivity.
  - destruct (contains_bag s l k HR) as (b & E & Hb). rewrite E. cbn [option_map]. eexists _, _, l. split; [reflexivity|]. eauto.
  - eexists _, _, l. split; [reflexivity|]. split; [|exact HR]. destruct HR as (_ & H2 & _). rewrite H2. auto.
  - eexists _, _, l. split; [reflexivity|]. split; [|exact HR]. destruct HR as (_ & H2 & _). rewrite H2. split; [reflexivity|].
    eexists. split; [reflexivity|]. destruct l as [|x r]; [split; auto|]. rewrite len_cons. destruct (N.eqb_spec (len r + 1) 0); [lia|]. split; discriminate.
  - rewrite (s_items_ok cap Hcap s l HR). cbn [option_map]. eexists _, _, l. split; [reflexivity|]. auto.
  - destruct Hp as [Hn Hl]. destruct (contains_bag s l k HR) as (b & E & Hb). rewrite E.
    destruct b; [exfalso; apply Hn, Hb; reflexivity|]. destruct (grow cap Hcap s l HR Hl) as (y & t & Ht).
    pose proof (grown cap Hcap s l (left_with y j) y t HR Hl Ht) as G. pose proof HR as (H1 & H2 & _). rewrite Ht, H2, bad_wr_app in *. cbn [option_map].
    eexists _, _, _. split; [reflexivity|]. split; [|exact G]. split; [reflexivity|]. eexists. split; [apply any_left_with|reflexivity].
  - rewrite (s_items_ok cap Hcap s l HR). destruct (find_cases l k) as [(l1 & l2 & El & Hn & Ef)|(Hn & Ef)]; [|contradiction]. rewrite Ef. subst l.
    destruct (pop_rd cap Hcap s _ HR ltac:(destruct l1; discriminate)) as (r & y & t & E1 & _ & _ & E2). rewrite E2.
    destruct (erase_at cap Hcap s l1 k l2 (left_with k j) HR) as (st & W & HR'). change (N.of_nat (length l1)) with (len l1). unfold bad_wr.
    assert (E3 : rd (s_storage s) (len l1) = Some k) by (destruct HR as (_ & _ & t' & ->); rewrite <- app_assoc; apply rd_len).
    rewrite E3, W. cbn [option_map]. eexists _, _, _. split; [reflexivity|]. split; [|exact HR']. split; [reflexivity|]. eauto 6.
  - destruct (pop_rd cap Hcap s l HR Hp) as (r & x & t & -> & Ht & E1 & E2). rewrite E2. cbn [option_map].
    eexists _, _, r. split; [reflexivity|]. split; [rewrite removelast_last; auto|].
    assert (Q := shrunk cap Hcap s (r ++ [x]) (s_storage s) t x HR ltac:(destruct r; discriminate)).
    rewrite removelast_last in Q. apply Q; [exact Ht|]. rewrite <- app_assoc. exact Ht.
Qed.
End Set_.

Section Map.
Context {K V : Type} (eqb : K -> K -> bool) (Heq : forall x y, eqb x y = true <-> x = y) (cap : N) (Hcap : cap < size_mod).
Definition arr (m : cmap K V) : cset (K * V) := {| s_storage := m_storage m; s_size := m_size m |}.
Definition of_arr (s : cset (K * V)) : cmap K V := {| m_storage := s_storage s; m_size := s_size s |}.
Notation MRepL := (MRepL cap).
Lemma find_entry (m : cmap K V) l k : MRepL m l ->
  (exists w l1 l2, first_at k w l1 l2 l /\ m_find eqb m k = Some (Some (length l1)) /\ rd (m_storage m) (N.of_nat (length l1)) = Some (k, w)) \/
  (~ has k l /\ m_find eqb m k = Some None).
Proof.
  intros HR. unfold m_find. rewrite (m_items_ok cap Hcap m l HR). cbn [option_map].
  destruct (find_idx (fun e => eqb (fst e) k) l) as [i|] eqn:E.
  - left. destruct (find_idx_Some _ l i E) as (l1 & [k' w] & l2 & H1 & H2 & H3 & H4). cbn [fst] in H3. apply Heq in H3. subst k' i.
    exists w, l1, l2. split; [|split; [reflexivity|]].
    + split; [exact H1|]. intros H. apply in_map_iff in H as ([k' w'] & Ek & Hi). cbn in Ek. subst k'.
      specialize (H4 _ Hi). cbn [fst] in H4. assert (eqb k k = true) by (apply Heq; reflexivity). congruence.
    + destruct HR as (_ & _ & t & ->). rewrite H1, <- app_assoc. apply rd_len.
  - right. split; [|reflexivity]. intros H. apply in_map_iff in H as ([k' w'] & Ek & Hi). cbn in Ek. subst k'.
    pose proof (find_idx_None _ l E _ Hi) as H'. cbn [fst] in H'. assert (eqb k k = true) by (apply Heq; reflexivity). congruence.
Qed.
Lemma put_at (m : cmap K V) l1 e l2 e' : MRepL m (l1 ++ e :: l2) ->
  exists st, wr (m_storage m) (N.of_nat (length l1)) e' = Some st /\ MRepL {| m_storage := st; m_size := m_size m |} (l1 ++ e' :: l2).
Proof.
  intros (H1 & H2 & t & Ht). exists (l1 ++ e' :: l2 ++ t). split; [rewrite Ht, <- app_assoc; apply wr_app_len|].
  split; [|split]; cbn [m_storage m_size].
  - rewrite <- H1, Ht, <- app_assoc. rewrite !len_app. cbn [app]. rewrite !len_cons, !len_app. lia.
  - rewrite H2, !len_app, !len_cons. reflexivity.
  - exists t. rewrite <- app_assoc. reflexivity.
Qed.
Lemma ent_step_ok (m : cmap K V) (l : list (K * V)) a : MRepL m l -> ent_pre cap l a ->
  exists m' o l', either (m_step eqb cap) (m_bad eqb) m a = Done m' o [] /\ ent_spec cap l a o l' /\ MRepL m' l'.
Proof.
  intros HR Hp. pose proof (HR : SRepL cap (arr m) l) as HA.
  destruct a as [op|t]; [destruct op as [k v|k|k|k v|k| | | | | |]|destruct t as [k j|k v x|k x|]]; cbn [ent_pre ent_spec either m_step m_bad] in *.
  - (* put *) unfold m_put. destruct (find_entry m l k HR) as [(w & l1 & l2 & F & E1 & E2)|(Hn & E1)]; rewrite E1.
    + unfold m_set_at. rewrite E2. destruct F as [-> F2]. destruct (put_at m l1 _ l2 (k, v) HR) as (st & W & HR'). rewrite W. cbn [option_map].
      eexists _, _, _. split; [reflexivity|]. split; [|exact HR']. left. exists w, l1, l2. repeat split; auto.
    + destruct Hp as [Hp|Hp]; [contradiction|]. destruct (grow cap Hcap (arr m) l HA Hp) as (y & t & Ht). cbn [arr s_storage] in Ht.
      pose proof (grown cap Hcap (arr m) l (k, v) y t HA Hp Ht) as G. pose proof HR as (_ & H2 & _).
      rewrite Ht, H2, wr_app_len. cbn [option_map arr s_size] in *. rewrite H2 in G.
      eexists _, _, _. split; [reflexivity|]. split; [|exact G]. right. auto.
  - (* erase *) unfold m_erase. destruct (find_entry m l k HR) as [(w & l1 & l2 & F & E1 & E2)|(Hn & E1)]; rewrite E1.
    + pose proof F as [-> F2]. destruct (pop_rd cap Hcap (arr m) _ HA ltac:(destruct l1; discriminate)) as (r & y & t & P1 & _ & _ & P2).
      cbn [arr s_storage s_size] in P2. rewrite P2.
      destruct (erase_at cap Hcap (arr m) l1 (k, w) l2 y HA) as (st & W & HR'). cbn [arr s_storage s_size] in W. change (len l1) with (N.of_nat (length l1)) in W. rewrite W. cbn [option_map].
      eexists _, _, _. split; [reflexivity|]. split; [|exact HR']. left. exists w, l1, l2. split; [exact F|]. split; [reflexivity|].
      apply (swap_out l1 (k, w) l2 y r P1).
    + eexists _, _, l. split; [reflexivity|]. split; [|exact HR]. auto.
  - (* get *) unfold m_get. destruct (find_entry m l k HR) as [(w & l1 & l2 & F & E1 & E2)|(Hn & E1)]; [|contradiction]. rewrite E1, E2. cbn [option_map].
    eexists _, _, l. split; [reflexivity|]. split; [|exact HR]. split; [reflexivity|]. exists w, l1, l2. auto.
  - unfold m_get_assign. destruct (find_entry m l k HR) as [(w & l1 & l2 & F & E1 & E2)|(Hn & E1)]; [|contradiction]. rewrite E1.
    unfold m_set_at. rewrite E2. pose proof F as [-> F2]. destruct (put_at m l1 _ l2 (k, v) HR) as (st & W & HR'). rewrite W. cbn [option_map].
    eexists _, _, _. split; [reflexivity|]. split; [|exact HR']. exists w, l1, l2. auto.
  - unfold m_contains. destruct (find_entry m l k HR) as [(w & l1 & l2 & F & E1 & E2)|(Hn & E1)]; rewrite E1; cbn [option_map];
    (eexists _, _, l; split; [reflexivity|]; split; [|exact HR]; split; [reflexivity|]; eexists; split; [reflexivity|]).
    + split; [|auto]. intros _. destruct F as [-> _]. unfold has. rewrite map_app. apply in_or_app. right. left. reflexivity.
    + split; [discriminate|contradiction].
  - destruct (pop_rd cap Hcap (arr m) l HA Hp) as (r & x & t & -> & Ht & E1 & E2). cbn [arr s_storage s_size] in *. unfold m_pop_back. rewrite E2. cbn [option_map].
    eexists _, _, r. split; [reflexivity|]. split; [eauto|].
    assert (Q := shrunk cap Hcap (arr m) (r ++ [x]) (m_storage m) t x HA ltac:(destruct r; discriminate)).
    rewrite removelast_last in Q. apply Q; [exact Ht|]. rewrite <- app_assoc. exact Ht.
  - eexists _, _, []. split; [reflexivity|]. split; [auto|]. destruct HR as (H1 & H2 & t & Ht). split; [|split]; cbn [m_clear m_storage m_size]; auto.
    exists (m_storage m). reflexivity.
  - eexists _, _, l. split; [reflexivity|]. split; [|exact HR]. destruct HR as (_ & H2 & _). rewrite H2. auto.
  - eexists _, _, l. split; [reflexivity|]. split; [|exact HR]. destruct HR as (_ & H2 & _). rewrite H2. split; [reflexivity|].
    eexists. split; [reflexivity|]. destruct l as [|x r]; [split; auto|]. rewrite len_cons. destruct (N.eqb_spec (len r + 1) 0); [lia|]. split; discriminate.
  - eexists _, _, l. split; [reflexivity|]. split; [|exact HR]. destruct HR as (_ & H2 & _). rewrite H2. auto.
  - rewrite (m_items_ok cap Hcap m l HR). cbn [option_map]. eexists _, _, l. split; [reflexivity|]. auto.
  - destruct (find_entry m l k HR) as [(w & l1 & l2 & F & E1 & E2)|(Hn & E1)]; [|contradiction]. rewrite E1, E2.
    unfold m_set_at. rewrite E2. cbn [snd]. pose proof F as [-> F2]. destruct (put_at m l1 _ l2 (k, left_with w j) HR) as (st & W & HR'). rewrite W. cbn [option_map].
    eexists _, _, _. split; [reflexivity|]. split; [|exact HR']. split; [reflexivity|]. exists w, l1, l2. auto.
  - destruct Hp as [Hn Hl]. destruct (find_entry m l k HR) as [(w & l1 & l2 & F & E1 & E2)|(_ & E1)].
    { exfalso. apply Hn. destruct F as [-> _]. unfold has. rewrite map_app. apply in_or_app. right. left. reflexivity. }
    rewrite E1. destruct (grow cap Hcap (arr m) l HA Hl) as (y & t & Ht). cbn [arr s_storage] in Ht.
    pose proof (grown cap Hcap (arr m) l (half y (k, v) x) y t HA Hl Ht) as G. pose proof HR as (_ & H2 & _).
    rewrite Ht, H2, rd_len, wr_app_len. cbn [option_map arr s_size] in *. rewrite H2 in G.
    eexists _, _, _. split; [reflexivity|]. split; [|exact G]. split; [reflexivity|]. exists y. reflexivity.
  - destruct (find_entry m l k HR) as [(w & l1 & l2 & F & E1 & E2)|(Hn & E1)]; [|contradiction]. rewrite E1.
    pose proof F as [-> F2]. destruct (pop_rd cap Hcap (arr m) _ HA ltac:(destruct l1; discriminate)) as (r & y & t & P1 & _ & _ & P2).
    cbn [arr s_storage s_size] in P2. rewrite P2, E2.
    destruct (erase_at cap Hcap (arr m) l1 (k, w) l2 (half (k, w) y x) HA) as (st & W & HR'). cbn [arr s_storage s_size] in W. change (len l1) with (N.of_nat (length l1)) in W. rewrite W. cbn [option_map].
    eexists _, _, _. split; [reflexivity|]. split; [|exact HR']. split; [reflexivity|]. exists w, l1, l2, y. split; [exact F|]. split; [eauto|reflexivity].
  - destruct (pop_rd cap Hcap (arr m) l HA Hp) as (r & x & t & -> & Ht & E1 & E2). cbn [arr s_storage s_size] in *. rewrite E2. cbn [option_map].
    eexists _, _, r. split; [reflexivity|]. split; [rewrite removelast_last; auto|].
    assert (Q := shrunk cap Hcap (arr m) (r ++ [x]) (m_storage m) t x HA ltac:(destruct r; discriminate)).
    rewrite removelast_last in Q. apply Q; [exact Ht|]. rewrite <- app_assoc. exact Ht.
Qed.
End Map.
