From Coq Require Import Permutation.
From Verif Require Import Base BaseLemmas CxSetModel CxSetProofs CxMapModel CxMapSpec.
Open Scope N_scope.

Lemma NoDup_app_mid {A} (l1 : list A) x l2 : NoDup (l1 ++ x :: l2) <-> NoDup (x :: l1 ++ l2).
Proof.
  split; apply Permutation_NoDup; [apply Permutation_sym|]; apply Permutation_middle.
Qed.

Section P.
Context {K V : Type} (eqb : K -> K -> bool) (Heq : forall x y, eqb x y = true <-> x = y) (cap : N)
  (Hcap : cap < size_mod).

Definition MRepL (s : cmap K V) (l : list (K * V)) : Prop :=
  len (m_storage s) = cap /\ m_size s = len l /\ exists t, m_storage s = l ++ t.
Definition MRep (s : cmap K V) (m : K -> option V) : Prop :=
  exists l, MRepL s l /\ entries m l.

Lemma MRepL_le s l : MRepL s l -> len l <= cap.
Proof. intros (H & _ & t & E). rewrite <- H, E, len_app. lia. Qed.

Lemma m_items_ok s l : MRepL s l -> m_items s = Some l.
Proof.
  intros HR. pose proof (MRepL_le s l HR) as Hle. destruct HR as (H1 & H2 & t & Ht).
  unfold m_items. rewrite H2, H1. destruct (N.leb_spec (len l) cap); [|lia].
  rewrite len_to_nat, Ht, firstn_app_len. reflexivity.
Qed.

Lemma m_find_ok s m l k : MRepL s l -> entries m l ->
  (exists l1 v l2, l = l1 ++ (k, v) :: l2 /\ m_find eqb s k = Some (Some (length l1)) /\ m k = Some v)
  \/ (m_find eqb s k = Some None /\ m k = None).
Proof.
  intros HR (Hn & Hm). unfold m_find. rewrite (m_items_ok s l HR). cbn [option_map].
  destruct (find_idx (fun e => eqb (fst e) k) l) as [i|] eqn:E.
  - destruct (find_idx_Some _ _ _ E) as (l1 & (k' & v) & l2 & -> & Hl & Hx & _).
    cbn [fst] in Hx. apply Heq in Hx. subst k'. left. exists l1, v, l2. subst i.
    repeat split. apply Hm. apply in_or_app. right. left. reflexivity.
  - right. split; [reflexivity|]. destruct (m k) as [v|] eqn:Ek; [|reflexivity].
    apply Hm in Ek. pose proof (find_idx_None _ _ E _ Ek) as H. cbn in H.
    rewrite (proj2 (Heq k k) eq_refl) in H. discriminate.
Qed.

Lemma MRep_ext s m m' : (forall x, m x = m' x) -> MRep s m -> MRep s m'.
Proof.
  intros E (l & HR & Hn & Hm). exists l. split; [exact HR|]. split; [exact Hn|].
  intros k v. rewrite <- E. apply Hm.
Qed.

Lemma entries_len (m : K -> option V) l l' : entries m l -> entries m l' -> len l = len l'.
Proof.
  intros (N1 & E1) (N2 & E2). unfold len. f_equal. apply Nat.le_antisymm;
  apply NoDup_incl_length; try (apply NoDup_map_inv with (f := fst); assumption);
  intros [k v] Hx; [apply E2, E1|apply E1, E2]; exact Hx.
Qed.

Lemma entries_remove (m : K -> option V) l l' k v :
  Permutation ((k, v) :: l') l -> entries m l -> entries (upd eqb m k None) l'.
Proof.
  intros Hp (Hn & Hm).
  assert (Hn' : NoDup (k :: map fst l')).
  { change (k :: map fst l') with (map fst ((k, v) :: l')).
    apply (Permutation_NoDup (Permutation_sym (Permutation_map fst Hp))). exact Hn. }
  inversion Hn' as [|kk ll Hni Hnd]; subst kk ll. split; [exact Hnd|].
  intros k' v'. unfold upd. destruct (eqb_cases eqb Heq k' k) as [[E1 E2]|[E1 E2]]; rewrite E1.
  - subst k'. split; [|discriminate]. intros H. exfalso. apply Hni.
    apply (in_map fst) in H. exact H.
  - rewrite <- Hm. split; intros H.
    + apply (Permutation_in _ Hp). right. exact H.
    + apply (Permutation_in _ (Permutation_sym Hp)) in H. destruct H as [H|H]; [|exact H].
      injection H as E _. congruence.
Qed.

Lemma entries_set (m : K -> option V) l1 l2 k v w :
  entries m (l1 ++ (k, v) :: l2) -> entries (upd eqb m k (Some w)) (l1 ++ (k, w) :: l2).
Proof.
  intros (Hn & Hm). rewrite map_app in Hn. cbn [map fst] in Hn. split.
  - rewrite map_app. exact Hn.
  - apply NoDup_app_mid in Hn. inversion Hn as [|kk ll Hni Hnd]; subst kk ll.
    assert (Hni' : forall u, ~ In (k, u) l1 /\ ~ In (k, u) l2).
    { intros u; split; intros H; apply Hni; apply in_or_app;
      [left|right]; apply (in_map fst) in H; exact H. }
    intros k' v'. unfold upd. rewrite in_app_iff. cbn [In].
    specialize (Hm k' v'). rewrite in_app_iff in Hm. cbn [In] in Hm.
    destruct (eqb_cases eqb Heq k' k) as [[E1 E2]|[E1 E2]]; rewrite E1.
    + subst k'. specialize (Hni' v'). split.
      * intros [H|[H|H]]; [tauto| |tauto]. congruence.
      * intros H. right. left. congruence.
    + rewrite <- Hm. split; intros [H|[H|H]]; auto; injection H as H _; congruence.
Qed.

Lemma entries_add (m : K -> option V) l k w :
  m k = None -> entries m l -> entries (upd eqb m k (Some w)) (l ++ [(k, w)]).
Proof.
  intros Hk (Hn & Hm). split.
  - rewrite map_app. cbn [map fst].
    apply (Permutation_NoDup (Permutation_cons_append _ _)). constructor; [|exact Hn].
    intros H. apply in_map_iff in H. destruct H as ([k' v'] & E & H). cbn in E. subst k'.
    apply Hm in H. congruence.
  - intros k' v'. unfold upd. rewrite in_app_iff, Hm. cbn [In].
    destruct (eqb_cases eqb Heq k' k) as [[E1 E2]|[E1 E2]]; rewrite E1.
    + subst k'. split.
      * intros [H|[H|[]]]; congruence.
      * intros H. right. left. congruence.
    + split; [intros [H|[H|[]]]; [exact H|congruence]|auto].
Qed.

Lemma present_Some (m : K -> option V) k v : m k = Some v -> present m k = true.
Proof. unfold present. intros ->. reflexivity. Qed.
Lemma present_None (m : K -> option V) k : m k = None -> present m k = false.
Proof. unfold present. intros ->. reflexivity. Qed.

Lemma m_contains_ok s m k : MRep s m -> m_contains eqb s k = Some (present m k).
Proof.
  intros (l & HR & He). unfold m_contains.
  destruct (m_find_ok s m l k HR He) as [(l1 & v & l2 & El & Ef & Ek)|(Ef & Ek)]; rewrite Ef.
  - rewrite (present_Some _ _ _ Ek). reflexivity.
  - rewrite (present_None _ _ Ek). reflexivity.
Qed.

Lemma m_get_ok s m k v : MRep s m -> m k = Some v -> m_get eqb s k = Some v.
Proof.
  intros (l & HR & He) Hk. unfold m_get.
  destruct (m_find_ok s m l k HR He) as [(l1 & v' & l2 & El & Ef & Ek)|(Ef & Ek)]; rewrite Ef; [|congruence].
  destruct HR as (H1 & H2 & t & Ht). rewrite Ht, El, <- app_assoc. cbn [app].
  change (N.of_nat (length l1)) with (len l1). rewrite rd_len. cbn. congruence.
Qed.

Lemma m_set_at_ok s m l1 l2 k v w :
  MRepL s (l1 ++ (k, v) :: l2) -> entries m (l1 ++ (k, v) :: l2) ->
  exists s', m_set_at s (length l1) w = Some s' /\ MRep s' (upd eqb m k (Some w)).
Proof.
  intros (H1 & H2 & t & Ht) He. unfold m_set_at.
  change (N.of_nat (length l1)) with (len l1). rewrite Ht, <- app_assoc. cbn [app].
  rewrite rd_len, wr_app_len. eexists. split; [reflexivity|].
  exists (l1 ++ (k, w) :: l2). split; [|apply (entries_set m l1 l2 k v w); exact He].
  split; [|split]; cbn [m_storage m_size].
  - rewrite <- H1, Ht, !len_app, !len_cons, !len_app. lia.
  - rewrite H2, !len_app, !len_cons. reflexivity.
  - exists t. rewrite <- app_assoc. reflexivity.
Qed.

Lemma m_get_assign_ok s m k v : MRep s m -> present m k = true ->
  exists s', m_get_assign eqb s k v = Some s' /\ MRep s' (upd eqb m k (Some v)).
Proof.
  intros (l & HR & He) Hk. unfold m_get_assign.
  destruct (m_find_ok s m l k HR He) as [(l1 & v' & l2 & El & Ef & Ek)|(Ef & Ek)]; rewrite Ef.
  - subst l. exact (m_set_at_ok s m l1 l2 k v' v HR He).
  - rewrite (present_None _ _ Ek) in Hk. discriminate.
Qed.

Lemma m_put_ok s m k v :
  MRep s m -> (present m k = true \/ exists n, count m n /\ n < cap) ->
  exists s', m_put eqb s k v = Some (s', negb (present m k)) /\ MRep s' (upd eqb m k (Some v)).
Proof.
  intros (l & HR & He) Hp. unfold m_put.
  destruct (m_find_ok s m l k HR He) as [(l1 & v' & l2 & El & Ef & Ek)|(Ef & Ek)]; rewrite Ef.
  - subst l. destruct (m_set_at_ok s m l1 l2 k v' v HR He) as (s' & E & HR').
    rewrite E, (present_Some _ _ _ Ek). exists s'. split; [reflexivity|exact HR'].
  - rewrite (present_None _ _ Ek) in *. destruct Hp as [Hp|(n & (l' & He' & Hl') & Hlt)]; [discriminate|].
    assert (Hln : len l = n) by (rewrite <- Hl'; apply (entries_len m); assumption).
    destruct HR as (H1 & H2 & t & Ht).
    destruct t as [|y t]; [rewrite app_nil_r in Ht; rewrite Ht in H1; lia|].
    rewrite H2, Ht, wr_app_len. eexists. split; [reflexivity|].
    exists (l ++ [(k, v)]). split; [|apply entries_add; assumption].
    split; [|split]; cbn [m_storage m_size].
    + rewrite <- H1, Ht, !len_app, !len_cons. reflexivity.
    + rewrite sz_inc_small by lia. rewrite len_app. reflexivity.
    + exists t. rewrite <- app_assoc. reflexivity.
Qed.

Lemma m_erase_ok s m k :
  MRep s m ->
  exists s', m_erase eqb s k = Some (s', if present m k then 1 else 0) /\ MRep s' (upd eqb m k None).
Proof.
  intros (l & HR & He). unfold m_erase. pose proof (MRepL_le s l HR) as Hle.
  destruct (m_find_ok s m l k HR He) as [(l1 & v & l2 & El & Ef & Ek)|(Ef & Ek)]; rewrite Ef.
  - rewrite (present_Some _ _ _ Ek). destruct HR as (H1 & H2 & t & Ht).
    destruct (swap_remove l1 (k, v) l2 t) as (y & l' & z & Ey & Ew & El' & Hp).
    assert (Hlen : len l = len l1 + len l2 + 1) by (rewrite El, len_app, len_cons; lia).
    rewrite H2, sz_dec_pos by lia. replace (len l - 1) with (len l1 + len l2) by lia.
    rewrite Ht, El, Ey. change (N.of_nat (length l1)) with (len l1). rewrite Ew.
    eexists. split; [reflexivity|]. exists l'. rewrite <- El in Hp.
    split; [|apply (entries_remove m l l' k v); assumption].
    split; [|split]; cbn [m_storage m_size].
    + rewrite <- H1, Ht, !len_app, len_cons. lia.
    + lia.
    + exists (z :: t). reflexivity.
  - rewrite (present_None _ _ Ek). exists s. split; [reflexivity|].
    apply (MRep_ext s m); [|exists l; split; assumption].
    intros x. unfold upd. destruct (eqb_cases eqb Heq x k) as [[E1 E2]|[E1 E2]]; rewrite E1; congruence.
Qed.

Lemma m_pop_ok s m : MRep s m -> (exists k, present m k = true) ->
  exists s' k v, m_pop_back s = Some (s', (k, v)) /\ m k = Some v /\ MRep s' (upd eqb m k None).
Proof.
  intros (l & HR & He) (k0 & Hk0). pose proof (MRepL_le s l HR) as Hle.
  unfold present in Hk0. destruct (m k0) as [v0|] eqn:E0; [|discriminate].
  apply (proj2 He) in E0.
  destruct (snoc_cases l) as [->|(r & [k v] & ->)]; [destruct E0|].
  destruct HR as (H1 & H2 & t & Ht).
  assert (Hlen : len (r ++ [(k, v)]) = len r + 1) by (rewrite len_app; reflexivity).
  unfold m_pop_back. rewrite H2, Hlen in *. rewrite sz_dec_pos by lia.
  replace (len r + 1 - 1) with (len r) by lia.
  assert (Ht' : m_storage s = r ++ (k, v) :: t) by (rewrite Ht, <- app_assoc; reflexivity).
  rewrite Ht', rd_len. cbn [option_map]. do 3 eexists. split; [reflexivity|].
  split; [apply (proj2 He); apply in_or_app; right; left; reflexivity|].
  exists r. split.
  - split; [|split]; cbn [m_storage m_size].
    + rewrite <- Ht'. exact H1.
    + reflexivity.
    + eauto.
  - apply (entries_remove m (r ++ [(k, v)]) r k v); [|exact He]. apply Permutation_cons_append.
Qed.

Lemma m_step_ok s m op :
  MRep s m -> map_pre cap m op ->
  exists s' o m', m_step eqb cap s op = Done s' o [] /\ map_spec eqb cap m op o m' /\ MRep s' m'.
Proof.
  intros HS Hp. destruct op as [k v|k|k|k v|k| | | | | |]; cbn [map_pre map_spec] in *; unfold m_step.
  - destruct (m_put_ok s m k v HS Hp) as (s' & E & HS'). rewrite E. cbn [option_map].
    do 3 eexists. split; [reflexivity|]. split; [|exact HS']. split; reflexivity.
  - destruct (m_erase_ok s m k HS) as (s' & E & HS'). rewrite E. cbn [option_map].
    do 3 eexists. split; [reflexivity|]. split; [|exact HS']. split; reflexivity.
  - unfold present in Hp. destruct (m k) as [v|] eqn:Ek; [|discriminate].
    rewrite (m_get_ok s m k v HS Ek). do 3 eexists. split; [reflexivity|]. split; [|exact HS].
    split; [|reflexivity]. eauto.
  - destruct (m_get_assign_ok s m k v HS Hp) as (s' & E & HS'). rewrite E. cbn [option_map].
    do 3 eexists. split; [reflexivity|]. split; [|exact HS']. split; reflexivity.
  - rewrite (m_contains_ok s m k HS). do 3 eexists. split; [reflexivity|].
    split; [|exact HS]. split; reflexivity.
  - destruct (m_pop_ok s m HS Hp) as (s' & k & v & E & Hk & HS'). rewrite E. cbn [option_map].
    do 3 eexists. split; [reflexivity|]. split; [|exact HS']. exists k, v.
    split; [exact Hk|]. split; reflexivity.
  - do 3 eexists. split; [reflexivity|]. split; [split; reflexivity|].
    destruct HS as (l & (H1 & H2 & t & Ht) & _). exists []. split.
    + split; [exact H1|]. split; [reflexivity|]. exists (m_storage s). reflexivity.
    + split; [constructor|]. intros k v. cbn. split; [tauto|discriminate].
  - do 3 eexists. split; [reflexivity|]. split; [|exact HS]. split; [|reflexivity].
    destruct HS as (l & (H1 & H2 & H3) & He). exists (m_size s). split; [|reflexivity].
    exists l. split; [exact He|symmetry; exact H2].
  - do 3 eexists. split; [reflexivity|]. split; [|exact HS]. split; [|reflexivity].
    eexists. split; [reflexivity|].
    destruct HS as (l & (H1 & H2 & H3) & Hn & Hm). rewrite H2. destruct l as [|[k v] l].
    + split; [|reflexivity]. intros _ x. destruct (m x) eqn:E; [|reflexivity]. apply Hm in E. destruct E.
    + rewrite len_cons. split; [intros E; apply N.eqb_eq in E; lia|].
      intros H. assert (E : m k = Some v) by (apply Hm; left; reflexivity). rewrite H in E. discriminate.
  - do 3 eexists. split; [reflexivity|]. split; [|exact HS]. split; [|reflexivity].
    destruct HS as (l & (H1 & H2 & H3) & He). exists (m_size s). split; [|reflexivity].
    exists l. split; [exact He|symmetry; exact H2].
  - pose proof HS as HS0. destruct HS as (l & HR & He). rewrite (m_items_ok s l HR).
    do 3 eexists. split; [reflexivity|]. split; [|exact HS0]. split; [|reflexivity].
    exists l. split; [reflexivity|exact He].
Qed.

Lemma m_make_rep (d : K * V) es s : m_make cap d es = Some s -> MRepL s es.
Proof.
  unfold m_make. destruct (N.leb_spec (len es) cap) as [H|]; [|discriminate].
  intros E; injection E as <-. split; [|split]; cbn [m_storage m_size].
  - rewrite len_app, len_repeat. lia.
  - reflexivity.
  - eauto.
Qed.

Lemma cx_map_conforms (d : K * V) es m s ops :
  entries m es -> m_make cap d es = Some s ->
  conforms (m_step eqb cap) (map_pre cap) (map_spec eqb cap) s m ops.
Proof.
  intros He Hm. apply (conforms_sim _ _ _ MRep).
  - intros; apply m_step_ok; assumption.
  - exists es. split; [apply (m_make_rep d); exact Hm|exact He].
Qed.
End P.

Lemma cx_map_dup_refuted {K V} (eqb : K -> K -> bool) (Heq : forall x y, eqb x y = true <-> x = y)
  d k (v1 v2 : V) cap : 2 <= cap -> cap < size_mod ->
  exists s s1, m_make cap d [(k, v1); (k, v2)] = Some s /\
    run (m_step eqb cap) s [MSize; MErase k; MContains k; MGet k]
    = Done s1 [MNum 2; MNum 1; MBool true; MVal v2] [].
Proof.
  intros H2 Hc. unfold m_make. change (len [(k, v1); (k, v2)]) with 2.
  destruct (N.leb_spec 2 cap); [|lia]. do 2 eexists. split; [reflexivity|].
  set (t := repeat d (N.to_nat (cap - 2))).
  assert (Hkk : eqb k k = true) by (apply Heq; reflexivity).
  cbn [run m_step m_size m_storage]. unfold m_erase, m_find, m_items, m_contains. cbn [m_size m_storage app].
  rewrite !len_cons.
  destruct (N.leb_spec 2 (len t + 1 + 1)); [|lia].
  change (N.to_nat 2) with 2%nat. cbn [option_map firstn find_idx fst]. rewrite Hkk.
  rewrite sz_dec_pos by lia. change (2 - 1) with 1.
  change (rd ((k, v1) :: (k, v2) :: t) 1) with (rd ([(k, v1)] ++ (k, v2) :: t) (len [(k, v1)])).
  rewrite rd_len. change (N.of_nat 0) with 0.
  unfold wr. rewrite !len_cons. destruct (N.ltb_spec 0 (len t + 1 + 1)); [|lia].
  cbn [N.to_nat set_nth]. cbn [option_map run m_step]. unfold m_contains, m_get, m_find, m_items.
  cbn [m_size m_storage]. rewrite !len_cons.
  destruct (N.leb_spec 1 (len t + 1 + 1)); [|lia].
  change (N.to_nat 1) with 1%nat. cbn [firstn option_map find_idx fst]. rewrite Hkk.
  cbn [run m_step option_map]. unfold m_get, m_find, m_items. cbn [m_size m_storage]. rewrite !len_cons.
  destruct (N.leb_spec 1 (len t + 1 + 1)); [|lia].
  change (N.to_nat 1) with 1%nat. cbn [firstn option_map find_idx fst]. rewrite Hkk.
  reflexivity.
Qed.
