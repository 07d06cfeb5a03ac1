From Coq Require Import Permutation.
From Verif Require Import Base BaseLemmas CxSetModel CxSetProofs CxMapModel CxMapProofs
  CxMultimapModel KeyEqSpec.
Open Scope N_scope.

Lemma existsb_false {A} (p : A -> bool) l : (forall y, In y l -> p y = false) -> existsb p l = false.
Proof.
  induction l as [|a l IH]; intros H; [reflexivity|]. cbn [existsb].
  rewrite (H a (or_introl eq_refl)), IH; [reflexivity|]. intros y Hy. apply H. right. exact Hy.
Qed.

Lemma find_idx_first {A} (p : A -> bool) l :
  match find_idx p l with
  | Some i => existsb p l = true /\
      exists l1 x l2, l = l1 ++ x :: l2 /\ length l1 = i /\ p x = true /\ existsb p l1 = false
  | None => existsb p l = false
  end.
Proof.
  destruct (find_idx p l) as [i|] eqn:E.
  - destruct (find_idx_Some _ _ _ E) as (l1 & x & l2 & -> & Hl & Hx & Hn). split.
    + rewrite existsb_app. cbn [existsb]. rewrite Hx, orb_true_r. reflexivity.
    + exists l1, x, l2. repeat split; auto. apply existsb_false. exact Hn.
  - apply existsb_false. apply (find_idx_None _ _ E).
Qed.

Section S.
Context {K : Type} (eqb : K -> K -> bool) (cap : N) (Hcap : cap < size_mod).
Notation SR := (@SRepL K cap).

Lemma ks_make d ts s : s_make cap d ts = Some s -> SR s ts.
Proof.
  clear eqb Hcap.
  unfold s_make. destruct (N.leb_spec (len ts) cap) as [H|]; [|discriminate].
  intros E; injection E as <-. split; [|split]; cbn [s_storage s_size].
  - rewrite len_app, len_repeat. lia.
  - reflexivity.
  - eauto.
Qed.

Lemma ks_contains s l k : SR s l -> s_contains eqb s k = Some (has eqb l k).
Proof.
  intros HR. unfold s_contains. rewrite (s_items_ok cap Hcap s l HR). unfold has.
  pose proof (find_idx_first (fun x => eqb x k) l) as H. destruct (find_idx _ l).
  - destruct H as (-> & _). reflexivity.
  - rewrite H. reflexivity.
Qed.

Lemma ks_insert s l k : SR s l -> has eqb l k = true \/ len l < cap ->
  exists s', s_insert eqb s k = Some (s', negb (has eqb l k)) /\
    SR s' (if has eqb l k then l else l ++ [k]).
Proof.
  intros HR Hp. unfold s_insert. rewrite (ks_contains s l k HR).
  destruct (has eqb l k); [exists s; auto|].
  destruct Hp as [Hp|Hp]; [discriminate|]. destruct HR as (H1 & H2 & t & Ht).
  destruct t as [|y t]; [rewrite app_nil_r in Ht; rewrite Ht in H1; lia|].
  rewrite H2, Ht, wr_app_len. eexists. split; [reflexivity|].
  split; [|split]; cbn [s_storage s_size].
  - rewrite <- H1, Ht, !len_app, !len_cons. reflexivity.
  - rewrite sz_inc_small by lia. rewrite len_app. reflexivity.
  - exists t. rewrite <- app_assoc. reflexivity.
Qed.

Lemma ks_erase s l k : SR s l ->
  exists s' l', s_erase eqb s k = Some (s', if has eqb l k then 1 else 0) /\ SR s' l' /\
    if has eqb l k
    then exists l1 x l2, l = l1 ++ x :: l2 /\ eqb x k = true /\ has eqb l1 k = false /\
           Permutation (l1 ++ l2) l'
    else l' = l.
Proof.
  intros HR. unfold s_erase. rewrite (s_items_ok cap Hcap s l HR).
  pose proof (SRepL_le cap Hcap s l HR) as Hle. unfold has at 1 2.
  pose proof (find_idx_first (fun x => eqb x k) l) as H. destruct (find_idx _ l) as [i|].
  - destruct H as (-> & l1 & x & l2 & El & <- & Hx & Hn). destruct HR as (H1 & H2 & t & Ht).
    destruct (swap_remove l1 x l2 t) as (y & l' & z & Ey & Ew & El' & Hp).
    assert (Hlen : len l = len l1 + len l2 + 1) by (rewrite El, len_app, len_cons; lia).
    rewrite H2, sz_dec_pos by lia. replace (len l - 1) with (len l1 + len l2) by lia.
    rewrite Ht, El, Ey. change (N.of_nat (length l1)) with (len l1). rewrite Ew.
    eexists. exists l'. split; [reflexivity|]. split.
    + split; [|split]; cbn [s_storage s_size].
      * rewrite <- H1, Ht, !len_app, len_cons. lia.
      * lia.
      * exists (z :: t). reflexivity.
    + exists l1, x, l2. split; [reflexivity|]. split; [exact Hx|]. split; [exact Hn|].
      apply (Permutation_cons_inv (a := x)). rewrite Hp. apply Permutation_middle.
  - rewrite H. exists s, l. auto.
Qed.

Lemma ks_merged_le ks : forall l, len l <= len (merged eqb l ks).
Proof.
  clear cap Hcap.
  induction ks as [|k ks IH]; intros l; cbn [merged]; [lia|].
  destruct (has eqb l k); [apply IH|]. specialize (IH (l ++ [k])). rewrite len_app in IH. lia.
Qed.

Lemma ks_merge ks : forall s l, SR s l -> len (merged eqb l ks) <= cap ->
  exists s', s_merge eqb s ks = Some s' /\ SR s' (merged eqb l ks).
Proof.
  induction ks as [|k ks IH]; intros s l HR Hp; cbn [s_merge merged] in *; [eauto|].
  destruct (ks_insert s l k HR) as (s1 & E & HR1).
  { destruct (has eqb l k); [left; reflexivity|right].
    pose proof (ks_merged_le ks (l ++ [k])) as H. rewrite len_app in H.
    change (len [k]) with 1 in H. lia. }
  rewrite E. destruct (has eqb l k); apply (IH s1); assumption.
Qed.

Lemma ks_pop s l : SR s l -> l <> [] ->
  exists s' l' x, s_pop_back s = Some (s', x) /\ SR s' l' /\ l = l' ++ [x].
Proof.
  intros HR Hne. pose proof (SRepL_le cap Hcap s l HR) as Hle.
  destruct (snoc_cases l) as [->|(r & k & ->)]; [congruence|].
  destruct HR as (H1 & H2 & t & Ht).
  assert (Hlen : len (r ++ [k]) = len r + 1) by (rewrite len_app; reflexivity).
  unfold s_pop_back. rewrite H2, Hlen in *. rewrite sz_dec_pos by lia.
  replace (len r + 1 - 1) with (len r) by lia.
  assert (Ht' : s_storage s = r ++ k :: t) by (rewrite Ht, <- app_assoc; reflexivity).
  rewrite Ht', rd_len. cbn [option_map]. eexists. exists r, k. split; [reflexivity|].
  split; [|reflexivity]. split; [|split]; cbn [s_storage s_size].
  - rewrite <- Ht'. exact H1.
  - reflexivity.
  - eauto.
Qed.

Lemma len_zero {A} (l : list A) : (len l =? 0) = true <-> l = [].
Proof.
  clear cap Hcap.
  destruct l; [split; reflexivity|]. rewrite len_cons. split; [|discriminate].
  intros E. apply N.eqb_eq in E. lia.
Qed.

Lemma ks_step s l op : SR s l -> kset_pre eqb cap l op ->
  exists s' o l', s_step eqb s op = Done s' o [] /\ kset_spec eqb l op o l' /\ SR s' l'.
Proof.
  intros HS Hp. destruct op as [k|k|ks| | |k| | |]; cbn [kset_pre kset_spec] in *; unfold s_step.
  - destruct (ks_insert s l k HS Hp) as (s' & E & HS'). rewrite E. cbn [option_map].
    do 3 eexists. split; [reflexivity|]. split; [|exact HS'].
    destruct (has eqb l k); split; reflexivity.
  - destruct (ks_erase s l k HS) as (s' & l' & E & HS' & H). rewrite E. cbn [option_map].
    do 3 eexists. split; [reflexivity|]. split; [|exact HS'].
    destruct (has eqb l k); split; auto.
  - destruct (ks_merge ks s l HS Hp) as (s' & E & HS'). rewrite E. cbn [option_map].
    do 3 eexists. split; [reflexivity|]. split; [|exact HS']. split; reflexivity.
  - destruct (ks_pop s l HS Hp) as (s' & l' & x & E & HS' & H). rewrite E. cbn [option_map].
    do 3 eexists. split; [reflexivity|]. split; [|exact HS']. exists x. split; [reflexivity|exact H].
  - do 3 eexists. split; [reflexivity|]. split; [split; reflexivity|].
    destruct HS as (H1 & H2 & t & Ht). split; [exact H1|]. split; [reflexivity|].
    exists (s_storage s). reflexivity.
  - rewrite (ks_contains s l k HS). do 3 eexists. split; [reflexivity|]. split; [|exact HS].
    split; reflexivity.
  - do 3 eexists. split; [reflexivity|]. split; [|exact HS].
    destruct HS as (H1 & H2 & H3). rewrite H2. split; reflexivity.
  - do 3 eexists. split; [reflexivity|]. split; [|exact HS]. split; [|reflexivity].
    eexists. split; [reflexivity|]. destruct HS as (H1 & H2 & H3). rewrite H2. apply len_zero.
  - rewrite (s_items_ok cap Hcap s l HS). do 3 eexists. split; [reflexivity|]. split; [|exact HS].
    split; reflexivity.
Qed.

Lemma kset_conforms d ts s ops : s_make cap d ts = Some s ->
  conforms (s_step eqb) (kset_pre eqb cap) (kset_spec eqb) s ts ops.
Proof.
  intros Hm. apply (conforms_sim _ _ _ SR); [apply ks_step|]. apply (ks_make d). exact Hm.
Qed.

(** Distinctness. *)
Lemma distinct_perm l l' : Permutation l l' -> distinct eqb l -> distinct eqb l'.
Proof.
  clear cap Hcap.
  induction 1 as [|x l l' H IH|x y l|l l' l'' H1 IH1 H2 IH2]; cbn [distinct]; auto.
  - intros (Hx & Hd). split; [|auto]. intros y Hy. apply Hx.
    apply (Permutation_in _ (Permutation_sym H)). exact Hy.
  - intros (Hy & Hx & Hd). split; [|split; [|exact Hd]].
    + intros z [<-|Hz]; [|auto]. destruct (Hy x (or_introl eq_refl)). auto.
    + intros z Hz. apply Hy. right. exact Hz.
Qed.

Context (Hsym : forall x y, eqb x y = eqb y x).

Lemma distinct_snoc l k : distinct eqb l -> has eqb l k = false -> distinct eqb (l ++ [k]).
Proof.
  clear cap Hcap.
  intros Hd Hh. apply (distinct_perm (k :: l)); [apply Permutation_cons_append|].
  split; [|exact Hd]. intros y Hy. rewrite (Hsym k y).
  assert (E : eqb y k = false).
  { destruct (eqb y k) eqn:E; [|reflexivity]. unfold has in Hh.
    assert (existsb (fun x => eqb x k) l = true) by (apply existsb_exists; eauto). congruence. }
  auto.
Qed.

Lemma distinct_merged ks : forall l, distinct eqb l -> distinct eqb (merged eqb l ks).
Proof.
  clear cap Hcap.
  induction ks as [|k ks IH]; intros l Hd; cbn [merged]; [exact Hd|].
  destruct (has eqb l k) eqn:E; apply IH; [exact Hd|]. apply distinct_snoc; assumption.
Qed.

Lemma distinct_app_l l l2 : distinct eqb (l ++ l2) -> distinct eqb l.
Proof.
  clear cap Hcap.
  induction l as [|x l IH]; cbn [app distinct]; [tauto|]. intros (Hx & Hd). split; [|auto].
  intros y Hy. apply Hx. apply in_or_app. left. exact Hy.
Qed.

Lemma distinct_spec l op o l' : kset_spec eqb l op o l' -> distinct eqb l -> distinct eqb l'.
Proof.
  clear cap Hcap.
  intros Hs Hd. destruct op as [k|k|ks| | |k| | |]; cbn [kset_spec] in Hs.
  - destruct (has eqb l k) eqn:E; destruct Hs as (_ & ->); [exact Hd|]. apply distinct_snoc; assumption.
  - destruct (has eqb l k) eqn:E; destruct Hs as (_ & Hs); [|subst; exact Hd].
    destruct Hs as (l1 & x & l2 & -> & _ & _ & Hp). apply (distinct_perm (l1 ++ l2)); [exact Hp|].
    apply (distinct_perm _ (x :: l1 ++ l2)) in Hd; [apply Hd|].
    apply Permutation_sym, Permutation_middle.
  - destruct Hs as (_ & ->). apply distinct_merged. exact Hd.
  - destruct Hs as (x & _ & ->). apply (distinct_app_l l' [x]). exact Hd.
  - destruct Hs as (_ & ->). exact I.
  - destruct Hs as (_ & ->). exact Hd.
  - destruct Hs as (_ & ->). exact Hd.
  - destruct Hs as (_ & ->). exact Hd.
  - destruct Hs as (_ & ->). exact Hd.
Qed.

Lemma kset_conforms_distinct d ts s ops : s_make cap d ts = Some s -> distinct eqb ts ->
  conforms (s_step eqb) (kset_pre eqb cap)
    (fun l op o l' => kset_spec eqb l op o l' /\ distinct eqb l') s ts ops.
Proof.
  intros Hm Hd. apply (conforms_sim _ _ _ (fun s l => SR s l /\ distinct eqb l)).
  - clear s ops Hm. intros s l op (HR & Hdl) Hp.
    destruct (ks_step s l op HR Hp) as (s' & o & l' & E & Hs & HR').
    pose proof (distinct_spec l op o l' Hs Hdl) as Hd'. exists s', o, l'. auto.
  - split; [apply (ks_make d); exact Hm|exact Hd].
Qed.

(** At most one stored element is equal to a given key. *)
Lemma distinct_unique (Htr : forall x y z, eqb x y = true -> eqb y z = true -> eqb x z = true)
  l l1 x l2 k : distinct eqb l -> l = l1 ++ x :: l2 -> eqb x k = true ->
  forall y, In y (l1 ++ l2) -> eqb y k = false.
Proof.
  clear cap Hcap.
  intros Hd -> Hx y Hy.
  apply (distinct_perm _ (x :: l1 ++ l2)) in Hd; [|apply Permutation_sym, Permutation_middle].
  destruct (eqb y k) eqn:E; [|reflexivity]. destruct Hd as (H & _). destruct (H y Hy) as (H1 & _).
  rewrite (Htr x k y) in H1; [discriminate|exact Hx|rewrite Hsym; exact E].
Qed.
End S.

Section M.
Context {K V : Type} (eqb : K -> K -> bool) (cap : N) (Hcap : cap < size_mod).
Notation MR := (@MRepL K V cap).

Lemma km_find s l k : MR s l ->
  (exists l1 k0 v l2, first_entry eqb l k l1 k0 v l2 /\
     m_find eqb s k = Some (Some (length l1)) /\ has_entry eqb l k = true)
  \/ (m_find eqb s k = Some None /\ has_entry eqb l k = false).
Proof.
  intros HR. unfold m_find. rewrite (m_items_ok cap Hcap s l HR). cbn [option_map].
  pose proof (find_idx_first (fun e : K * V => eqb (fst e) k) l) as H.
  destruct (find_idx _ l) as [i|].
  - destruct H as (Hh & l1 & (k0 & v) & l2 & El & <- & Hx & Hn). left. exists l1, k0, v, l2.
    split; [|split; [reflexivity|exact Hh]]. split; [exact El|]. split; [exact Hx|exact Hn].
  - right. auto.
Qed.

Lemma km_contains s l k : MR s l -> m_contains eqb s k = Some (has_entry eqb l k).
Proof.
  intros HR. unfold m_contains.
  destruct (km_find s l k HR) as [(l1 & k0 & v & l2 & _ & -> & ->)|(-> & ->)]; reflexivity.
Qed.

Lemma km_set_at s l1 k0 v0 l2 v : MR s (l1 ++ (k0, v0) :: l2) ->
  exists s', m_set_at s (length l1) v = Some s' /\ MR s' (l1 ++ (k0, v) :: l2).
Proof.
  intros (H1 & H2 & t & Ht). unfold m_set_at. change (N.of_nat (length l1)) with (len l1).
  assert (Ht' : m_storage s = l1 ++ (k0, v0) :: l2 ++ t) by (rewrite Ht, <- app_assoc; reflexivity).
  rewrite Ht', rd_len, wr_app_len. cbn [option_map]. eexists. split; [reflexivity|].
  split; [|split]; cbn [m_storage m_size].
  - rewrite <- H1, Ht', !len_app, !len_cons. reflexivity.
  - rewrite H2, !len_app, !len_cons. reflexivity.
  - exists t. rewrite <- app_assoc. reflexivity.
Qed.

Lemma km_get s l k : MR s l -> has_entry eqb l k = true ->
  exists l1 k0 v l2, first_entry eqb l k l1 k0 v l2 /\ m_get eqb s k = Some v.
Proof.
  intros HR Hh. unfold m_get.
  destruct (km_find s l k HR) as [(l1 & k0 & v & l2 & Hf & -> & _)|(_ & E)]; [|congruence].
  exists l1, k0, v, l2. split; [exact Hf|]. destruct Hf as (-> & _). destruct HR as (_ & _ & t & Ht).
  change (N.of_nat (length l1)) with (len l1). rewrite Ht, <- app_assoc. cbn [app].
  rewrite rd_len. reflexivity.
Qed.

Lemma first_unique l k l1 k0 (v : V) l2 l1' k0' v' l2' :
  first_entry eqb l k l1 k0 v l2 -> first_entry eqb l k l1' k0' v' l2' ->
  l1 = l1' /\ k0 = k0' /\ v = v' /\ l2 = l2'.
Proof.
  intros (-> & Hk & Hn) (E & Hk' & Hn'). revert l1' E Hn'.
  induction l1 as [|(a & b) l1 IH]; intros [|(a' & b') l1'] E Hn'; cbn [app] in E.
  - injection E as -> -> ->. auto.
  - injection E as -> -> ->. cbn in Hn'. rewrite Hk in Hn'. discriminate.
  - injection E as -> -> <-. cbn in Hn. rewrite Hk' in Hn. discriminate.
  - injection E as -> -> E. cbn [has_entry existsb fst] in Hn, Hn'.
    apply orb_false_iff in Hn. apply orb_false_iff in Hn'.
    destruct (IH (proj2 Hn) l1' E (proj2 Hn')) as (-> & H). auto.
Qed.

Lemma km_get_assign s l k v : MR s l -> has_entry eqb l k = true ->
  exists s' l1 k0 v0 l2, m_get_assign eqb s k v = Some s' /\ first_entry eqb l k l1 k0 v0 l2 /\
    MR s' (l1 ++ (k0, v) :: l2).
Proof.
  intros HR Hh. unfold m_get_assign.
  destruct (km_find s l k HR) as [(l1 & k0 & v0 & l2 & Hf & -> & _)|(_ & E)]; [|congruence].
  pose proof Hf as (El & _). rewrite El in HR.
  destruct (km_set_at s l1 k0 v0 l2 v HR) as (s' & E & HR'). rewrite E.
  exists s', l1, k0, v0, l2. auto.
Qed.

Lemma km_put s l k v : MR s l -> has_entry eqb l k = true \/ len l < cap ->
  exists s' l', m_put eqb s k v = Some (s', negb (has_entry eqb l k)) /\ MR s' l' /\
    if has_entry eqb l k then revalued eqb l l' k v else l' = l ++ [(k, v)].
Proof.
  intros HR Hp. unfold m_put.
  destruct (km_find s l k HR) as [(l1 & k0 & v0 & l2 & Hf & -> & Eh)|(-> & Eh)]; rewrite Eh in *.
  - pose proof Hf as (El & _). rewrite El in HR.
    destruct (km_set_at s l1 k0 v0 l2 v HR) as (s' & E & HR'). rewrite E.
    exists s', (l1 ++ (k0, v) :: l2). split; [reflexivity|]. split; [exact HR'|].
    exists l1, k0, v0, l2. auto.
  - destruct Hp as [Hp|Hp]; [discriminate|]. destruct HR as (H1 & H2 & t & Ht).
    destruct t as [|y t]; [rewrite app_nil_r in Ht; rewrite Ht in H1; lia|].
    rewrite H2, Ht, wr_app_len. cbn [option_map]. eexists. exists (l ++ [(k, v)]).
    split; [reflexivity|]. split; [|reflexivity].
    split; [|split]; cbn [m_storage m_size].
    + rewrite <- H1, Ht, !len_app, !len_cons. reflexivity.
    + rewrite sz_inc_small by lia. rewrite len_app. reflexivity.
    + exists t. rewrite <- app_assoc. reflexivity.
Qed.

Lemma km_erase s l k : MR s l ->
  exists s' l', m_erase eqb s k = Some (s', if has_entry eqb l k then 1 else 0) /\ MR s' l' /\
    if has_entry eqb l k
    then exists l1 k0 v0 l2, first_entry eqb l k l1 k0 v0 l2 /\ Permutation (l1 ++ l2) l'
    else l' = l.
Proof.
  intros HR. unfold m_erase. pose proof (MRepL_le cap Hcap s l HR) as Hle.
  destruct (km_find s l k HR) as [(l1 & k0 & v0 & l2 & Hf & -> & ->)|(-> & ->)];
    [|exists s, l; auto].
  pose proof Hf as (El & _). destruct HR as (H1 & H2 & t & Ht).
  destruct (swap_remove l1 (k0, v0) l2 t) as (y & l' & z & Ey & Ew & El' & Hp).
  assert (Hlen : len l = len l1 + len l2 + 1) by (rewrite El, len_app, len_cons; lia).
  cbn zeta. rewrite H2, sz_dec_pos by lia. replace (len l - 1) with (len l1 + len l2) by lia.
  rewrite El in Ht. rewrite Ht, Ey. change (N.of_nat (length l1)) with (len l1). rewrite Ew.
  cbn [option_map]. eexists. exists l'. split; [reflexivity|]. split.
  - split; [|split]; cbn [m_storage m_size].
    + rewrite <- H1, Ht, !len_app, !len_cons. lia.
    + lia.
    + exists (z :: t). reflexivity.
  - exists l1, k0, v0, l2. split; [exact Hf|].
    apply (Permutation_cons_inv (a := (k0, v0))). rewrite Hp. apply Permutation_middle.
Qed.

Lemma km_pop s l : MR s l -> l <> [] ->
  exists s' l' x, m_pop_back s = Some (s', x) /\ MR s' l' /\ l = l' ++ [x].
Proof.
  intros HR Hne. pose proof (MRepL_le cap Hcap s l HR) as Hle.
  destruct (snoc_cases l) as [->|(r & k & ->)]; [congruence|].
  destruct HR as (H1 & H2 & t & Ht).
  assert (Hlen : len (r ++ [k]) = len r + 1) by (rewrite len_app; reflexivity).
  unfold m_pop_back. rewrite H2, Hlen in *. rewrite sz_dec_pos by lia.
  replace (len r + 1 - 1) with (len r) by lia.
  assert (Ht' : m_storage s = r ++ k :: t) by (rewrite Ht, <- app_assoc; reflexivity).
  rewrite Ht', rd_len. cbn [option_map]. eexists. exists r, k. split; [reflexivity|].
  split; [|reflexivity]. split; [|split]; cbn [m_storage m_size].
  - rewrite <- Ht'. exact H1.
  - reflexivity.
  - eauto.
Qed.

Lemma km_step s l op : MR s l -> kmap_pre eqb cap l op ->
  exists s' o l', m_step eqb cap s op = Done s' o [] /\ kmap_spec eqb cap l op o l' /\ MR s' l'.
Proof.
  intros HS Hp. destruct op as [k v|k|k|k v|k| | | | | |]; cbn [kmap_pre kmap_spec] in *; unfold m_step.
  - destruct (km_put s l k v HS Hp) as (s' & l' & E & HS' & H). rewrite E. cbn [option_map].
    do 3 eexists. split; [reflexivity|]. split; [|exact HS'].
    destruct (has_entry eqb l k); split; auto.
  - destruct (km_erase s l k HS) as (s' & l' & E & HS' & H). rewrite E. cbn [option_map].
    do 3 eexists. split; [reflexivity|]. split; [|exact HS'].
    destruct (has_entry eqb l k); split; auto.
  - destruct (km_get s l k HS Hp) as (l1 & k0 & v & l2 & Hf & E). rewrite E. cbn [option_map].
    do 3 eexists. split; [reflexivity|]. split; [|exact HS]. split; [|reflexivity].
    exists l1, k0, v, l2. auto.
  - destruct (km_get_assign s l k v HS Hp) as (s' & l1 & k0 & v0 & l2 & E & Hf & HS'). rewrite E.
    cbn [option_map]. do 3 eexists. split; [reflexivity|]. split; [|exact HS'].
    split; [reflexivity|]. exists l1, k0, v0, l2. auto.
  - rewrite (km_contains s l k HS). do 3 eexists. split; [reflexivity|]. split; [|exact HS].
    split; reflexivity.
  - destruct (km_pop s l HS Hp) as (s' & l' & x & E & HS' & H). rewrite E. cbn [option_map].
    do 3 eexists. split; [reflexivity|]. split; [|exact HS']. exists x. split; [reflexivity|exact H].
  - do 3 eexists. split; [reflexivity|]. split; [split; reflexivity|].
    destruct HS as (H1 & H2 & t & Ht). split; [exact H1|]. split; [reflexivity|].
    exists (m_storage s). reflexivity.
  - do 3 eexists. split; [reflexivity|]. split; [|exact HS].
    destruct HS as (H1 & H2 & H3). rewrite H2. split; reflexivity.
  - do 3 eexists. split; [reflexivity|]. split; [|exact HS]. split; [|reflexivity].
    eexists. split; [reflexivity|]. destruct HS as (H1 & H2 & H3). rewrite H2. apply len_zero.
  - do 3 eexists. split; [reflexivity|]. split; [|exact HS].
    destruct HS as (H1 & H2 & H3). rewrite H2. split; reflexivity.
  - rewrite (m_items_ok cap Hcap s l HS). do 3 eexists. split; [reflexivity|]. split; [|exact HS].
    split; reflexivity.
Qed.

Lemma kmap_conforms (d : K * V) es s ops : m_make cap d es = Some s ->
  conforms (m_step eqb cap) (kmap_pre eqb cap) (kmap_spec eqb cap) s es ops.
Proof.
  intros Hm. apply (conforms_sim _ _ _ MR); [apply km_step|]. apply (m_make_rep cap Hcap d). exact Hm.
Qed.

Context (Hsym : forall x y, eqb x y = eqb y x).

Lemma has_entry_has (l : list (K * V)) k : has_entry eqb l k = has eqb (map fst l) k.
Proof. unfold has_entry, has. induction l as [|e l IH]; cbn; [reflexivity|]. rewrite IH. reflexivity. Qed.

Lemma kdistinct_spec (l : list (K * V)) op o l' : kmap_spec eqb cap l op o l' ->
  distinct eqb (map fst l) -> distinct eqb (map fst l').
Proof.
  intros Hs Hd.
  assert (Hrev : forall k v, revalued eqb l l' k v -> distinct eqb (map fst l')).
  { intros k v (l1 & k0 & v0 & l2 & (El & _) & ->). rewrite El, map_app in Hd. rewrite map_app. exact Hd. }
  destruct op as [k v|k|k|k v|k| | | | | |]; cbn [kmap_spec] in Hs.
  - destruct (has_entry eqb l k) eqn:E; destruct Hs as (_ & Hs); [eauto|]. subst l'.
    rewrite map_app. apply distinct_snoc; auto. rewrite <- has_entry_has. exact E.
  - destruct (has_entry eqb l k) eqn:E; destruct Hs as (_ & Hs); [|subst; exact Hd].
    destruct Hs as (l1 & k0 & v0 & l2 & (-> & _) & Hp).
    apply (distinct_perm eqb (map fst (l1 ++ l2))); [apply Permutation_map; exact Hp|].
    apply (distinct_perm eqb _ (map fst ((k0, v0) :: l1 ++ l2))) in Hd; [apply Hd|].
    apply Permutation_map. apply Permutation_sym, Permutation_middle.
  - destruct Hs as (_ & ->). exact Hd.
  - destruct Hs as (_ & Hs). eauto.
  - destruct Hs as (_ & ->). exact Hd.
  - destruct Hs as (x & _ & ->). rewrite map_app in Hd. apply (distinct_app_l eqb _ _ Hd).
  - destruct Hs as (_ & ->). exact I.
  - destruct Hs as (_ & ->). exact Hd.
  - destruct Hs as (_ & ->). exact Hd.
  - destruct Hs as (_ & ->). exact Hd.
  - destruct Hs as (_ & ->). exact Hd.
Qed.

Lemma kmap_conforms_distinct (d : K * V) es s ops : m_make cap d es = Some s -> distinct eqb (map fst es) ->
  conforms (m_step eqb cap) (kmap_pre eqb cap)
    (fun l op o l' => kmap_spec eqb cap l op o l' /\ distinct eqb (map fst l')) s es ops.
Proof.
  intros Hm Hd. apply (conforms_sim _ _ _ (fun s l => MR s l /\ distinct eqb (map fst l))).
  - clear s ops Hm. intros s l op (HR & Hdl) Hp.
    destruct (km_step s l op HR Hp) as (s' & o & l' & E & Hs & HR').
    pose proof (kdistinct_spec l op o l' Hs Hdl) as Hd'. exists s', o, l'. auto.
  - split; [apply (m_make_rep cap Hcap d); exact Hm|exact Hd].
Qed.
End M.

Section MM.
Context {K V : Type} (keqb : K -> K -> bool) (veqb : V -> V -> bool).
Context (kcap vcap : N) (Hkc : kcap < size_mod) (Hvc : vcap < size_mod) (dk : K) (dv : V).
Notation MR := (@MRepL K (cset V) kcap).
Notation SR := (@SRepL V vcap).

Definition erep (a : K * cset V) (b : K * list V) : Prop := fst a = fst b /\ SR (snd a) (snd b).
Definition MMR (m : mmap) (l : list (K * list V)) : Prop :=
  exists c, MR m c /\ Forall2 erep c l.

Lemma erep_has c l k : Forall2 erep c l -> has_entry keqb c k = has_entry keqb l k.
Proof.
  unfold has_entry. induction 1 as [|a b c l (E & _) H IH]; cbn; [reflexivity|].
  rewrite E, IH. reflexivity.
Qed.

Lemma erep_len c l : Forall2 erep c l -> len c = len l.
Proof. induction 1 as [|a b c l _ _ IH]; [reflexivity|]. rewrite !len_cons, IH. reflexivity. Qed.

Lemma erep_split c1 a c2 l : Forall2 erep (c1 ++ a :: c2) l ->
  exists l1 b l2, l = l1 ++ b :: l2 /\ Forall2 erep c1 l1 /\ erep a b /\ Forall2 erep c2 l2.
Proof.
  intros H. apply Forall2_app_inv_l in H. destruct H as (l1 & l2 & H1 & H2 & ->).
  inversion H2 as [|x b xs l2' Hb H3]; subst. exists l1, b, l2'. auto.
Qed.

Lemma erep_join c1 a c2 l1 b l2 : Forall2 erep c1 l1 -> erep a b -> Forall2 erep c2 l2 ->
  Forall2 erep (c1 ++ a :: c2) (l1 ++ b :: l2).
Proof. intros H1 H2 H3. apply Forall2_app; [exact H1|]. constructor; assumption. Qed.

Lemma first_rep c l k c1 k0 s c2 : Forall2 erep c l -> first_entry keqb c k c1 k0 s c2 ->
  exists l1 vs l2, first_entry keqb l k l1 k0 vs l2 /\ Forall2 erep c1 l1 /\ SR s vs /\
    Forall2 erep c2 l2.
Proof.
  intros HF (-> & Hk & Hn). destruct (erep_split _ _ _ _ HF) as (l1 & (k0' & vs) & l2 & -> & H1 & (E & Hs) & H2).
  cbn [fst snd] in E, Hs. subst k0'. exists l1, vs, l2. split; [|auto].
  split; [reflexivity|]. split; [exact Hk|]. rewrite <- (erep_has c1 l1 k H1). exact Hn.
Qed.

Lemma erep_perm c c' l : Permutation c c' -> Forall2 erep c l ->
  exists l', Permutation l l' /\ Forall2 erep c' l'.
Proof.
  intros Hp. revert l. induction Hp as [|x c c' Hp IH|x y c|c c' c'' H1 IH1 H2 IH2]; intros l HF.
  - inversion HF. exists []. auto.
  - inversion HF as [|a b cs ls Hab Hr]; subst. destruct (IH ls Hr) as (l' & P & F).
    exists (b :: l'). split; [constructor; exact P|constructor; assumption].
  - inversion HF as [|a b cs ls Hab Hr]; subst. inversion Hr as [|a' b' cs' ls' Hab' Hr']; subst.
    exists (b' :: b :: ls'). split; [constructor|repeat constructor; try assumption; apply Hab' || apply Hab].
  - destruct (IH1 l HF) as (l1 & P1 & F1). destruct (IH2 l1 F1) as (l2 & P2 & F2).
    exists l2. split; [transitivity l1; assumption|exact F2].
Qed.

(** Everything that goes through the reference [get(k)]. *)
Lemma mm_focus m l k : MMR m l -> has_entry keqb l k = true ->
  exists l1 k0 vs l2 s, first_entry keqb l k l1 k0 vs l2 /\ m_get keqb m k = Some s /\ SR s vs /\
    forall s' vs', SR s' vs' ->
      exists m', m_get_assign keqb m k s' = Some m' /\ MMR m' (l1 ++ (k0, vs') :: l2).
Proof.
  intros (c & HR & HF) Hh. rewrite <- (erep_has c l k HF) in Hh.
  destruct (km_get keqb kcap Hkc m c k HR Hh) as (c1 & k0 & s & c2 & Hf & E).
  destruct (first_rep c l k c1 k0 s c2 HF Hf) as (l1 & vs & l2 & Hfl & F1 & Hs & F2).
  exists l1, k0, vs, l2, s. split; [exact Hfl|]. split; [exact E|]. split; [exact Hs|].
  intros s' vs' Hs'.
  destruct (km_get_assign keqb kcap Hkc m c k s' HR Hh) as (m' & c1' & k0' & s0 & c2' & E' & Hf' & HR').
  destruct (first_unique keqb c k _ _ _ _ _ _ _ _ Hf Hf') as (<- & <- & _ & <-).
  exists m'. split; [exact E'|]. exists (c1 ++ (k0, s') :: c2). split; [exact HR'|].
  apply erep_join; [exact F1| |exact F2]. split; [reflexivity|exact Hs'].
Qed.

Lemma mm_has m l k : MMR m l -> m_contains keqb m k = Some (has_entry keqb l k).
Proof.
  intros (c & HR & HF). rewrite (km_contains keqb kcap Hkc m c k HR), (erep_has c l k HF). reflexivity.
Qed.

Lemma mm_put m l k s vs : MMR m l -> SR s vs -> has_entry keqb l k = false -> len l < kcap ->
  exists m' b, m_put keqb m k s = Some (m', b) /\ MMR m' (l ++ [(k, vs)]).
Proof.
  intros (c & HR & HF) Hs Hh Hl.
  destruct (km_put keqb kcap Hkc m c k s HR) as (m' & c' & E & HR' & H).
  { right. rewrite (erep_len c l HF). exact Hl. }
  rewrite (erep_has c l k HF), Hh in H. subst c'. exists m'. eexists. split; [exact E|].
  exists (c ++ [(k, s)]). split; [exact HR'|]. apply Forall2_app; [exact HF|].
  constructor; [|constructor]. split; [reflexivity|exact Hs].
Qed.

Lemma mm_erase_first m l k l1 k0 vs l2 : MMR m l -> first_entry keqb l k l1 k0 vs l2 ->
  exists m' l', m_erase keqb m k = Some (m', 1) /\ MMR m' l' /\ Permutation (l1 ++ l2) l'.
Proof.
  intros (c & HR & HF) Hfl.
  assert (Hh : has_entry keqb l k = true).
  { destruct Hfl as (-> & Hk & _). unfold has_entry. rewrite existsb_app. cbn [existsb fst].
    rewrite Hk, orb_true_r. reflexivity. }
  destruct (km_erase keqb kcap Hkc m c k HR) as (m' & c' & E & HR' & H).
  rewrite (erep_has c l k HF), Hh in E, H. destruct H as (c1 & k1 & s & c2 & Hf & Hp).
  destruct (first_rep c l k c1 k1 s c2 HF Hf) as (l1' & vs' & l2' & Hfl' & F1 & Hs & F2).
  destruct (first_unique keqb l k _ _ _ _ _ _ _ _ Hfl Hfl') as (<- & <- & _ & <-).
  destruct (erep_perm (c1 ++ c2) c' (l1 ++ l2) Hp) as (l' & P & F).
  { apply Forall2_app; assumption. }
  exists m', l'. split; [exact E|]. split; [exists c'; auto|exact P].
Qed.

Lemma first_has (l : list (K * list V)) k l1 k0 vs l2 :
  first_entry keqb l k l1 k0 vs l2 -> has_entry keqb l k = true.
Proof.
  intros (-> & Hk & _). unfold has_entry. rewrite existsb_app. cbn [existsb fst].
  rewrite Hk, orb_true_r. reflexivity.
Qed.

Lemma lists_rep c l : Forall2 erep c l -> mm_lists c = Some l.
Proof.
  intros H. induction H as [|[k s] [k' vs] c l [E Hs] _ IH]; [reflexivity|]. cbn [fst snd] in E, Hs. subst k'.
  cbn [mm_lists]. rewrite (s_items_ok vcap Hvc s vs Hs), IH. reflexivity.
Qed.

Lemma kmm_step m l op : MMR m l -> kmm_pre keqb veqb kcap vcap l op ->
  exists m' o l', mm_step keqb veqb vcap dv m op = Done m' o [] /\ kmm_spec keqb veqb l op o l' /\
    MMR m' l'.
Proof.
  intros HS Hp. destruct op as [k v|k|k v|k|k|k v|k sop| | | |]; cbn [kmm_pre kmm_spec] in *; unfold mm_step.
  - unfold mm_insert. rewrite (mm_has m l k HS). destruct (has_entry keqb l k) eqn:Eh.
    + destruct (mm_focus m l k HS Eh) as (l1 & k0 & vs & l2 & s & Hf & Eg & Hs & Hset).
      rewrite Eg. destruct (ks_insert veqb vcap Hvc s vs v Hs (Hp _ _ _ _ Hf)) as (s' & E & Hs').
      rewrite E. destruct (Hset s' _ Hs') as (m' & Em & HS'). rewrite Em. cbn [option_map].
      do 3 eexists. split; [reflexivity|]. split; [|exact HS']. split; [reflexivity|].
      exists l1, k0, vs, l2. auto.
    + destruct Hp as (H1 & H2). destruct (s_make vcap dv [v]) as [s|] eqn:Es.
      2:{ unfold s_make in Es. change (len [v]) with 1 in Es.
          destruct (N.leb_spec 1 vcap); [discriminate|lia]. }
      destruct (mm_put m l k s [v] HS (ks_make vcap dv [v] s Es) Eh H2) as (m' & b & E & HS').
      rewrite E. cbn [option_map fst]. do 3 eexists. split; [reflexivity|]. split; [|exact HS'].
      split; reflexivity.
  - unfold mm_insert_key. rewrite (mm_has m l k HS). destruct (has_entry keqb l k) eqn:Eh.
    + cbn [option_map]. do 3 eexists. split; [reflexivity|]. split; [|exact HS]. split; reflexivity.
    + destruct Hp as [Hp|Hp]; [discriminate|]. unfold empty_set.
      destruct (s_make vcap dv []) as [s|] eqn:Es.
      2:{ unfold s_make in Es. change (len (@nil V)) with 0 in Es.
          destruct (N.leb_spec 0 vcap); [discriminate|lia]. }
      destruct (mm_put m l k s [] HS (ks_make vcap dv [] s Es) Eh Hp) as (m' & b & E & HS').
      rewrite E. cbn [option_map fst]. do 3 eexists. split; [reflexivity|]. split; [|exact HS'].
      split; reflexivity.
  - unfold mm_erase. rewrite (mm_has m l k HS). destruct (has_entry keqb l k) eqn:Eh.
    + destruct (mm_focus m l k HS Eh) as (l1 & k0 & vs & l2 & s & Hf & Eg & Hs & Hset).
      rewrite Eg. destruct (ks_erase veqb vcap Hvc s vs v Hs) as (s' & vs' & E & Hs' & Hv).
      rewrite E. destruct (Hset s' _ Hs') as (m' & Em & HS'). rewrite Em.
      assert (Hout : forall (o : mm_out K V), o = MMNum (if has veqb vs v then 1 else 0) ->
        if has veqb vs v
        then o = MMNum 1 /\ exists w1 x w2, vs = w1 ++ x :: w2 /\ veqb x v = true /\
               has veqb w1 v = false /\ Permutation (w1 ++ w2) vs'
        else o = MMNum 0 /\ vs' = vs).
      { intros o ->. destruct (has veqb vs v); split; auto. }
      assert (Hsz : s_size s' = len vs') by apply Hs'. rewrite Hsz.
      destruct (len vs' =? 0) eqn:Ez.
      * apply len_zero in Ez. subst vs'.
        destruct (mm_erase_first m' _ k l1 k0 [] l2 HS') as (m2 & l' & E2 & HS2 & P).
        { destruct Hf as (_ & Hk & Hn). split; [reflexivity|]. auto. }
        rewrite E2. cbn [option_map]. do 3 eexists. split; [reflexivity|]. split; [|exact HS2].
        exists l1, k0, vs, l2, []. split; [exact Hf|]. split; [apply Hout; reflexivity|].
        split; [congruence|]. intros _. exact P.
      * cbn [option_map]. do 3 eexists. split; [reflexivity|]. split; [|exact HS'].
        exists l1, k0, vs, l2, vs'. split; [exact Hf|]. split; [apply Hout; reflexivity|].
        split; [reflexivity|]. intros ->. discriminate.
    + cbn [option_map]. do 3 eexists. split; [reflexivity|]. split; [|exact HS]. split; reflexivity.
  - destruct (has_entry keqb l k) eqn:Eh.
    + destruct (mm_focus m l k HS Eh) as (l1 & k0 & vs & l2 & s & Hf & _).
      destruct (mm_erase_first m l k l1 k0 vs l2 HS Hf) as (m' & l' & E & HS' & P). rewrite E.
      cbn [option_map]. do 3 eexists. split; [reflexivity|]. split; [|exact HS']. split; [reflexivity|].
      exists l1, k0, vs, l2. auto.
    + pose proof HS as (c & HR & HF).
      destruct (km_erase keqb kcap Hkc m c k HR) as (m' & c' & E & HR' & H).
      rewrite (erep_has c l k HF), Eh in E, H. subst c'. rewrite E. cbn [option_map].
      do 3 eexists. split; [reflexivity|]. split; [split; reflexivity|]. exists c. auto.
  - rewrite (mm_has m l k HS). cbn [option_map]. do 3 eexists. split; [reflexivity|].
    split; [|exact HS]. split; reflexivity.
  - unfold mm_contains2. rewrite (mm_has m l k HS). destruct (has_entry keqb l k) eqn:Eh.
    + destruct (mm_focus m l k HS Eh) as (l1 & k0 & vs & l2 & s & Hf & Eg & Hs & _).
      rewrite Eg, (ks_contains veqb vcap Hvc s vs v Hs). cbn [option_map]. do 3 eexists.
      split; [reflexivity|]. split; [|exact HS]. split; [|reflexivity]. exists l1, k0, vs, l2. auto.
    + cbn [option_map]. do 3 eexists. split; [reflexivity|]. split; [|exact HS]. split; reflexivity.
  - destruct Hp as (Eh & Hp).
    destruct (mm_focus m l k HS Eh) as (l1 & k0 & vs & l2 & s & Hf & Eg & Hs & Hset).
    rewrite Eg. destruct (ks_step veqb vcap Hvc s vs sop Hs (Hp _ _ _ _ Hf)) as (s' & o & vs' & E & Ho & Hs').
    rewrite E. destruct (Hset s' vs' Hs') as (m' & Em & HS'). rewrite Em. cbn [option_map].
    do 3 eexists. split; [reflexivity|]. split; [|exact HS'].
    exists l1, k0, vs, l2, o, vs'. auto.
  - do 3 eexists. split; [reflexivity|]. split; [|exact HS].
    destruct HS as (c & (H1 & H2 & H3) & HF). rewrite H2, (erep_len c l HF). split; reflexivity.
  - do 3 eexists. split; [reflexivity|]. split; [|exact HS]. split; [|reflexivity].
    eexists. split; [reflexivity|]. destruct HS as (c & (H1 & H2 & H3) & HF).
    rewrite H2, (erep_len c l HF). apply len_zero.
  - do 3 eexists. split; [reflexivity|]. split; [split; reflexivity|].
    destruct HS as (c & (H1 & H2 & t & Ht) & HF). exists []. split; [|constructor].
    split; [exact H1|]. split; [reflexivity|]. exists (m_storage m). reflexivity.
  - pose proof HS as (c & HR & HF). unfold mm_items. rewrite (m_items_ok kcap Hkc m c HR), (lists_rep c l HF). cbn [option_map].
    do 3 eexists. split; [reflexivity|]. split; [|exact HS]. split; reflexivity.
Qed.

Lemma kmm_conforms m ops : mm_init kcap vcap dk dv = Some m ->
  conforms (mm_step keqb veqb vcap dv) (kmm_pre keqb veqb kcap vcap) (kmm_spec keqb veqb) m [] ops.
Proof.
  intros Hm. apply (conforms_sim _ _ _ MMR); [apply kmm_step|].
  unfold mm_init in Hm. destruct (empty_set vcap dv) as [es|]; [|discriminate].
  exists []. split; [|constructor]. apply (m_make_rep kcap Hkc (dk, es)). exact Hm.
Qed.
End MM.

(** A key that is not equal to itself, nor to anything. *)
Lemma kset_nan {K} (eqb : K -> K -> bool) cap (Hcap : cap < size_mod) x
  (Hx : forall y, eqb y x = false) n :
  forall s l, SRepL cap s l -> len l + N.of_nat n <= cap ->
  exists s', run (s_step eqb) s (repeat (SInsert x) n) = Done s' (repeat (SBool true) n) [] /\
    SRepL cap s' (l ++ repeat x n).
Proof.
  induction n as [|n IH]; intros s l HR Hl.
  - exists s. cbn [repeat run]. rewrite app_nil_r. auto.
  - cbn [repeat run]. unfold s_step at 1.
    assert (Hh : has eqb l x = false) by (apply existsb_false; intros; apply Hx).
    destruct (ks_insert eqb cap Hcap s l x HR) as (s1 & E & HR1); [right; lia|].
    rewrite Hh in E, HR1. rewrite E. cbn [option_map negb].
    destruct (IH s1 (l ++ [x]) HR1) as (s2 & E2 & HR2).
    { rewrite len_app. change (len [x]) with 1. lia. }
    exists s2. rewrite E2. split; [reflexivity|]. rewrite <- app_assoc in HR2. exact HR2.
Qed.

Lemma kset_nan_run {K} (eqb : K -> K -> bool) cap d x s n :
  cap < size_mod -> (forall y, eqb y x = false) -> s_make cap d [] = Some s ->
  N.of_nat n <= cap ->
  (exists s', run (s_step eqb) s (repeat (SInsert x) n ++ [SContains x; SErase x; SSize])
    = Done s' (repeat (SBool true) n ++ [SBool false; SNum 0; SNum (N.of_nat n)]) []) /\
  (N.of_nat n = cap -> run (s_step eqb) s (repeat (SInsert x) n ++ [SInsert x]) = Undef).
Proof.
  intros Hcap Hx Hm Hn. pose proof (ks_make cap d [] s Hm) as HR.
  destruct (kset_nan eqb cap Hcap x Hx n s [] HR Hn) as (s1 & E & HR1). cbn [app] in HR1.
  assert (Hh : has eqb (repeat x n) x = false) by (apply existsb_false; intros; apply Hx).
  split.
  - rewrite (run_app _ _ _ _ _ _ _ E). cbn [run]. unfold s_step.
    rewrite (ks_contains eqb cap Hcap s1 _ x HR1), Hh. cbn [option_map].
    destruct (ks_erase eqb cap Hcap s1 _ x HR1) as (s2 & l2 & E2 & HR2 & H2).
    rewrite Hh in E2, H2. subst l2. rewrite E2. cbn [option_map].
    assert (Hsz : s_size s2 = N.of_nat n).
    { destruct HR2 as (_ & -> & _). unfold len. rewrite repeat_length. reflexivity. }
    rewrite Hsz. eexists. reflexivity.
  - intros Hc. rewrite (run_app _ _ _ _ _ _ _ E). cbn [run]. unfold s_step, s_insert.
    rewrite (ks_contains eqb cap Hcap s1 _ x HR1), Hh.
    destruct HR1 as (H1 & H2 & _). rewrite wr_ge_None; [reflexivity|].
    rewrite H1, H2. unfold len. rewrite repeat_length. lia.
Qed.

Lemma kmap_nan_get {K V} (eqb : K -> K -> bool) cap (d : K * V) x v s :
  cap < size_mod -> (forall y, eqb y x = false) -> m_make cap d [] = Some s -> 1 <= cap ->
  exists s', run (m_step eqb cap) s [MPut x v; MContains x] = Done s' [MBool true; MBool false] [] /\
    run (m_step eqb cap) s [MPut x v; MGet x] = Undef.
Proof.
  intros Hcap Hx Hm H1. pose proof (m_make_rep cap Hcap d [] s Hm) as HR.
  destruct (km_put eqb cap Hcap s [] x v HR) as (s1 & l1 & E & HR1 & El).
  { right. change (len (@nil (K * V))) with 0. lia. }
  cbn [has_entry existsb negb app] in E, El. subst l1. exists s1.
  assert (Hf : m_find eqb s1 x = Some None).
  { destruct (km_find eqb cap Hcap s1 _ x HR1) as [(a & b & c & e & (_ & Hb & _) & _)|(H & _)]; [|exact H].
    rewrite Hx in Hb. discriminate. }
  cbn [run]. unfold m_step. rewrite E. cbn [option_map]. unfold m_contains, m_get. rewrite Hf.
  split; reflexivity.
Qed.
