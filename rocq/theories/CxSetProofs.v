From Coq Require Import Permutation.
From Verif Require Import Base BaseLemmas CxSetModel CxSetSpec.
Open Scope N_scope.

Lemma find_idx_Some {A} (p : A -> bool) l i :
  find_idx p l = Some i ->
  exists l1 x l2, l = l1 ++ x :: l2 /\ length l1 = i /\ p x = true /\ forall y, In y l1 -> p y = false.
Proof.
  revert i. induction l as [|a l IH]; cbn; intros i; [discriminate|].
  destruct (p a) eqn:E.
  - intros H; injection H as <-. exists [], a, l. cbn. repeat split; auto; tauto.
  - destruct (find_idx p l) as [j|]; [|discriminate]. cbn. intros H; injection H as <-.
    destruct (IH j eq_refl) as (l1 & x & l2 & -> & <- & Hx & Hn).
    exists (a :: l1), x, l2. cbn. repeat split; auto. intros y [<-|Hy]; auto.
Qed.

Lemma find_idx_None {A} (p : A -> bool) l :
  find_idx p l = None -> forall y, In y l -> p y = false.
Proof.
  induction l as [|a l IH]; cbn; intros H y; [tauto|].
  destruct (p a) eqn:E; [discriminate|].
  destruct (find_idx p l); [discriminate|]. intros [<-|Hy]; auto.
Qed.

(** "overwrite position i with the last element and drop the last" removes exactly
    element i. *)
Lemma swap_remove {A} (l1 : list A) x l2 t :
  exists y l' z,
    rd ((l1 ++ x :: l2) ++ t) (len l1 + len l2) = Some y /\
    wr ((l1 ++ x :: l2) ++ t) (len l1) y = Some (l' ++ z :: t) /\
    len l' = len l1 + len l2 /\ Permutation (x :: l') (l1 ++ x :: l2).
Proof.
  destruct l2 as [|b l2 _] using rev_ind.
  - exists x, l1, x. rewrite <- app_assoc. cbn [app].
    change (len (@nil A)) with 0. rewrite N.add_0_r. rewrite rd_len, wr_app_len.
    repeat split; auto. apply Permutation_cons_append.
  - exists b, (l1 ++ b :: l2), b.
    assert (E : (l1 ++ x :: l2 ++ [b]) ++ t = (l1 ++ x :: l2) ++ b :: t)
      by (rewrite <- !app_assoc; cbn [app]; rewrite <- app_assoc; reflexivity).
    rewrite E. split; [|split; [|split]].
    + replace (len l1 + len (l2 ++ [b])) with (len (l1 ++ x :: l2))
        by (rewrite !len_app, !len_cons; change (len (@nil A)) with 0; lia).
      apply rd_len.
    + rewrite <- !app_assoc. cbn [app]. rewrite wr_app_len. reflexivity.
    + rewrite !len_app, !len_cons. change (len (@nil A)) with 0. lia.
    + transitivity (x :: l1 ++ l2 ++ [b]).
      * constructor. apply Permutation_app_head. apply Permutation_cons_append.
      * apply (Permutation_middle l1 (l2 ++ [b]) x).
Qed.

Lemma snoc_cases {A} (l : list A) : l = [] \/ exists r x, l = r ++ [x].
Proof. destruct l using rev_ind; [left; reflexivity|right; eauto]. Qed.

Section P.
Context {K : Type} (eqb : K -> K -> bool) (Heq : forall x y, eqb x y = true <-> x = y) (cap : N)
  (Hcap : cap < size_mod).

Lemma eqb_r x : eqb x x = true.
Proof. apply Heq. reflexivity. Qed.

Lemma eqb_cases x y : (eqb x y = true /\ x = y) \/ (eqb x y = false /\ x <> y).
Proof.
  destruct (eqb x y) eqn:E; [left|right]; split; auto.
  - apply Heq; exact E.
  - intros H. apply Heq in H. congruence.
Qed.

Definition SRepL (s : cset K) (l : list K) : Prop :=
  len (s_storage s) = cap /\ s_size s = len l /\ exists t, s_storage s = l ++ t.

Definition SRep (s : cset K) (m : K -> bool) : Prop :=
  exists l, SRepL s l /\ enumerates m l.

Lemma SRepL_le s l : SRepL s l -> len l <= cap.
Proof. intros (H & _ & t & E). rewrite <- H, E, len_app. lia. Qed.

Lemma s_items_ok s l : SRepL s l -> s_items s = Some l.
Proof.
  intros HR. pose proof (SRepL_le s l HR) as Hle. destruct HR as (H1 & H2 & t & Ht).
  unfold s_items. rewrite H2, H1. destruct (N.leb_spec (len l) cap); [|lia].
  rewrite len_to_nat, Ht, firstn_app_len. reflexivity.
Qed.

Lemma find_in l k :
  match find_idx (fun x => eqb x k) l with
  | Some i => exists l1 l2, l = l1 ++ k :: l2 /\ length l1 = i
  | None => ~ In k l
  end.
Proof.
  destruct (find_idx (fun x => eqb x k) l) as [i|] eqn:E.
  - destruct (find_idx_Some _ _ _ E) as (l1 & x & l2 & -> & Hl & Hx & _).
    apply Heq in Hx. subst x. eauto.
  - intros Hin. pose proof (find_idx_None _ _ E k Hin) as H. cbn in H. rewrite eqb_r in H. discriminate.
Qed.

Lemma s_contains_ok s m k : SRep s m -> s_contains eqb s k = Some (m k).
Proof.
  intros (l & HR & Hn & Hm). unfold s_contains. rewrite (s_items_ok s l HR).
  pose proof (find_in l k) as Hf. destruct (find_idx _ l).
  - destruct Hf as (l1 & l2 & -> & _). f_equal. symmetry. apply Hm.
    apply in_or_app. right. left. reflexivity.
  - f_equal. destruct (m k) eqn:E; [|reflexivity]. apply Hm in E. tauto.
Qed.

Lemma enumerates_len (m : K -> bool) l l' : enumerates m l -> enumerates m l' -> len l = len l'.
Proof.
  intros (N1 & E1) (N2 & E2). unfold len. f_equal. apply Nat.le_antisymm;
  apply NoDup_incl_length; auto; intros x Hx; [apply E2, E1|apply E1, E2]; exact Hx.
Qed.

Lemma s_insert_ok s m k :
  SRep s m -> (m k = true \/ exists n, card m n /\ n < cap) ->
  exists s' , s_insert eqb s k = Some (s', negb (m k)) /\ SRep s' (fun x => m x || eqb x k).
Proof.
  intros HS Hp. unfold s_insert. rewrite (s_contains_ok s m k HS).
  destruct HS as (l & HR & Hn & Hm). destruct (m k) eqn:Ek.
  - exists s. split; [reflexivity|]. exists l. split; [exact HR|]. split; [exact Hn|].
    intros x. rewrite Hm. destruct (eqb_cases x k) as [[E1 E2]|[E1 E2]]; rewrite E1.
    + subst x. rewrite Ek. tauto.
    + rewrite orb_false_r. tauto.
  - destruct Hp as [Hp|(n & (l' & He & Hl') & Hlt)]; [discriminate|].
    assert (Hln : len l = n) by (rewrite <- Hl'; apply (enumerates_len m); [split|]; assumption).
    destruct HR as (H1 & H2 & t & Ht).
    destruct t as [|y t]; [rewrite app_nil_r in Ht; rewrite Ht in H1; lia|].
    rewrite H2, Ht, wr_app_len. eexists. split; [reflexivity|].
    exists (l ++ [k]). split; [|split].
    + split; [|split]; cbn [s_storage s_size].
      * rewrite <- H1, Ht, !len_app, !len_cons. reflexivity.
      * rewrite sz_inc_small by lia. rewrite len_app. reflexivity.
      * exists t. rewrite <- app_assoc. reflexivity.
    + idtac.
      apply (Permutation_NoDup (Permutation_cons_append l k)). constructor; [|exact Hn].
      rewrite Hm, Ek. discriminate.
    + intros x. rewrite in_app_iff, Hm. cbn [In].
      destruct (eqb_cases x k) as [[E1 E2]|[E1 E2]]; rewrite E1.
      * rewrite orb_true_r. split; auto.
      * rewrite orb_false_r. split; [intros [H|[H|[]]]; congruence|auto].
Qed.

Lemma s_erase_ok s m k :
  SRep s m ->
  exists s', s_erase eqb s k = Some (s', if m k then 1 else 0) /\
             SRep s' (fun x => m x && negb (eqb x k)).
Proof.
  intros (l & HR & Hn & Hm). unfold s_erase. rewrite (s_items_ok s l HR).
  pose proof (SRepL_le s l HR) as Hle.
  pose proof (find_in l k) as Hf. destruct (find_idx _ l) as [i|].
  - destruct Hf as (l1 & l2 & El & <-). destruct HR as (H1 & H2 & t & Ht).
    destruct (swap_remove l1 k l2 t) as (y & l' & z & Ey & Ew & El' & Hp).
    assert (Hlen : len l = len l1 + len l2 + 1) by (rewrite El, len_app, len_cons; lia).
    rewrite H2, sz_dec_pos by lia. replace (len l - 1) with (len l1 + len l2) by lia.
    rewrite Ht, El, Ey. change (N.of_nat (length l1)) with (len l1). rewrite Ew.
    assert (Ek : m k = true) by (apply Hm; rewrite El; apply in_or_app; right; left; reflexivity).
    rewrite Ek. eexists. split; [reflexivity|]. rewrite <- El in Hp.
    assert (Hn' : NoDup (k :: l')) by (apply (Permutation_NoDup (Permutation_sym Hp)); exact Hn).
    inversion Hn' as [|kk ll Hni Hnd]; subst kk ll. exists l'. split; [|split].
    + split; [|split]; cbn [s_storage s_size].
      * rewrite <- H1, Ht, !len_app, len_cons. lia.
      * lia.
      * exists (z :: t). reflexivity.
    + assumption.
    + intros x. assert (Hx : In x (k :: l') <-> In x l) by
        (split; apply Permutation_in; [exact Hp|apply Permutation_sym; exact Hp]).
      rewrite Hm in Hx. cbn [In] in Hx.
      destruct (eqb_cases x k) as [[E1 E2]|[E1 E2]]; rewrite E1; cbn [negb].
      * subst x. rewrite andb_false_r. split; [tauto|discriminate].
      * rewrite andb_true_r. rewrite <- Hx. split; [auto|]. intros [H|H]; congruence.
  - assert (Ek : m k = false) by (destruct (m k) eqn:E; auto; apply Hm in E; tauto).
    rewrite Ek. exists s. split; [reflexivity|]. exists l. split; [exact HR|]. split; [exact Hn|].
    intros x. rewrite Hm. destruct (eqb_cases x k) as [[E1 E2]|[E1 E2]]; rewrite E1; cbn [negb].
    + subst x. rewrite Ek. cbn. tauto.
    + rewrite andb_true_r. tauto.
Qed.

Lemma in_list_spec l k : in_list eqb l k = true <-> In k l.
Proof.
  unfold in_list. rewrite existsb_exists. split.
  - intros (x & Hx & E). apply Heq in E. subst. exact Hx.
  - intros H. exists k. split; [exact H|apply eqb_r].
Qed.

Lemma SRep_ext s m m' : (forall x, m x = m' x) -> SRep s m -> SRep s m'.
Proof.
  intros E (l & HR & Hn & Hm). exists l. split; [exact HR|]. split; [exact Hn|].
  intros x. rewrite <- E. apply Hm.
Qed.

Lemma s_merge_ok l : forall s m,
  SRep s m -> (exists n, card (fun k => m k || in_list eqb l k) n /\ n <= cap) ->
  exists s', s_merge eqb s l = Some s' /\ SRep s' (fun k => m k || in_list eqb l k).
Proof.
  induction l as [|x l IH]; intros s m HS Hp; cbn [s_merge].
  - exists s. split; [reflexivity|]. revert HS. apply SRep_ext. intros k. cbn. now rewrite orb_false_r.
  - destruct Hp as (n & (u & (Hu1 & Hu2) & Hul) & Hn).
    destruct (s_insert_ok s m x HS) as (s1 & E1 & HS1).
    { destruct (m x) eqn:Ex; [left; reflexivity|right].
      destruct HS as (l0 & HR & Hn0 & Hm0). exists (len l0). split.
      - exists l0. split; [split; assumption|reflexivity].
      - assert (Hincl : incl (x :: l0) u).
        { intros y [<-|Hy]; apply Hu2.
          - apply orb_true_iff. right. apply in_list_spec. left. reflexivity.
          - apply Hm0 in Hy. rewrite Hy. reflexivity. }
        assert (Hnd : NoDup (x :: l0)) by (constructor; [rewrite Hm0, Ex; discriminate|exact Hn0]).
        pose proof (NoDup_incl_length Hnd Hincl) as Hlen. cbn [length] in Hlen. unfold len in *. lia. }
    rewrite E1. destruct (IH s1 _ HS1) as (s2 & E2 & HS2).
    { exists n. split; [|exact Hn]. exists u. split; [|exact Hul]. split; [exact Hu1|].
      intros k. rewrite Hu2. unfold in_list. cbn [existsb].
      destruct (m k), (eqb k x); cbn; tauto. }
    exists s2. split; [exact E2|]. revert HS2. apply SRep_ext. intros k.
    unfold in_list. cbn [existsb]. destruct (m k), (eqb k x); reflexivity.
Qed.

Lemma s_pop_ok s m : SRep s m -> (exists k, m k = true) ->
  exists s' k, s_pop_back s = Some (s', k) /\ m k = true /\ SRep s' (fun x => m x && negb (eqb x k)).
Proof.
  intros (l & HR & Hn & Hm) (k0 & Hk0).
  pose proof (SRepL_le s l HR) as Hle.
  destruct (snoc_cases l) as [->|(r & k & ->)]; [apply Hm in Hk0; destruct Hk0|].
  destruct HR as (H1 & H2 & t & Ht).
  assert (Hlen : len (r ++ [k]) = len r + 1) by (rewrite len_app; reflexivity).
  unfold s_pop_back. rewrite H2, Hlen in *. rewrite sz_dec_pos by lia.
  replace (len r + 1 - 1) with (len r) by lia.
  assert (Ht' : s_storage s = r ++ k :: t) by (rewrite Ht, <- app_assoc; reflexivity).
  rewrite Ht', rd_len. cbn [option_map]. do 2 eexists. split; [reflexivity|].
  split; [apply Hm; apply in_or_app; right; left; reflexivity|].
  assert (Hn' : NoDup (k :: r)) by
    (apply (Permutation_NoDup (Permutation_sym (Permutation_cons_append r k))); exact Hn).
  inversion Hn' as [|kk ll Hni Hnd]; subst kk ll. exists r. split; [|split].
  - split; [|split]; cbn [s_storage s_size].
    + rewrite <- Ht'. exact H1.
    + reflexivity.
    + eauto.
  - assumption.
  - intros x. specialize (Hm x). rewrite in_app_iff in Hm. cbn [In] in Hm.
    destruct (eqb_cases x k) as [[E1 E2]|[E1 E2]]; rewrite E1; cbn [negb].
    + subst x. rewrite andb_false_r. split; [tauto|discriminate].
    + rewrite andb_true_r, <- Hm. split; [auto|]. intros [H|[H|[]]]; congruence.
Qed.

Lemma s_step_ok s m op :
  SRep s m -> set_pre eqb cap m op ->
  exists s' o m', s_step eqb s op = Done s' o [] /\ set_spec eqb m op o m' /\ SRep s' m'.
Proof.
  intros HS Hp. destruct op as [k|k|l| | |k| | |]; cbn [set_pre set_spec] in *; unfold s_step.
  - destruct (s_insert_ok s m k HS Hp) as (s' & E & HS'). rewrite E. cbn [option_map].
    do 3 eexists. split; [reflexivity|]. split; [|exact HS']. split; [reflexivity|reflexivity].
  - destruct (s_erase_ok s m k HS) as (s' & E & HS'). rewrite E. cbn [option_map].
    do 3 eexists. split; [reflexivity|]. split; [|exact HS']. split; reflexivity.
  - destruct (s_merge_ok l s m HS Hp) as (s' & E & HS'). rewrite E. cbn [option_map].
    do 3 eexists. split; [reflexivity|]. split; [|exact HS']. split; reflexivity.
  - destruct (s_pop_ok s m HS Hp) as (s' & k & E & Hk & HS'). rewrite E. cbn [option_map].
    do 3 eexists. split; [reflexivity|]. split; [|exact HS']. exists k. split; [exact Hk|]. split; reflexivity.
  - do 3 eexists. split; [reflexivity|]. split; [split; reflexivity|].
    destruct HS as (l & (H1 & H2 & t & Ht) & _). exists []. split.
    + split; [exact H1|]. split; [reflexivity|]. exists (s_storage s). reflexivity.
    + split; [constructor|]. intros x. cbn. split; [tauto|discriminate].
  - rewrite (s_contains_ok s m k HS). do 3 eexists. split; [reflexivity|].
    split; [|exact HS]. split; reflexivity.
  - do 3 eexists. split; [reflexivity|]. split; [|exact HS]. split; [|reflexivity].
    destruct HS as (l & (H1 & H2 & H3) & He). exists (s_size s). split; [|reflexivity].
    exists l. split; [exact He|symmetry; exact H2].
  - do 3 eexists. split; [reflexivity|]. split; [|exact HS]. split; [|reflexivity].
    eexists. split; [reflexivity|].
    destruct HS as (l & (H1 & H2 & H3) & Hn & Hm). rewrite H2. destruct l as [|x l].
    + split; [|reflexivity]. intros _ x. destruct (m x) eqn:E; [|reflexivity]. apply Hm in E. destruct E.
    + rewrite len_cons. split; [intros E; apply N.eqb_eq in E; lia|].
      intros H. assert (E : m x = true) by (apply Hm; left; reflexivity). rewrite H in E. discriminate.
  - pose proof HS as HS0. destruct HS as (l & HR & He). rewrite (s_items_ok s l HR).
    do 3 eexists. split; [reflexivity|]. split; [|exact HS0]. split; [|reflexivity].
    exists l. split; [reflexivity|exact He].
Qed.

Lemma s_make_rep d ts s : s_make cap d ts = Some s -> SRepL s ts.
Proof.
  unfold s_make. destruct (N.leb_spec (len ts) cap) as [H|]; [|discriminate].
  intros E; injection E as <-. split; [|split]; cbn [s_storage s_size].
  - rewrite len_app, len_repeat. lia.
  - reflexivity.
  - eauto.
Qed.

Lemma cx_set_conforms d ts s ops :
  NoDup ts -> s_make cap d ts = Some s ->
  conforms (s_step eqb) (set_pre eqb cap) (set_spec eqb) s (in_list eqb ts) ops.
Proof.
  intros Hn Hm. apply (conforms_sim _ _ _ SRep).
  - intros; apply s_step_ok; assumption.
  - exists ts. split; [apply (s_make_rep d); exact Hm|]. split; [exact Hn|].
    intros k. symmetry. apply in_list_spec.
Qed.
End P.

Lemma cx_set_dup_refuted {K} (eqb : K -> K -> bool) (Heq : forall x y, eqb x y = true <-> x = y)
  d k cap : 2 <= cap -> cap < size_mod ->
  exists s s1, s_make cap d [k; k] = Some s /\
    run (s_step eqb) s [SSize; SErase k; SContains k] = Done s1 [SNum 2; SNum 1; SBool true] [].
Proof.
  intros H2 Hc. unfold s_make. change (len [k; k]) with 2.
  destruct (N.leb_spec 2 cap); [|lia]. do 2 eexists. split; [reflexivity|].
  set (t := repeat d (N.to_nat (cap - 2))).
  assert (Hkk : eqb k k = true) by (apply Heq; reflexivity).
  cbn [run s_step s_size s_storage]. unfold s_erase, s_items, s_contains. cbn [s_size s_storage app].
  rewrite !len_cons.
  destruct (N.leb_spec 2 (len t + 1 + 1)); [|lia].
  change (N.to_nat 2) with 2%nat. cbn [firstn find_idx]. rewrite Hkk.
  rewrite sz_dec_pos by lia. change (2 - 1) with 1.
  change (rd (k :: k :: t) 1) with (rd ([k] ++ k :: t) (len [k])). rewrite rd_len. change (N.of_nat 0) with 0.
  unfold wr. rewrite !len_cons. destruct (N.ltb_spec 0 (len t + 1 + 1)); [|lia].
  cbn [N.to_nat set_nth]. cbn [option_map run s_step]. unfold s_contains, s_items.
  cbn [s_size s_storage]. rewrite !len_cons.
  destruct (N.leb_spec 1 (len t + 1 + 1)); [|lia].
  change (N.to_nat 1) with 1%nat. cbn [firstn find_idx]. rewrite Hkk. reflexivity.
Qed.
