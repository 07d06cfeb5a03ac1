From Coq Require Import Permutation.
From Verif Require Import Base BaseLemmas CxSetModel CxSetSpec CxSetProofs CxMapModel CxMapSpec
  CxMapProofs CxMultimapModel CxMultimapSpec.
Open Scope N_scope.

Section P.
Context {K V : Type} (keqb : K -> K -> bool) (Hk : forall x y, keqb x y = true <-> x = y)
  (veqb : V -> V -> bool) (Hv : forall x y, veqb x y = true <-> x = y)
  (kcap : N) (Hkc : kcap < size_mod) (vcap : N) (Hvc : vcap < size_mod) (dk : K) (dv : V).

Definition lift (a : option (cset V)) (b : option (V -> bool)) : Prop :=
  match a, b with
  | Some s, Some t => SRep vcap s t
  | None, None => True
  | _, _ => False
  end.
Definition MMRep (s : mmap) (m : @mm K V) : Prop :=
  exists mid : K -> option (cset V), MRep kcap s mid /\ forall k, lift (mid k) (m k).

Lemma lift_key mid (m : @mm K V) k : lift (mid k) (m k) -> present mid k = has_key m k.
Proof. unfold lift, present, has_key. destruct (mid k), (m k); tauto. Qed.

Lemma opt_set_eq_refl (a : option (V -> bool)) : opt_set_eq a a.
Proof. destruct a; cbn; auto. Qed.

Definition put (m : @mm K V) k o : @mm K V := fun x => if keqb x k then o else m x.

Lemma only_at_put m k o : only_at m (put m k o) k o.
Proof.
  unfold only_at, put. split.
  - rewrite (proj2 (Hk k k) eq_refl). apply opt_set_eq_refl.
  - intros x Hx. destruct (eqb_cases keqb Hk x k) as [[E1 E2]|[E1 E2]]; rewrite E1; [congruence|].
    apply opt_set_eq_refl.
Qed.

Lemma rep_upd s mid m k a b :
  (forall k, lift (mid k) (m k)) -> MRep kcap s (upd keqb mid k a) -> lift a b ->
  MMRep s (put m k b).
Proof.
  intros HL HR Hab. exists (upd keqb mid k a). split; [exact HR|].
  intros x. unfold upd, put. destruct (keqb x k); [exact Hab|apply HL].
Qed.


Lemma keys_count s mid (m : @mm K V) : (forall k, lift (mid k) (m k)) -> MRep kcap s mid ->
  exists n, count mid n /\ keys_are m n /\ m_size s = n.
Proof.
  intros HL (l & (H1 & H2 & H3) & Hn & Hm). exists (len l). split; [|split].
  - exists l. repeat split; auto; apply Hm.
  - exists (map fst l). split; [|unfold len; rewrite map_length; reflexivity].
    split; [exact Hn|]. intros k. rewrite <- (lift_key mid m k (HL k)). unfold present. split.
    + intros H. apply in_map_iff in H. destruct H as ([k' v'] & E & H). cbn in E. subst k'.
      apply Hm in H. rewrite H. reflexivity.
    + destruct (mid k) as [v|] eqn:E; [|discriminate]. intros _. apply Hm in E.
      apply (in_map fst) in E. exact E.
  - exact H2.
Qed.

Lemma keys_are_fun (m : @mm K V) n n' : keys_are m n -> keys_are m n' -> n = n'.
Proof.
  intros (l & H & <-) (l' & H' & <-).
  exact (enumerates_len (has_key m) l l' H H').
Qed.

Lemma room s mid (m : @mm K V) n : (forall k, lift (mid k) (m k)) -> MRep kcap s mid ->
  keys_are m n -> n < kcap -> exists n, count mid n /\ n < kcap.
Proof.
  intros HL HR Hn Hlt. destruct (keys_count s mid m HL HR) as (n' & Hc & Hk' & _).
  rewrite (keys_are_fun m n n' Hn Hk') in Hlt. eauto.
Qed.

Lemma lift_Some mid (m : @mm K V) k t : lift (mid k) (m k) -> m k = Some t ->
  exists s, mid k = Some s /\ SRep vcap s t.
Proof. unfold lift. intros H E. rewrite E in H. destruct (mid k); [eauto|tauto]. Qed.
Lemma lift_None mid (m : @mm K V) k : lift (mid k) (m k) -> m k = None -> mid k = None.
Proof. unfold lift. intros H E. rewrite E in H. destruct (mid k); tauto. Qed.

Lemma make_set_rep ts s : NoDup ts -> s_make vcap dv ts = Some s -> SRep vcap s (in_list veqb ts).
Proof.
  intros Hn E. exists ts. split.
  - eapply s_make_rep; eassumption.
  - split; [exact Hn|]. intros k. symmetry. apply in_list_spec. exact Hv.
Qed.

Lemma empty_set_make : exists es, empty_set vcap dv = Some es /\ SRep vcap es (fun _ => false).
Proof.
  assert (exists es, s_make vcap dv [] = Some es) as (es & E).
  { unfold s_make. change (len (@nil V)) with 0. destruct (N.leb_spec 0 vcap); [eauto|lia]. }
  exists es. split; [exact E|]. apply (make_set_rep [] es); [constructor|exact E].
Qed.

Lemma lists_ok l : forall mid (m : @mm K V), (forall k s, In (k, s) l -> mid k = Some s) -> (forall k, lift (mid k) (m k)) ->
  exists t, mm_lists l = Some t /\ map fst t = map fst l /\ forall k vs, In (k, vs) t -> enumerates (has_value m k) vs.
Proof.
  induction l as [|[k s] l IH]; intros mid m HI HL.
  - exists []. repeat split; contradiction.
  - destruct (IH mid m) as (t & E & Et & Ht); [intros; apply HI; now right|exact HL|].
    pose proof (HI k s (or_introl eq_refl)) as Hs. pose proof (HL k) as L. unfold lift in L. rewrite Hs in L.
    destruct (m k) as [u|] eqn:Em; [|destruct L]. destruct L as (vs & HR & He).
    exists ((k, vs) :: t). cbn [mm_lists]. rewrite (s_items_ok vcap Hvc s vs HR), E. split; [reflexivity|].
    split; [cbn; now rewrite Et|]. intros k' vs' [[= <- <-]|H]; [|now apply Ht].
    unfold enumerates, has_value. rewrite Em. exact He.
Qed.

Lemma mm_step_ok s m op :
  MMRep s m -> mm_pre veqb kcap vcap m op ->
  exists s' o m', mm_step keqb veqb vcap dv s op = Done s' o [] /\
                  mm_spec veqb m op o m' /\ MMRep s' m'.
Proof.
  intros (mid & HR & HL) Hp. assert (HM : MMRep s m) by (exists mid; split; assumption).
  assert (Hsame : forall m : @mm K V, same m m) by (intros m0 x; apply opt_set_eq_refl).
  destruct op as [k v|k|k v|k|k|k v|k sop| | | |]; cbn [mm_pre mm_spec] in *; unfold mm_step.
  - (* insert(k,v) *)
    unfold mm_insert. rewrite (m_contains_ok keqb Hk kcap Hkc s mid k HR).
    rewrite (lift_key mid m k (HL k)). unfold has_key, has_value. destruct (m k) as [t|] eqn:Et.
    + destruct (lift_Some mid m k t (HL k) Et) as (st & Est & HSt).
      rewrite (m_get_ok keqb Hk kcap Hkc s mid k st HR Est).
      destruct (s_insert_ok veqb Hv vcap Hvc st t v HSt Hp) as (st' & E & HSt'). rewrite E.
      destruct (m_get_assign_ok keqb Hk kcap Hkc s mid k st' HR (present_Some _ _ _ Est)) as (s' & E' & HR').
      rewrite E'. do 3 eexists. split; [reflexivity|]. split.
      * split; [reflexivity|apply only_at_put].
      * apply (rep_upd s' mid m k _ _ HL HR'). exact HSt'.
    + destruct Hp as (Hv1 & n & Hn & Hlt).
      assert (exists st, s_make vcap dv [v] = Some st) as (st & Est).
      { unfold s_make. change (len [v]) with 1. destruct (N.leb_spec 1 vcap); [eauto|lia]. }
      rewrite Est.
      destruct (m_put_ok keqb Hk kcap Hkc s mid k st HR) as (s' & E' & HR').
      { right. exact (room s mid m n HL HR Hn Hlt). }
      rewrite E'. cbn [option_map fst]. do 3 eexists. split; [reflexivity|]. split.
      * split; [reflexivity|apply only_at_put].
      * apply (rep_upd s' mid m k (Some st) _ HL HR'). cbn [lift].
        apply (SRep_ext vcap st (in_list veqb [v])).
        -- intros x. cbn. apply orb_false_r.
        -- apply (make_set_rep [v] st); [|exact Est]. repeat constructor; cbn; tauto.
  - (* insert(k) *)
    unfold mm_insert_key. rewrite (m_contains_ok keqb Hk kcap Hkc s mid k HR).
    rewrite (lift_key mid m k (HL k)). unfold has_key in *. unfold has_value.
    destruct (m k) as [t|] eqn:Et.
    + exists s, MMUnit, m. split; [reflexivity|]. split; [|exact HM]. split; [reflexivity|].
      split; [|intros; apply opt_set_eq_refl]. rewrite Et. cbn. reflexivity.
    + destruct Hp as [Hp|(n & Hn & Hlt)]; [discriminate|].
      destruct empty_set_make as (es & Ees & HSe). rewrite Ees.
      destruct (m_put_ok keqb Hk kcap Hkc s mid k es HR) as (s' & E' & HR').
      { right. exact (room s mid m n HL HR Hn Hlt). }
      rewrite E'. cbn [option_map fst]. do 3 eexists. split; [reflexivity|]. split.
      * split; [reflexivity|apply only_at_put].
      * apply (rep_upd s' mid m k (Some es) _ HL HR'). exact HSe.
  - (* erase(k,v) *)
    unfold mm_erase. rewrite (m_contains_ok keqb Hk kcap Hkc s mid k HR).
    rewrite (lift_key mid m k (HL k)). unfold has_key, has_value. destruct (m k) as [t|] eqn:Et.
    + destruct (lift_Some mid m k t (HL k) Et) as (st & Est & HSt).
      rewrite (m_get_ok keqb Hk kcap Hkc s mid k st HR Est).
      destruct (s_erase_ok veqb Hv vcap Hvc st t v HSt) as (st' & E & HSt'). rewrite E.
      destruct (m_get_assign_ok keqb Hk kcap Hkc s mid k st' HR (present_Some _ _ _ Est)) as (s' & E' & HR').
      rewrite E'. pose proof HSt' as HSt0. destruct HSt' as (l & (Hl1 & Hl2 & Hl3) & Hln & Hlm).
      assert (Hother : forall x, x <> v -> (In x l <-> t x = true)).
      { intros x Hx. rewrite Hlm. destruct (eqb_cases veqb Hv x v) as [[E1 E2]|[E1 E2]]; [congruence|].
        rewrite E1. cbn. rewrite andb_true_r. tauto. }
      assert (Hself : ~ In v l).
      { rewrite Hlm, (proj2 (Hv v v) eq_refl). cbn. rewrite andb_false_r. discriminate. }
      destruct (N.eqb_spec (s_size st') 0) as [Hz|Hz].
      * assert (l = []) as -> by (destruct l; [reflexivity|rewrite Hl2, len_cons in Hz; lia]).
        destruct (m_erase_ok keqb Hk kcap Hkc s' _ k HR') as (s2 & E2 & HR2). rewrite E2.
        cbn [option_map]. exists s2. eexists. exists (put m k None). split; [reflexivity|]. split.
        -- split; [reflexivity|]. split.
           ++ intros (x & Hx & Htx). apply (Hother x Hx) in Htx. destruct Htx.
           ++ intros _. apply only_at_put.
        -- exists (upd keqb mid k None). split.
           ++ revert HR2. apply MRep_ext. intros x. unfold upd. destruct (keqb x k); reflexivity.
           ++ intros x. unfold upd, put. destruct (keqb x k); [exact I|apply HL].
      * exists s'. eexists. eexists. split; [reflexivity|]. split.
        -- split; [reflexivity|]. split.
           ++ intros _. apply only_at_put.
           ++ intros Hall. exfalso. destruct l as [|x l]; [rewrite Hl2 in Hz; apply Hz; reflexivity|].
              destruct (eqb_cases veqb Hv x v) as [[E1 E2]|[E1 E2]].
              ** subst x. apply Hself. left. reflexivity.
              ** assert (t x = true) by (apply (Hother x E2); left; reflexivity).
                 rewrite (Hall x E2) in H. discriminate.
        -- apply (rep_upd s' mid m k (Some st') _ HL HR'). exact HSt0.
    + exists s. eexists. exists m. split; [reflexivity|]. split; [|exact HM].
      split; [reflexivity|]. split.
      * intros (x & _ & H). discriminate.
      * intros _. split; [rewrite Et; exact I|intros; apply opt_set_eq_refl].
  - (* erase(k) *)
    destruct (m_erase_ok keqb Hk kcap Hkc s mid k HR) as (s' & E & HR'). rewrite E.
    rewrite (lift_key mid m k (HL k)). cbn [option_map].
    do 2 eexists. exists (put m k None). split; [reflexivity|]. split.
    + split; [reflexivity|apply only_at_put].
    + exact (rep_upd s' mid m k None None HL HR' I).
  - rewrite (m_contains_ok keqb Hk kcap Hkc s mid k HR), (lift_key mid m k (HL k)).
    exists s. eexists. exists m. split; [reflexivity|]. split; [|exact HM]. split; [reflexivity|apply Hsame].
  - unfold mm_contains2. rewrite (m_contains_ok keqb Hk kcap Hkc s mid k HR), (lift_key mid m k (HL k)).
    unfold has_key, has_value. destruct (m k) as [t|] eqn:Et.
    + destruct (lift_Some mid m k t (HL k) Et) as (st & Est & HSt).
      rewrite (m_get_ok keqb Hk kcap Hkc s mid k st HR Est).
      rewrite (s_contains_ok veqb Hv vcap Hvc st t v HSt).
      exists s. eexists. exists m. split; [reflexivity|]. split; [|exact HM]. split; [reflexivity|apply Hsame].
    + exists s. eexists. exists m. split; [reflexivity|]. split; [|exact HM]. split; [reflexivity|apply Hsame].
  - destruct Hp as (t & Et & Hp).
    destruct (lift_Some mid m k t (HL k) Et) as (st & Est & HSt).
    rewrite (m_get_ok keqb Hk kcap Hkc s mid k st HR Est).
    destruct (s_step_ok veqb Hv vcap Hvc st t sop HSt Hp) as (st' & so & t' & E & Hs & HSt'). rewrite E.
    destruct (m_get_assign_ok keqb Hk kcap Hkc s mid k st' HR (present_Some _ _ _ Est)) as (s' & E' & HR').
    rewrite E'. cbn [option_map]. do 2 eexists. exists (put m k (Some t')). split; [reflexivity|]. split.
    + exists t, so, t'. repeat split; auto; try apply only_at_put.
    + exact (rep_upd s' mid m k (Some st') (Some t') HL HR' HSt').
  - destruct (keys_count s mid m HL HR) as (n & _ & Hn & Es).
    exists s. eexists. exists m. split; [reflexivity|]. split; [|exact HM]. split; [|apply Hsame].
    exists n. split; [exact Hn|congruence].
  - exists s. eexists. exists m. split; [reflexivity|]. split; [|exact HM]. split; [|apply Hsame].
    eexists. split; [reflexivity|]. destruct HR as (l & (H1 & H2 & H3) & Hn & Hm). rewrite H2.
    destruct l as [|[k0 v0] l].
    + split; [|reflexivity]. intros _ k. specialize (HL k). destruct (m k) eqn:E; [|reflexivity].
      unfold lift in HL. destruct (mid k) eqn:E'; [|tauto]. apply Hm in E'. destruct E'.
    + rewrite len_cons. split; [intros E; apply N.eqb_eq in E; lia|]. intros H.
      assert (E : mid k0 = Some v0) by (apply Hm; left; reflexivity).
      specialize (HL k0). rewrite E, H in HL. destruct HL.
  - exists (m_clear s), MMUnit, (fun _ => None). split; [reflexivity|]. split; [split; reflexivity|].
    exists (fun _ => None). split; [|intros; exact I].
    destruct HR as (l & (H1 & H2 & t & Ht) & _). exists []. split.
    + split; [exact H1|]. split; [reflexivity|]. exists (m_storage s). reflexivity.
    + split; [constructor|]. intros k v. cbn. split; [tauto|discriminate].
  - pose proof HR as (l & HRl & Hn & Hm).
    destruct (lists_ok l mid m (fun k s0 H => proj1 (Hm k s0) H) HL) as (t & E & Et & Ht).
    unfold mm_items. rewrite (m_items_ok kcap Hkc s l HRl), E. cbn [option_map]. do 2 eexists. exists m. split; [reflexivity|]. split; [|exact HM].
    split; [|apply Hsame]. exists t. split; [reflexivity|]. split; [|exact Ht]. rewrite Et. split; [exact Hn|].
    intros k. rewrite <- (lift_key mid m k (HL k)). unfold present. split.
    + intros H. apply in_map_iff in H. destruct H as ([k' v'] & Ek & H). cbn in Ek. subst k'. apply Hm in H. now rewrite H.
    + destruct (mid k) as [v|] eqn:Ek; [|discriminate]. intros _. apply Hm in Ek. apply (in_map fst) in Ek. exact Ek.
Qed.

Lemma cx_multimap_conforms s ops :
  mm_init kcap vcap dk dv = Some s ->
  conforms (mm_step keqb veqb vcap dv) (mm_pre veqb kcap vcap) (mm_spec veqb) s (fun _ => None) ops.
Proof.
  intros Hs. apply (conforms_sim _ _ _ MMRep).
  - intros; apply mm_step_ok; assumption.
  - unfold mm_init in Hs. destruct (empty_set vcap dv) as [es|]; [|discriminate].
    exists (fun _ => None). split; [|intros; exact I]. exists []. split.
    + eapply m_make_rep; eassumption.
    + split; [constructor|]. intros k v. cbn. split; [tauto|discriminate].
Qed.

Lemma cx_multimap_erase_zero s k v : 0 < kcap -> mm_init kcap vcap dk dv = Some s ->
  exists s', run (mm_step keqb veqb vcap dv) s [MMInsertKey k; MMContains k; MMErase k v; MMContains k]
  = Done s' [MMUnit; MMBool true; MMNum 0; MMBool false] [].
Proof.
  intros Hpos Hs. pose proof (cx_multimap_conforms s [MMInsertKey k; MMContains k; MMErase k v; MMContains k] Hs) as H.
  cbn [conforms] in H. destruct H as (s1 & o1 & m1 & E1 & S1 & H).
  { right. exists 0. split; [|exact Hpos]. exists []. split; [|reflexivity].
    split; [constructor|]. intros x. cbn. split; [intros []|discriminate]. }
  destruct S1 as (-> & A1 & _). unfold has_value in A1.
  destruct H as (s2 & o2 & m2 & E2 & S2 & H); [exact I|]. destruct S2 as (-> & A2).
  destruct H as (s3 & o3 & m3 & E3 & S3 & H); [exact I|]. destruct S3 as (-> & _ & A3).
  destruct H as (s4 & o4 & m4 & E4 & S4 & _); [exact I|]. destruct S4 as (-> & _).
  pose proof (A2 k) as A2k. unfold has_key in *. unfold opt_set_eq in *.
  destruct (m1 k) as [t1|] eqn:M1; [|destruct A1].
  destruct (m2 k) as [t2|] eqn:M2; [|destruct A2k].
  assert (Z : forall x, has_value m2 k x = false).
  { intros x. unfold has_value. rewrite M2, A2k. apply A1. }
  destruct (A3 (fun x _ => Z x)) as [A4 _].
  destruct (m3 k) as [t3|] eqn:M3; [destruct A4|].
  exists s4. cbn [run]. rewrite E1, E2, E3, E4, Z. reflexivity.
Qed.
End P.
