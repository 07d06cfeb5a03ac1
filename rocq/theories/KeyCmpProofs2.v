From Verif Require Import Base BaseLemmas CxSetModel CxMapModel CxMultimapModel KeyCmpModel KeyCmpSpec KeyCmpProofs.

Section P.
Context {E : Type}.

Lemma wr_same {A} (l : list A) i x : rd l i = Some x -> wr l i x = Some l.
Proof.
  intros H. pose proof (rd_Some_lt _ _ _ H) as L. destruct (wr_lt_Some l i x L) as (l' & H').
  rewrite H'. f_equal. apply rd_ext; [apply (wr_len _ _ _ _ H')|]. intros j _.
  rewrite (rd_wr _ _ _ _ j H'). destruct (N.eqb_spec j i); [subst; auto|reflexivity].
Qed.

Section Multimap_.
Context {K V : Type} (kev : K -> K -> E) (vev : V -> V -> E) (kf : K -> K -> bool) (vf : V -> V -> bool).
Context (vcap : N) (dv : V).
Notation mm := (cmap K (cset V)).

Lemma on_set_agrees {A} i (c : call E (cset V) A) (m : mm) tr (g : cset V -> option (cset V * A)) :
  (forall s, agrees (c s tr) tr (g s)) ->
  agrees (on_set i c m tr) tr
    (match rd (m_storage m) (N.of_nat i) with
     | Some (k, s) =>
         match g s with
         | Some (s', a) => option_map (fun m' => (m', a)) (m_set_at m i s')
         | None => None
         end
     | None => None
     end).
Proof.
  intros H. unfold on_set. destruct (rd (m_storage m) (N.of_nat i)) as [[k s]|] eqn:R.
  2:{ exists []. rewrite app_nil_r. eauto. }
  destruct (H s) as (t & Ht). destruct (g s) as [[s' a]|].
  - rewrite Ht. unfold m_set_at. rewrite R. destruct (wr (m_storage m) (N.of_nat i) (k, s')); cbn.
    + exists t. reflexivity.
    + exists []. rewrite app_nil_r. eauto.
  - destruct Ht as (s' & ->). destruct (wr (m_storage m) (N.of_nat i) (k, s')).
    + exists t. eauto.
    + exists []. rewrite app_nil_r. eauto.
Qed.

Lemma contains_position (m : mm) k : m_contains kf m k = Some true ->
  exists i, m_find kf m k = Some (Some i).
Proof. unfold m_contains. destruct (m_find kf m k) as [[i|]|]; cbn; try discriminate. eauto. Qed.

Lemma m_set_at_rd (m m' : mm) i s : m_set_at m i s = Some m' ->
  option_map snd (rd (m_storage m') (N.of_nat i)) = Some s.
Proof.
  unfold m_set_at. destruct (rd (m_storage m) (N.of_nat i)) as [[k x]|]; [|discriminate].
  destruct (wr (m_storage m) (N.of_nat i) (k, s)) eqn:W; [|discriminate].
  intros H. injection H as <-. cbn. rewrite (rd_wr _ _ _ _ (N.of_nat i) W), N.eqb_refl. reflexivity.
Qed.

Lemma cmm_insert_agrees k v (m : mm) tr :
  agrees (cmm_insert kev (answers kf) vev (answers vf) vcap dv k v m tr) tr
    (option_map (fun m' => (m', tt)) (mm_insert kf vf vcap dv m k v)).
Proof.
  unfold cmm_insert. eapply agrees_bind; [apply cm_contains_agrees|]. unfold mm_insert.
  destruct (m_contains kf m k) as [[|]|] eqn:C; cbn; [| |reflexivity]; intros tr1.
  - destruct (contains_position _ _ C) as (i & F).
    eapply agrees_bind; [apply cm_get_agrees|]. unfold m_get, m_get_assign. rewrite F. cbn. intros tr2.
    eapply agrees_bind; [apply on_set_agrees; intros s; apply cs_insert_agrees|].
    destruct (rd (m_storage m) (N.of_nat i)) as [[k' s]|]; cbn; [|reflexivity].
    destruct (s_insert vf s v) as [[s' b]|]; cbn; [|reflexivity].
    destruct (m_set_at m i s') as [m'|]; cbn; [|reflexivity]. intros. apply agrees_ret.
  - eapply agrees_bind; [unfold make_set; apply agrees_plainly|]. cbn.
    destruct (s_make vcap dv [v]) as [s|]; cbn; [|reflexivity]. intros tr2.
    eapply agrees_bind; [apply cm_put_agrees|].
    destruct (m_put kf m k s) as [[m' b]|]; cbn; [|reflexivity]. intros. apply agrees_ret.
Qed.
Lemma cmm_insert_key_agrees k (m : mm) tr :
  agrees (cmm_insert_key kev (answers kf) vcap dv k m tr) tr
    (option_map (fun m' => (m', tt)) (mm_insert_key kf vcap dv m k)).
Proof.
  unfold cmm_insert_key. eapply agrees_bind; [apply cm_contains_agrees|]. unfold mm_insert_key, empty_set.
  destruct (m_contains kf m k) as [[|]|] eqn:C; cbn; [| |reflexivity]; intros tr1.
  - apply agrees_ret.
  - eapply agrees_bind; [unfold make_set; apply agrees_plainly|]. cbn.
    destruct (s_make vcap dv []) as [s|]; cbn; [|reflexivity]. intros tr2.
    eapply agrees_bind; [apply cm_put_agrees|].
    destruct (m_put kf m k s) as [[m' b]|]; cbn; [|reflexivity]. intros. apply agrees_ret.
Qed.
Lemma cmm_erase_agrees k v (m : mm) tr :
  agrees (cmm_erase kev (answers kf) vev (answers vf) k v m tr) tr (mm_erase kf vf m k v).
Proof.
  unfold cmm_erase. eapply agrees_bind; [apply cm_contains_agrees|]. unfold mm_erase.
  destruct (m_contains kf m k) as [[|]|] eqn:C; cbn; [| |reflexivity]; intros tr1; [|apply agrees_ret].
  destruct (contains_position _ _ C) as (i & F).
  eapply agrees_bind; [apply cm_get_agrees|]. unfold m_get, m_get_assign. rewrite F. cbn. intros tr2.
  eapply agrees_bind; [apply on_set_agrees; intros s; apply cs_erase_agrees|].
  destruct (rd (m_storage m) (N.of_nat i)) as [[k' s]|]; cbn; [|reflexivity].
  destruct (s_erase vf s v) as [[s' r]|]; cbn; [|reflexivity].
  destruct (m_set_at m i s') as [m'|] eqn:W; cbn; [|reflexivity]. intros tr3.
  eapply agrees_bind; [unfold cm_read; apply agrees_plainly|].
  pose proof (m_set_at_rd _ _ _ _ W) as R.
  destruct (rd (m_storage m') (N.of_nat i)) as [[k'' s'']|]; cbn in *; [|discriminate].
  injection R as ->. intros tr4. destruct (s_size s' =? 0)%N; [|apply agrees_ret].
  eapply agrees_bind; [apply cm_erase_agrees|].
  destruct (m_erase kf m' k) as [[m'' n]|]; cbn; [|reflexivity]. intros. apply agrees_ret.
Qed.
Lemma cmm_contains2_agrees k v (m : mm) tr :
  agrees (cmm_contains2 kev (answers kf) vev (answers vf) k v m tr) tr
    (option_map (fun b => (m, b)) (mm_contains2 kf vf m k v)).
Proof.
  unfold cmm_contains2. eapply agrees_bind; [apply cm_contains_agrees|]. unfold mm_contains2.
  destruct (m_contains kf m k) as [[|]|] eqn:C; cbn; [| |reflexivity]; intros tr1; [|apply agrees_ret].
  destruct (contains_position _ _ C) as (i & F).
  eapply agrees_bind; [apply cm_get_agrees|]. unfold m_get. rewrite F. cbn. intros tr2.
  pose proof (on_set_agrees i (cs_contains vev (answers vf) v) m tr2 _
                (fun s => cs_contains_agrees vev vf v s tr2)) as H.
  destruct (rd (m_storage m) (N.of_nat i)) as [[k' s]|] eqn:R; cbn in *; [|exact H].
  destruct (s_contains vf s v) as [b|]; cbn in *; [|exact H].
  unfold m_set_at in H. rewrite R, (wr_same _ _ _ R) in H. cbn in H. destruct m; exact H.
Qed.

Lemma cmm_step_agrees op (m : mm) tr : exists r,
  mm_step kf vf vcap dv m op = as_outcome r /\
  agrees (cmm_step kev (answers kf) vev (answers vf) vcap dv op m tr) tr r.
Proof.
  destruct op as [k v|k|k v|k|k|k v|k sop| | | |]; cbn [cmm_step mm_step].
  - eexists. split; [reflexivity|]. eapply agrees_bind; [apply cmm_insert_agrees|].
    destruct (mm_insert kf vf vcap dv m k v) as [m'|]; cbn; [|reflexivity]. intros. apply agrees_ret.
  - eexists. split; [reflexivity|]. eapply agrees_bind; [apply cmm_insert_key_agrees|].
    destruct (mm_insert_key kf vcap dv m k) as [m'|]; cbn; [|reflexivity]. intros. apply agrees_ret.
  - eexists. split; [reflexivity|]. eapply agrees_bind; [apply cmm_erase_agrees|].
    destruct (mm_erase kf vf m k v) as [[m' n]|]; cbn; [|reflexivity]. intros. apply agrees_ret.
  - eexists. split; [reflexivity|]. eapply agrees_bind; [apply cm_erase_agrees|].
    destruct (m_erase kf m k) as [[m' n]|]; cbn; [|reflexivity]. intros. apply agrees_ret.
  - eexists. split; [reflexivity|]. eapply agrees_bind; [apply cm_contains_agrees|].
    destruct (m_contains kf m k) as [b|]; cbn; [|reflexivity]. intros. apply agrees_ret.
  - eexists. split; [reflexivity|]. eapply agrees_bind; [apply cmm_contains2_agrees|].
    destruct (mm_contains2 kf vf m k v) as [b|]; cbn; [|reflexivity]. intros. apply agrees_ret.
  - pose (g := fun s => match s_step vf s sop with Done s' o _ => Some (s', o) | _ => None end).
    assert (Hg : forall s tr, agrees (cs_step vev (answers vf) sop s tr) tr (g s)).
    { intros s tr'. destruct (cs_step_agrees vev vf sop s tr') as (r & H1 & H2).
      unfold g. rewrite H1. destruct r as [[s' o]|]; exact H2. }
    exists (match position (m_find kf m k) with
            | Some i =>
                match rd (m_storage m) (N.of_nat i) with
                | Some (k', s) =>
                    match g s with
                    | Some (s', a) => option_map (fun m' => (m', MMSet a)) (m_set_at m i s')
                    | None => None
                    end
                | None => None
                end
            | None => None
            end). split.
    + unfold m_get, m_get_assign, g. destruct (m_find kf m k) as [[i|]|]; cbn; try reflexivity.
      destruct (rd (m_storage m) (N.of_nat i)) as [[k' s]|]; cbn; [|reflexivity].
      destruct (s_step vf s sop) as [s' o ps|s' p|]; reflexivity.
    + eapply agrees_bind; [apply cm_get_agrees|].
      destruct (position (m_find kf m k)) as [i|]; cbn; [|reflexivity]. intros tr1.
      eapply agrees_bind; [apply (on_set_agrees i _ m tr1 g); intros s; apply Hg|].
      destruct (rd (m_storage m) (N.of_nat i)) as [[k' s]|]; cbn; [|reflexivity].
      destruct (g s) as [[s' o]|]; cbn; [|reflexivity].
      destruct (m_set_at m i s') as [m'|]; cbn; [|reflexivity]. intros. apply agrees_ret.
  - exists (Some (m, MMNum (m_size m))). split; [reflexivity|].
    apply (agrees_plainly (fun m => Some (m, MMNum (m_size m)))).
  - exists (Some (m, MMBool (m_size m =? 0)%N)). split; [reflexivity|].
    apply (agrees_plainly (fun m => Some (m, MMBool (m_size m =? 0)%N))).
  - exists (Some (m_clear m, MMUnit)). split; [reflexivity|]. apply (agrees_plainly (fun m => Some (m_clear m, MMUnit))).
  - eexists. split; [reflexivity|]. apply (agrees_plainly (fun m => option_map (fun l => (m, MMList l)) (mm_items m))).
Qed.
End Multimap_.

(** ** Calls that throw. *)
Definition reads {S A} (c : call E S A) : Prop := forall s tr r s' tr', c s tr = (r, s', tr') -> s' = s.
Definition quiet {S A} (c : call E S A) : Prop := forall s tr s' tr', c s tr <> (Thrown, s', tr').
Definition safe {S A} (c : call E S A) : Prop := forall s tr s' tr', c s tr = (Thrown, s', tr') -> s' = s.

Lemma quiet_plainly {S A} (g : S -> option (S * A)) : quiet (plainly g).
Proof. intros s tr s' tr'. unfold plainly. destruct (g s) as [[? ?]|]; discriminate. Qed.
Lemma quiet_ret {S A} (a : A) : quiet (@ret E S A a).
Proof. intros s tr s' tr'. unfold ret. discriminate. Qed.
Lemma reads_ret {S A} (a : A) : reads (@ret E S A a).
Proof. intros s tr r s' tr' H. unfold ret in H. congruence. Qed.
Lemma quiet_bind {S A B} (m : call E S A) (k : A -> call E S B) :
  quiet m -> (forall a, quiet (k a)) -> quiet (bind m k).
Proof.
  intros Hm Hk s tr s' tr' H. unfold bind in H. destruct (m s tr) as [[[a| |] s1] tr1] eqn:X; try discriminate.
  - exact (Hk _ _ _ _ _ H).
  - exact (Hm _ _ _ _ X).
Qed.
Lemma reads_bind {S A B} (m : call E S A) (k : A -> call E S B) :
  reads m -> (forall a, reads (k a)) -> reads (bind m k).
Proof.
  intros Hm Hk s tr r s' tr' H. unfold bind in H. destruct (m s tr) as [[[a| |] s1] tr1] eqn:X;
    apply Hm in X; subst; try congruence. exact (Hk _ _ _ _ _ _ H).
Qed.
Lemma quiet_safe {S A} (c : call E S A) : quiet c -> safe c.
Proof. intros H s tr s' tr' X. destruct (H _ _ _ _ X). Qed.
Lemma reads_safe {S A} (c : call E S A) : reads c -> safe c.
Proof. intros H s tr s' tr' X. exact (H _ _ _ _ _ X). Qed.
Lemma safe_bind {S A B} (m : call E S A) (k : A -> call E S B) :
  reads m -> (forall a, safe (k a)) -> safe (bind m k).
Proof.
  intros Hm Hk s tr s' tr' H. unfold bind in H. destruct (m s tr) as [[[a| |] s1] tr1] eqn:X;
    apply Hm in X; subst; try congruence. exact (Hk _ _ _ _ _ H).
Qed.
Lemma safe_then {S A B} (m : call E S A) (k : A -> call E S B) :
  safe m -> (forall a, quiet (k a)) -> safe (bind m k).
Proof.
  intros Hm Hk s tr s' tr' H. unfold bind in H. destruct (m s tr) as [[[a| |] s1] tr1] eqn:X; try discriminate.
  - destruct (Hk _ _ _ _ _ H).
  - injection H as <- <-. exact (Hm _ _ _ _ X).
Qed.

Section Set_.
Context {T : Type} (ev : T -> T -> E) (eq : list E -> T -> T -> option bool).
Lemma cs_find_reads t : reads (cs_find ev eq t).
Proof.
  intros s tr r s' tr' H. unfold cs_find in H. destruct (s_items s); [|congruence].
  destruct (scan ev eq _ l t tr). congruence.
Qed.
Lemma cs_contains_reads t : reads (cs_contains ev eq t).
Proof. apply reads_bind; [apply cs_find_reads|intros; apply reads_ret]. Qed.
Lemma cs_insert_safe t : safe (cs_insert ev eq t).
Proof.
  apply safe_bind; [apply cs_contains_reads|]. intros [|]; apply quiet_safe; [apply quiet_ret|apply quiet_plainly].
Qed.
Lemma cs_erase_safe t : safe (cs_erase ev eq t).
Proof.
  apply safe_bind; [apply cs_find_reads|]. intros [i|]; apply quiet_safe; [apply quiet_plainly|apply quiet_ret].
Qed.
Lemma cs_merge_thrown l : forall s tr s' tr', cs_merge ev eq l s tr = (Thrown, s', tr') ->
  exists l1 x l2 tr1, l = l1 ++ x :: l2 /\ cs_merge ev eq l1 s tr = (Ret tt, s', tr1) /\
  cs_insert ev eq x s' tr1 = (Thrown, s', tr').
Proof.
  induction l as [|x r IH]; intros s tr s' tr' H; cbn in H; [discriminate|].
  unfold bind in H. destruct (cs_insert ev eq x s tr) as [[[b| |] s1] tr1] eqn:X; try discriminate.
  - destruct (IH _ _ _ _ H) as (l1 & y & l2 & tr2 & -> & H1 & H2).
    exists (x :: l1), y, l2, tr2. split; [reflexivity|]. split; [|exact H2].
    cbn. unfold bind. rewrite X. exact H1.
  - injection H as <- <-. pose proof (cs_insert_safe _ _ _ _ _ X) as ->.
    exists [], x, r, tr. split; [reflexivity|]. split; [reflexivity|exact X].
Qed.
Definition no_merge {U} (op : s_op U) : bool := match op with SMerge _ => false | _ => true end.
Lemma cs_step_safe op : no_merge op = true -> safe (cs_step ev eq op).
Proof.
  destruct op; cbn; intros H; try discriminate; try (apply quiet_safe, quiet_plainly).
  - apply safe_then; [apply cs_insert_safe|intros; apply quiet_ret].
  - apply safe_then; [apply cs_erase_safe|intros; apply quiet_ret].
  - apply safe_then; [apply reads_safe, cs_contains_reads|intros; apply quiet_ret].
Qed.
End Set_.

Section Map_.
Context {K V : Type} (ev : K -> K -> E) (eq : list E -> K -> K -> option bool).
Notation mp := (cmap K V).
Lemma cm_find_reads k : reads (@cm_find E K V ev eq k).
Proof.
  intros s tr r s' tr' H. unfold cm_find in H. destruct (m_items s); [|congruence].
  destruct (scan ev eq _ l k tr). congruence.
Qed.
Lemma cm_get_reads k : reads (@cm_get E K V ev eq k).
Proof.
  apply reads_bind; [apply cm_find_reads|]. intros [i|]; [apply reads_ret|].
  intros s tr r s' tr' H. unfold plainly in H. congruence.
Qed.
Lemma cm_contains_reads k : reads (@cm_contains E K V ev eq k).
Proof. apply reads_bind; [apply cm_find_reads|intros; apply reads_ret]. Qed.
Lemma cm_put_safe k v : safe (@cm_put E K V ev eq k v).
Proof.
  apply safe_bind; [apply cm_find_reads|]. intros [i|]; apply quiet_safe; [|apply quiet_plainly].
  apply quiet_bind; [apply quiet_plainly|intros; apply quiet_ret].
Qed.
Lemma cm_erase_safe k : safe (@cm_erase E K V ev eq k).
Proof.
  apply safe_bind; [apply cm_find_reads|]. intros [i|]; apply quiet_safe; [apply quiet_plainly|apply quiet_ret].
Qed.
Lemma cm_step_safe cap op : safe (@cm_step E K V ev eq cap op).
Proof.
  destruct op; cbn; try (apply quiet_safe, quiet_plainly).
  - apply safe_then; [apply cm_put_safe|intros; apply quiet_ret].
  - apply safe_then; [apply cm_erase_safe|intros; apply quiet_ret].
  - apply safe_bind; [apply cm_get_reads|]. intros i. apply quiet_safe.
    apply quiet_bind; [apply quiet_plainly|intros; apply quiet_ret].
  - apply safe_bind; [apply cm_get_reads|]. intros i. apply quiet_safe.
    apply quiet_bind; [apply quiet_plainly|intros; apply quiet_ret].
  - apply safe_then; [apply reads_safe, cm_contains_reads|intros; apply quiet_ret].
Qed.
End Map_.

Section Multimap2.
Context {K V : Type} (kev : K -> K -> E) (keq : list E -> K -> K -> option bool).
Context (vev : V -> V -> E) (veq : list E -> V -> V -> option bool) (vcap : N) (dv : V).
Notation mm := (cmap K (cset V)).
Lemma on_set_safe {A} i (c : call E (cset V) A) : safe c -> safe (@on_set E K V A i c).
Proof.
  intros Hc m tr m' tr' H. unfold on_set in H.
  destruct (rd (m_storage m) (N.of_nat i)) as [[k s]|] eqn:R; [|discriminate].
  destruct (c s tr) as [[r s'] u] eqn:C. destruct (wr (m_storage m) (N.of_nat i) (k, s')) as [st|] eqn:W; [|discriminate].
  injection H as -> <- <-. apply Hc in C. subst s'. rewrite (wr_same _ _ _ R) in W. injection W as <-.
  destruct m; reflexivity.
Qed.
Lemma make_set_reads vs : reads (@make_set E K V vcap dv vs).
Proof.
  intros m tr r m' tr' H. unfold make_set, plainly in H. destruct (s_make vcap dv vs); cbn in H; congruence.
Qed.
Lemma cmm_insert_safe k v : safe (cmm_insert kev keq vev veq vcap dv k v).
Proof.
  apply safe_bind; [apply cm_contains_reads|]. intros [|].
  - apply safe_bind; [apply cm_get_reads|]. intros i.
    apply safe_then; [apply on_set_safe, cs_insert_safe|intros; apply quiet_ret].
  - apply safe_bind; [apply make_set_reads|]. intros s.
    apply safe_then; [apply cm_put_safe|intros; apply quiet_ret].
Qed.
Lemma cmm_insert_key_safe k : safe (cmm_insert_key kev keq vcap dv k).
Proof.
  apply safe_bind; [apply cm_contains_reads|]. intros [|].
  - apply quiet_safe, quiet_ret.
  - apply safe_bind; [apply make_set_reads|]. intros s.
    apply safe_then; [apply cm_put_safe|intros; apply quiet_ret].
Qed.
Lemma cmm_contains2_safe k v : safe (cmm_contains2 kev keq vev veq k v).
Proof.
  apply safe_bind; [apply cm_contains_reads|]. intros [|].
  - apply safe_bind; [apply cm_get_reads|]. intros i. apply on_set_safe, reads_safe, cs_contains_reads.
  - apply quiet_safe, quiet_ret.
Qed.
Definition throws_cleanly (op : mm_op K V) : bool :=
  match op with MMErase _ _ => false | MMOnSet _ sop => no_merge sop | _ => true end.
Lemma cmm_step_safe op : throws_cleanly op = true -> safe (cmm_step kev keq vev veq vcap dv op).
Proof.
  destruct op; cbn; intros H; try discriminate; try (apply quiet_safe, quiet_plainly).
  - apply safe_then; [apply cmm_insert_safe|intros; apply quiet_ret].
  - apply safe_then; [apply cmm_insert_key_safe|intros; apply quiet_ret].
  - apply safe_then; [apply cm_erase_safe|intros; apply quiet_ret].
  - apply safe_then; [apply reads_safe, cm_contains_reads|intros; apply quiet_ret].
  - apply safe_then; [apply cmm_contains2_safe|intros; apply quiet_ret].
  - apply safe_bind; [apply cm_get_reads|]. intros i.
    apply safe_then; [apply on_set_safe, cs_step_safe, H|intros; apply quiet_ret].
Qed.
End Multimap2.
End P.
