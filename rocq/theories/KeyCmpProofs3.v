From Verif Require Import Base BaseLemmas CxSetModel CxMapModel CxMultimapModel KeyCmpModel KeyCmpSpec KeyCmpProofs KeyCmpProofs2.

Section P.
Context {E : Type}.

(** ** The size is never more than the storage. *)
Definition keeps {S A} (I : S -> Prop) (c : call E S A) : Prop :=
  forall s tr r s' tr', I s -> c s tr = (r, s', tr') -> I s'.
Lemma keeps_reads {S A} I (c : call E S A) : reads c -> keeps I c.
Proof. intros H s tr r s' tr' Hs X. apply H in X. subst. exact Hs. Qed.
Lemma keeps_ret {S A} I (a : A) : keeps I (@ret E S A a).
Proof. apply keeps_reads, reads_ret. Qed.
Lemma keeps_bind {S A B} I (m : call E S A) (k : A -> call E S B) :
  keeps I m -> (forall a, keeps I (k a)) -> keeps I (bind m k).
Proof.
  intros Hm Hk s tr r s' tr' Hs H. unfold bind in H. destruct (m s tr) as [[[a| |] s1] tr1] eqn:X;
    apply (Hm _ _ _ _ _ Hs) in X; try congruence. exact (Hk _ _ _ _ _ _ X H).
Qed.
Lemma keeps_plainly {S A} (I : S -> Prop) (g : S -> option (S * A)) :
  (forall s s' a, I s -> g s = Some (s', a) -> I s') -> keeps I (plainly g).
Proof.
  intros Hg s tr r s' tr' Hs H. unfold plainly in H. destruct (g s) as [[s1 a]|] eqn:X; [|congruence].
  injection H as <- <- <-. exact (Hg _ _ _ Hs X).
Qed.

Lemma Forall_wr {A} (P : A -> Prop) l l' i x : wr l i x = Some l' -> Forall P l -> P x -> Forall P l'.
Proof.
  unfold wr. destruct (N.ltb_spec i (len l)); [|discriminate]. intros H1 H2 H3. injection H1 as <-.
  rewrite set_nth_split by (unfold len in *; lia). apply Forall_app. split.
  - apply Forall_forall. intros y Hy. rewrite Forall_forall in H2. apply H2.
    rewrite <- (firstn_skipn (N.to_nat i) l). apply in_or_app. auto.
  - constructor; [exact H3|]. apply Forall_forall. intros y Hy. rewrite Forall_forall in H2. apply H2.
    rewrite <- (firstn_skipn (S (N.to_nat i)) l). apply in_or_app. auto.
Qed.
Lemma Forall_rd {A} (P : A -> Prop) l i x : rd l i = Some x -> Forall P l -> P x.
Proof.
  rewrite rd_nth_error. intros H1 H2. rewrite Forall_forall in H2. apply H2. eapply nth_error_In, H1.
Qed.

Definition inv_s {T} (s : cset T) : Prop := (s_size s <= len (s_storage s) /\ len (s_storage s) < size_mod)%N.
Lemma inv_s_items {T} (s : cset T) : inv_s s -> s_items s = Some (firstn (N.to_nat (s_size s)) (s_storage s)).
Proof. intros [H _]. unfold s_items. destruct (N.leb_spec (s_size s) (len (s_storage s))); [reflexivity|lia]. Qed.
Lemma sz_inc_wr {A} (l l' : list A) i x : (len l < size_mod)%N -> wr l i x = Some l' -> sz_inc i = (i + 1)%N.
Proof. intros H W. apply sz_inc_small. pose proof (wr_Some_lt _ _ _ _ W). lia. Qed.

Lemma make_inv_s {T} cap (d : T) ts s : (cap < size_mod)%N -> s_make cap d ts = Some s -> inv_s s.
Proof.
  unfold s_make. intros H X. destruct (N.leb_spec (len ts) cap); [|discriminate]. injection X as <-.
  unfold inv_s. cbn. rewrite len_app, len_repeat. lia.
Qed.

Section Set_.
Context {T : Type} (ev : T -> T -> E) (eq : list E -> T -> T -> option bool).
Lemma cs_insert_keeps t : keeps inv_s (cs_insert ev eq t).
Proof.
  apply keeps_bind; [apply keeps_reads, cs_contains_reads|]. intros [|]; [apply keeps_ret|].
  apply keeps_plainly. intros s s' a [H1 H2]. destruct (wr (s_storage s) (s_size s) t) as [st|] eqn:W; [|discriminate].
  cbn. intros X. injection X as <- <-. unfold inv_s. cbn. rewrite (sz_inc_wr _ _ _ _ H2 W), (wr_len _ _ _ _ W).
  pose proof (wr_Some_lt _ _ _ _ W). lia.
Qed.
Lemma cs_erase_keeps t : keeps inv_s (cs_erase ev eq t).
Proof.
  apply keeps_bind; [apply keeps_reads, cs_find_reads|]. intros [i|]; [|apply keeps_ret].
  apply keeps_plainly. intros s s' a [H1 H2]. cbn.
  destruct (rd (s_storage s) (sz_dec (s_size s))) as [y|] eqn:R; [|discriminate].
  destruct (wr (s_storage s) (N.of_nat i) y) as [st|] eqn:W; [|discriminate].
  cbn. intros X. injection X as <- <-. unfold inv_s. cbn. rewrite (wr_len _ _ _ _ W).
  pose proof (rd_Some_lt _ _ _ R). lia.
Qed.
Lemma cs_merge_keeps l : keeps inv_s (cs_merge ev eq l).
Proof.
  induction l as [|x r IH]; cbn; [apply keeps_ret|]. apply keeps_bind; [apply cs_insert_keeps|]. intros _. exact IH.
Qed.
Lemma cs_step_keeps op : keeps inv_s (cs_step ev eq op).
Proof.
  destruct op; cbn.
  - apply keeps_bind; [apply cs_insert_keeps|intros; apply keeps_ret].
  - apply keeps_bind; [apply cs_erase_keeps|intros; apply keeps_ret].
  - apply keeps_bind; [apply cs_merge_keeps|intros; apply keeps_ret].
  - apply keeps_plainly. intros s s' a [H1 H2] X. unfold s_pop_back in X.
    destruct (rd (s_storage s) (sz_dec (s_size s))) as [y|] eqn:R; [|discriminate].
    cbn in X. injection X as <- <-. unfold inv_s. cbn. pose proof (rd_Some_lt _ _ _ R). lia.
  - apply keeps_plainly. intros s s' a [H1 H2] X. injection X as <- <-. unfold inv_s, s_clear. cbn. lia.
  - apply keeps_bind; [apply keeps_reads, cs_contains_reads|intros; apply keeps_ret].
  - apply keeps_plainly. intros s s' a H X. injection X as <- <-. exact H.
  - apply keeps_plainly. intros s s' a H X. injection X as <- <-. exact H.
  - apply keeps_plainly. intros s s' a H X. destruct (s_items s); cbn in X; [|discriminate].
    injection X as <- <-. exact H.
Qed.
Lemma set_reached_inv cap d s tr : (cap < size_mod)%N -> set_reached ev eq cap d s tr -> inv_s s.
Proof.
  intros C H. induction H as [ts s H|s tr op r s' tr' H IH X _]; [exact (make_inv_s _ _ _ _ C H)|].
  exact (cs_step_keeps op _ _ _ _ _ IH X).
Qed.
End Set_.

Definition inv_m {K V} (Q : V -> Prop) (m : cmap K V) : Prop :=
  ((m_size m <= len (m_storage m) /\ len (m_storage m) < size_mod)%N) /\ Forall (fun e => Q (snd e)) (m_storage m).
Lemma inv_m_items {K V} Q (m : cmap K V) :
  inv_m Q m -> m_items m = Some (firstn (N.to_nat (m_size m)) (m_storage m)).
Proof. intros [[H _] _]. unfold m_items. destruct (N.leb_spec (m_size m) (len (m_storage m))); [reflexivity|lia]. Qed.

Section Map_.
Context {K V : Type} (ev : K -> K -> E) (eq : list E -> K -> K -> option bool) (Q : V -> Prop).
Notation mp := (cmap K V).
Lemma set_at_inv (m m' : mp) i v : inv_m Q m -> Q v -> m_set_at m i v = Some m' -> inv_m Q m'.
Proof.
  intros [[H1 H2] H3] Hv X. unfold m_set_at in X. destruct (rd (m_storage m) (N.of_nat i)) as [[k x]|]; [|discriminate].
  destruct (wr (m_storage m) (N.of_nat i) (k, v)) as [st|] eqn:W; [|discriminate]. injection X as <-.
  unfold inv_m. cbn. rewrite (wr_len _ _ _ _ W). split; [lia|]. exact (Forall_wr _ _ _ _ _ W H3 Hv).
Qed.
Lemma cm_write_keeps i v : Q v -> keeps (inv_m Q) (@cm_write E K V i v).
Proof.
  intros Hv. apply keeps_plainly. intros m m' a H X. destruct (m_set_at m i v) eqn:W; [|discriminate].
  injection X as <- <-. exact (set_at_inv _ _ _ _ H Hv W).
Qed.
Lemma cm_read_reads i : reads (@cm_read E K V i).
Proof.
  intros m tr r m' tr' H. unfold cm_read, plainly in H. destruct (rd (m_storage m) (N.of_nat i)); cbn in H; congruence.
Qed.
Lemma cm_put_keeps k v : Q v -> keeps (inv_m Q) (@cm_put E K V ev eq k v).
Proof.
  intros Hv. apply keeps_bind; [apply keeps_reads, cm_find_reads|]. intros [i|].
  - apply keeps_bind; [apply cm_write_keeps, Hv|intros; apply keeps_ret].
  - apply keeps_plainly. intros m m' a [[H1 H2] H3] X.
    destruct (wr (m_storage m) (m_size m) (k, v)) as [st|] eqn:W; [|discriminate]. injection X as <- <-.
    unfold inv_m. cbn. rewrite (sz_inc_wr _ _ _ _ H2 W), (wr_len _ _ _ _ W).
    pose proof (wr_Some_lt _ _ _ _ W). split; [lia|]. exact (Forall_wr _ _ _ _ _ W H3 Hv).
Qed.
Lemma cm_erase_keeps k : keeps (inv_m Q) (@cm_erase E K V ev eq k).
Proof.
  apply keeps_bind; [apply keeps_reads, cm_find_reads|]. intros [i|]; [|apply keeps_ret].
  apply keeps_plainly. intros m m' a [[H1 H2] H3]. cbn.
  destruct (rd (m_storage m) (sz_dec (m_size m))) as [y|] eqn:R; [|discriminate].
  destruct (wr (m_storage m) (N.of_nat i) y) as [st|] eqn:W; [|discriminate].
  cbn. intros X. injection X as <- <-. unfold inv_m. cbn. rewrite (wr_len _ _ _ _ W).
  pose proof (rd_Some_lt _ _ _ R). split; [lia|]. exact (Forall_wr _ _ _ _ _ W H3 (Forall_rd _ _ _ _ R H3)).
Qed.
End Map_.
Lemma cm_step_keeps {K V} (ev : K -> K -> E) eq cap op :
  keeps (inv_m (fun _ => True)) (@cm_step E K V ev eq cap op).
Proof.
  destruct op; cbn.
  - apply keeps_bind; [apply cm_put_keeps; exact Logic.I|intros; apply keeps_ret].
  - apply keeps_bind; [apply cm_erase_keeps|intros; apply keeps_ret].
  - apply keeps_bind; [apply keeps_reads, cm_get_reads|]. intros i.
    apply keeps_bind; [apply keeps_reads, cm_read_reads|intros; apply keeps_ret].
  - apply keeps_bind; [apply keeps_reads, cm_get_reads|]. intros i.
    apply keeps_bind; [apply cm_write_keeps; solve [exact ev|exact eq|exact Logic.I]|intros; apply keeps_ret].
  - apply keeps_bind; [apply keeps_reads, cm_contains_reads|intros; apply keeps_ret].
  - apply keeps_plainly. intros m m' a [[H1 H2] H3] X. unfold m_pop_back in X.
    destruct (rd (m_storage m) (sz_dec (m_size m))) as [y|] eqn:R; [|discriminate].
    cbn in X. injection X as <- <-. unfold inv_m. cbn. pose proof (rd_Some_lt _ _ _ R). split; [lia|exact H3].
  - apply keeps_plainly. intros m m' a [[H1 H2] H3] X. injection X as <- <-. unfold inv_m, m_clear. cbn.
    split; [lia|exact H3].
  - apply keeps_plainly. intros s s' a H X. injection X as <- <-. exact H.
  - apply keeps_plainly. intros s s' a H X. injection X as <- <-. exact H.
  - apply keeps_plainly. intros s s' a H X. injection X as <- <-. exact H.
  - apply keeps_plainly. intros s s' a H X. destruct (m_items s); cbn in X; [|discriminate].
    injection X as <- <-. exact H.
Qed.
Lemma map_reached_inv {K V} (ev : K -> K -> E) eq cap (d : K * V) m tr :
  (cap < size_mod)%N -> map_reached ev eq cap d m tr -> inv_m (fun _ => True) m.
Proof.
  intros C H. induction H as [es m H|s tr op r s' tr' H IH X _].
  - unfold m_make in H. destruct (N.leb_spec (len es) cap); [|discriminate]. injection H as <-.
    unfold inv_m. cbn. rewrite len_app, len_repeat. split; [lia|]. apply Forall_forall. auto.
  - exact (cm_step_keeps _ _ cap op _ _ _ _ _ IH X).
Qed.

Section Multimap_.
Context {K V : Type} (kev : K -> K -> E) (keq : list E -> K -> K -> option bool).
Context (vev : V -> V -> E) (veq : list E -> V -> V -> option bool) (kcap vcap : N) (dk : K) (dv : V).
Notation mm := (cmap K (cset V)).
Notation inv := (@inv_m K (cset V) inv_s).
Lemma on_set_keeps {A} i (c : call E (cset V) A) : keeps inv_s c -> keeps inv (on_set i c).
Proof.
  intros Hc m tr r m' tr' [[H1 H2] H3] X. unfold on_set in X.
  destruct (rd (m_storage m) (N.of_nat i)) as [[k s]|] eqn:R; [|injection X as <- <- <-; split; auto].
  destruct (c s tr) as [[r0 s'] u] eqn:C.
  destruct (wr (m_storage m) (N.of_nat i) (k, s')) as [st|] eqn:W; injection X as <- <- <-; [|split; auto].
  unfold inv_m. cbn. rewrite (wr_len _ _ _ _ W). split; [lia|].
  apply (Forall_wr _ _ _ _ _ W H3). exact (Hc _ _ _ _ _ (Forall_rd _ _ _ _ R H3) C).
Qed.
Lemma put_made_keeps k vs : (vcap < size_mod)%N ->
  keeps inv (bind (@make_set E K V vcap dv vs) (fun s => bind (cm_put kev keq k s) (fun _ => ret tt))).
Proof.
  intros Hc m tr r m' tr' H X. unfold bind at 1, make_set, plainly in X.
  destruct (s_make vcap dv vs) as [s|] eqn:M; cbn in X; [|congruence].
  refine (keeps_bind inv _ _ _ _ m tr r m' tr' H X); [|intros; apply keeps_ret].
  apply cm_put_keeps. exact (make_inv_s _ _ _ _ Hc M).
Qed.
Lemma cmm_step_keeps op : (vcap < size_mod)%N -> keeps inv (cmm_step kev keq vev veq vcap dv op).
Proof.
  intros Hc. destruct op; cbn.
  - apply keeps_bind; [|intros; apply keeps_ret]. unfold cmm_insert.
    apply keeps_bind; [apply keeps_reads, cm_contains_reads|]. intros [|].
    + apply keeps_bind; [apply keeps_reads, cm_get_reads|]. intros i.
      apply keeps_bind; [apply on_set_keeps, cs_insert_keeps|intros; apply keeps_ret].
    + apply put_made_keeps, Hc.
  - apply keeps_bind; [|intros; apply keeps_ret]. unfold cmm_insert_key.
    apply keeps_bind; [apply keeps_reads, cm_contains_reads|]. intros [|].
    + apply keeps_ret.
    + apply put_made_keeps, Hc.
  - apply keeps_bind; [|intros; apply keeps_ret]. unfold cmm_erase.
    apply keeps_bind; [apply keeps_reads, cm_contains_reads|]. intros [|]; [|apply keeps_ret].
    apply keeps_bind; [apply keeps_reads, cm_get_reads|]. intros i.
    apply keeps_bind; [apply on_set_keeps, cs_erase_keeps|]. intros r.
    apply keeps_bind; [apply keeps_reads, cm_read_reads|]. intros s.
    destruct (s_size s =? 0)%N; [|apply keeps_ret].
    apply keeps_bind; [apply cm_erase_keeps|intros; apply keeps_ret].
  - apply keeps_bind; [apply cm_erase_keeps|intros; apply keeps_ret].
  - apply keeps_bind; [apply keeps_reads, cm_contains_reads|intros; apply keeps_ret].
  - apply keeps_bind; [|intros; apply keeps_ret]. unfold cmm_contains2.
    apply keeps_bind; [apply keeps_reads, cm_contains_reads|]. intros [|]; [|apply keeps_ret].
    apply keeps_bind; [apply keeps_reads, cm_get_reads|]. intros i.
    apply on_set_keeps, keeps_reads, cs_contains_reads.
  - apply keeps_bind; [apply keeps_reads, cm_get_reads|]. intros i.
    apply keeps_bind; [apply on_set_keeps, cs_step_keeps|intros; apply keeps_ret].
  - apply keeps_plainly. intros s s' a H X. injection X as <- <-. exact H.
  - apply keeps_plainly. intros s s' a H X. injection X as <- <-. exact H.
  - apply keeps_plainly. intros m m' a [[H1 H2] H3] X. injection X as <- <-. unfold inv_m, m_clear. cbn.
    split; [lia|exact H3].
  - apply keeps_plainly. intros s s' a H X. destruct (mm_items s); cbn in X; [|discriminate].
    injection X as <- <-. exact H.
Qed.
Lemma multimap_reached_inv m tr : (kcap < size_mod)%N -> (vcap < size_mod)%N ->
  multimap_reached kev keq vev veq kcap vcap dk dv m tr -> inv m.
Proof.
  intros C1 C2 H. induction H as [m H|s tr op r s' tr' H IH X _].
  - unfold mm_init, empty_set in H. destruct (s_make vcap dv []) as [es|] eqn:M; [|discriminate].
    unfold m_make in H. destruct (N.leb_spec (len (@nil (K * cset V))) kcap); [|discriminate]. injection H as <-.
    unfold inv_m. cbn -[N.sub]. rewrite len_repeat. split; [lia|]. apply Forall_forall. intros e He.
    apply repeat_spec in He. subst e. exact (make_inv_s _ _ _ _ C2 M).
  - exact (cmm_step_keeps op C2 _ _ _ _ _ IH X).
Qed.
Lemma mm_lists_total (l : list (K * cset V)) : Forall (fun e => inv_s (snd e)) l -> exists l', mm_lists l = Some l'.
Proof.
  induction 1 as [|[k s] r H Hr (l' & IH)]; cbn; [eauto|]. cbn in H. rewrite (inv_s_items _ H), IH. eauto.
Qed.
Lemma Forall_firstn {A} (P : A -> Prop) n l : Forall P l -> Forall P (firstn n l).
Proof.
  intros H. apply Forall_forall. intros y Hy. rewrite Forall_forall in H. apply H.
  rewrite <- (firstn_skipn n l). apply in_or_app. auto.
Qed.
Lemma inv_mm_items (m : mm) : inv m -> exists l, mm_items m = Some l.
Proof.
  intros H. unfold mm_items. rewrite (inv_m_items _ _ H). apply mm_lists_total, Forall_firstn, H.
Qed.
End Multimap_.
End P.
