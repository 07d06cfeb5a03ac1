From Verif Require Import Base BaseLemmas CxSetModel CxSetProofs CxMapModel CxMultimapModel RefModel RefSpec RefProofs
  RefMultiModel RefMultiSpec.
Open Scope N_scope.

Section RefMulti.
Context {K V : Type} (keqb : K -> K -> bool) (veqb : V -> V -> bool) (vcap : N) (dv : V).
Notation mmap := (cmap K (cset V)).

(** The sets of all slots, used or not, fit. *)
Definition fits (m : mmap) : Prop :=
  len (m_storage m) < size_mod /\ forall e, In e (m_storage m) -> len (s_storage (snd e)) < size_mod.

(** What a call must keep. *)
Definition kept (m m' : mmap) : Prop :=
  (forall k r, m_ref keqb m k = Some r -> m_ref keqb m' k = Some r) /\
  (forall k r s, m_ref keqb m k = Some r -> m_read m r = Some s ->
     exists s', m_read m' r = Some s' /\ forall v j, s_ref veqb s v = Some j -> s_ref veqb s' v = Some j).

Lemma kept_refl m : kept m m.
Proof. split; [auto|]. intros k r s _ H. exists s. auto. Qed.
Lemma kept_trans a b c : kept a b -> kept b c -> kept a c.
Proof.
  intros [A1 A2] [B1 B2]. split; [auto|]. intros k r s Hr Hs.
  destruct (A2 k r s Hr Hs) as (s1 & H1 & H2).
  destruct (B2 k r s1 (A1 k r Hr) H1) as (s2 & H3 & H4). exists s2. auto.
Qed.

Lemma in_set_nth {A} (l : list A) n x y : In y (set_nth n x l) -> y = x \/ In y l.
Proof.
  revert n. induction l as [|z l IH]; intros [|n] H; cbn in *; try tauto.
  - destruct H as [<-|H]; auto.
  - destruct H as [<-|H]; auto. destruct (IH n H); auto.
Qed.

Lemma set_at_slots (m m' : mmap) i s : m_set_at m i s = Some m' ->
  exists e, nth_error (m_storage m) i = Some e /\ m_storage m' = set_nth i (fst e, s) (m_storage m) /\ m_size m' = m_size m.
Proof.
  unfold m_set_at. rewrite rd_nth_error, Nat2N.id.
  destruct (nth_error (m_storage m) i) as [[k0 u]|] eqn:E; [|discriminate].
  unfold wr. destruct (_ <? _); [|discriminate]. cbn [option_map]. rewrite Nat2N.id.
  intro H. injection H as <-. exists (k0, u). auto.
Qed.

(** Replacing the set in a slot by one that keeps its values where they are. *)
Lemma set_at_kept (m m' : mmap) i s s' : fits m -> m_read m (N.of_nat i) = Some s -> m_set_at m i s' = Some m' ->
  (forall v j, s_ref veqb s v = Some j -> s_ref veqb s' v = Some j) -> len (s_storage s') = len (s_storage s) ->
  kept m m' /\ fits m'.
Proof.
  intros [F1 F2] Hs Hm Hv Hl.
  destruct (m_set_at_keys _ _ _ _ Hm) as (E1 & E2 & E3).
  destruct (set_at_slots _ _ _ _ Hm) as ([k0 u] & En & Est & _). cbn [fst] in Est.
  unfold m_read in Hs. rewrite rd_nth_error, Nat2N.id, En in Hs. cbn in Hs. injection Hs as ->.
  split; [split|split].
  - intros k r H. unfold m_ref in *. now rewrite (keys_find keqb m m' k E1 E2 E3).
  - intros k r t Hr Ht. unfold m_read in *. rewrite rd_nth_error in *. rewrite Est.
    rewrite nth_error_set_nth by (apply nth_error_Some; congruence).
    destruct (Nat.eqb_spec (N.to_nat r) i) as [Ei|].
    + rewrite Ei, En in Ht. cbn in *. injection Ht as <-. eexists. split; [reflexivity|]. exact Hv.
    + exists t. auto.
  - now rewrite E3.
  - intros e He. rewrite Est in He. destruct (in_set_nth _ _ _ _ He) as [->|H]; [|auto].
    cbn [snd]. rewrite Hl. apply (F2 (k0, s)). eapply nth_error_In, En.
Qed.

(** A new key goes behind the others. *)
Lemma put_kept (m m' : mmap) k s b : fits m -> len (s_storage s) < size_mod -> m_find keqb m k = Some None ->
  m_put keqb m k s = Some (m', b) -> kept m m' /\ fits m'.
Proof.
  intros [F1 F2] Hs Hf Hp.
  assert (Hk : forall k0 r, m_ref keqb m k0 = Some r -> m_ref keqb m' k0 = Some r).
  { intros k0 r H. refine (proj1 (m_step_ref keqb 0 m m' (MPut k s) (MBool b) [] k0 r F1 I _ H)).
    cbn [m_step]. now rewrite Hp. }
  unfold m_put in Hp. rewrite Hf in Hp.
  destruct (wr (m_storage m) (m_size m) (k, s)) as [st|] eqn:W; [|discriminate]. cbn in Hp. injection Hp as <- <-.
  pose proof (wr_len _ _ _ _ W) as Hl. pose proof (wr_Some_lt _ _ _ _ W) as Hlt.
  unfold wr in W. destruct (_ <? _); [|discriminate]. injection W as <-. cbn [m_storage] in *.
  split; [split; [exact Hk|]|split].
  - intros k0 r t Hr Ht. exists t. split; [|auto]. unfold m_read in *. rewrite rd_nth_error in *. cbn [m_storage].
    rewrite nth_error_set_nth by (unfold len in Hlt; lia).
    destruct (Nat.eqb_spec (N.to_nat r) (N.to_nat (m_size m))) as [E|]; [exfalso|exact Ht].
    unfold m_ref, m_find in Hr. destruct (m_items m) as [l|] eqn:El; [|discriminate]. cbn in Hr.
    destruct (find_idx _ l) as [i|] eqn:Ei; [|discriminate]. injection Hr as <-.
    destruct (m_items_prefix _ _ El) as (t' & _ & Hsz).
    destruct (find_idx_nth _ _ _ Ei) as (x & Hx & _).
    assert (i < length l)%nat by (apply nth_error_Some; congruence). unfold len in Hsz. lia.
  - cbn [m_storage]. now rewrite Hl.
  - cbn [m_storage]. intros e He. destruct (in_set_nth _ _ _ _ He) as [->|H]; [exact Hs | auto].
Qed.

Lemma get_read (m : mmap) k s : m_get keqb m k = Some s ->
  exists i, m_find keqb m k = Some (Some i) /\ m_read m (N.of_nat i) = Some s.
Proof.
  unfold m_get, m_read. destruct (m_find keqb m k) as [[i|]|]; try discriminate. intro H. exists i. auto.
Qed.

Lemma get_assign_kept (m m' : mmap) k s s' : fits m -> m_get keqb m k = Some s -> m_get_assign keqb m k s' = Some m' ->
  (forall v j, s_ref veqb s v = Some j -> s_ref veqb s' v = Some j) -> len (s_storage s') = len (s_storage s) ->
  kept m m' /\ fits m'.
Proof.
  intros F Hg Ha Hv Hl. destruct (get_read _ _ _ Hg) as (i & Hf & Hr).
  unfold m_get_assign in Ha. rewrite Hf in Ha. now apply (set_at_kept m m' i s s').
Qed.

Lemma get_fits (m : mmap) k s : fits m -> m_get keqb m k = Some s -> len (s_storage s) < size_mod.
Proof.
  intros [_ F] H. destruct (get_read _ _ _ H) as (i & _ & Hr). unfold m_read in Hr.
  destruct (rd (m_storage m) (N.of_nat i)) as [e|] eqn:E; [|discriminate]. injection Hr as <-.
  apply F. rewrite rd_nth_error in E. eapply nth_error_In, E.
Qed.

Lemma s_insert_len (s s' : cset V) k b : s_insert veqb s k = Some (s', b) -> len (s_storage s') = len (s_storage s).
Proof.
  unfold s_insert. destruct (s_contains veqb s k) as [[|]|]; [| |discriminate].
  - intro H. injection H as <- _. reflexivity.
  - destruct (wr _ _ _) as [st|] eqn:W; [|discriminate]. intro H. injection H as <- _. exact (wr_len _ _ _ _ W).
Qed.
Lemma s_merge_len l : forall s s' : cset V, s_merge veqb s l = Some s' -> len (s_storage s') = len (s_storage s).
Proof.
  induction l as [|k l IH]; intros s s' H; cbn in H; [injection H as <-; reflexivity|].
  destruct (s_insert veqb s k) as [[s1 b]|] eqn:E; [|discriminate].
  rewrite (IH _ _ H). exact (s_insert_len _ _ _ _ E).
Qed.

Lemma s_step_kept (s s' : cset V) op o ps : len (s_storage s) < size_mod -> s_keeps op ->
  s_step veqb s op = Done s' o ps ->
  (forall v j, s_ref veqb s v = Some j -> s_ref veqb s' v = Some j) /\ len (s_storage s') = len (s_storage s).
Proof.
  intros Hc Hk Hs. split.
  - intros v j Hv. apply (set_refs veqb [op] s s' [o] (ps ++ []) v j Hc); [now constructor| |exact Hv].
    cbn [run]. now rewrite Hs.
  - destruct op; cbn [s_keeps] in Hk; try contradiction; cbn [s_step] in Hs.
    + destruct (s_insert veqb s k) as [[s1 b]|] eqn:E; [|discriminate]. injection Hs as <- _ _. exact (s_insert_len _ _ _ _ E).
    + destruct (s_merge veqb s l) as [s1|] eqn:E; [|discriminate]. injection Hs as <- _ _. exact (s_merge_len _ _ _ E).
    + destruct (s_contains veqb s k); [|discriminate]. now injection Hs as <- _ _.
    + now injection Hs as <- _ _.
    + now injection Hs as <- _ _.
    + destruct (s_items s); [|discriminate]. now injection Hs as <- _ _.
Qed.

Lemma s_make_len (s : cset V) d l : s_make vcap d l = Some s -> len (s_storage s) = vcap.
Proof.
  unfold s_make. destruct (N.leb_spec (len l) vcap); [|discriminate]. intro E. injection E as <-. cbn [s_storage].
  unfold len in *. rewrite app_length, repeat_length. lia.
Qed.

Lemma contains_find (m : mmap) k b : m_contains keqb m k = Some b -> b = false -> m_find keqb m k = Some None.
Proof.
  unfold m_contains. destruct (m_find keqb m k) as [[i|]|]; cbn; intros H1 H2; congruence.
Qed.

Hypothesis Hvc : vcap < size_mod.

Lemma mm_step_kept (m m' : mmap) op o ps : fits m -> mm_keeps op ->
  mm_step keqb veqb vcap dv m op = Done m' o ps -> kept m m' /\ fits m'.
Proof.
  intros F Hk Hs. destruct op; cbn [mm_keeps] in Hk; try contradiction; cbn [mm_step] in Hs.
  - destruct (mm_insert keqb veqb vcap dv m k v) as [m1|] eqn:E; [|discriminate]. injection Hs as <- _ _.
    unfold mm_insert in E. destruct (m_contains keqb m k) as [[|]|] eqn:Ec; [| |discriminate].
    + destruct (m_get keqb m k) as [s|] eqn:Eg; [|discriminate].
      destruct (s_insert veqb s v) as [[s' b]|] eqn:Es; [|discriminate].
      apply (get_assign_kept m m1 k s s' F Eg E).
      * intros x j Hx. exact (proj1 (s_insert_ref veqb s s' v b x j (get_fits _ _ _ F Eg) Es Hx)).
      * exact (s_insert_len _ _ _ _ Es).
    + destruct (s_make vcap dv [v]) as [s|] eqn:Em; [|discriminate].
      destruct (m_put keqb m k s) as [[m2 b]|] eqn:Ep; [|discriminate]. cbn in E. injection E as ->.
      apply (put_kept m m1 k s b F); [now rewrite (s_make_len _ _ _ Em) | eapply contains_find; eauto | exact Ep].
  - destruct (mm_insert_key keqb vcap dv m k) as [m1|] eqn:E; [|discriminate]. injection Hs as <- _ _.
    unfold mm_insert_key in E. destruct (m_contains keqb m k) as [[|]|] eqn:Ec; [| |discriminate].
    + injection E as <-. split; [apply kept_refl | exact F].
    + destruct (empty_set vcap dv) as [s|] eqn:Em; [|discriminate].
      destruct (m_put keqb m k s) as [[m2 b]|] eqn:Ep; [|discriminate]. cbn in E. injection E as ->.
      apply (put_kept m m1 k s b F); [now rewrite (s_make_len _ _ _ Em) | eapply contains_find; eauto | exact Ep].
  - destruct (m_contains keqb m k); [|discriminate]. injection Hs as <- _ _. split; [apply kept_refl | exact F].
  - destruct (mm_contains2 keqb veqb m k v); [|discriminate]. injection Hs as <- _ _. split; [apply kept_refl | exact F].
  - destruct (m_get keqb m k) as [s|] eqn:Eg; [|discriminate].
    destruct (s_step veqb s op) as [s' so ps'|?|] eqn:Es; try discriminate.
    destruct (m_get_assign keqb m k s') as [m1|] eqn:Ea; [|discriminate]. injection Hs as <- _ _.
    destruct (s_step_kept s s' op so ps' (get_fits _ _ _ F Eg) Hk Es) as [H1 H2].
    exact (get_assign_kept m m1 k s s' F Eg Ea H1 H2).
  - injection Hs as <- _ _. split; [apply kept_refl | exact F].
  - injection Hs as <- _ _. split; [apply kept_refl | exact F].
  - destruct (mm_items m); [|discriminate]. injection Hs as <- _ _. split; [apply kept_refl | exact F].
Qed.

Lemma mm_run_kept ops : forall (m m' : mmap) outs ps, fits m -> Forall mm_keeps ops ->
  run (mm_step keqb veqb vcap dv) m ops = Done m' outs ps -> kept m m' /\ fits m'.
Proof.
  induction ops as [|op ops IH]; intros m m' outs ps F Hk Hr; cbn [run] in Hr.
  - injection Hr as <- _ _. split; [apply kept_refl | exact F].
  - inversion Hk as [|? ? H1 H2]; subst.
    destruct (mm_step keqb veqb vcap dv m op) as [m1 o ps1|?|] eqn:E; try discriminate.
    destruct (run (mm_step keqb veqb vcap dv) m1 ops) as [m2 os ps2|?|] eqn:E2; try discriminate.
    injection Hr as <- _ _. destruct (mm_step_kept _ _ _ _ _ F H1 E) as [K1 F1].
    destruct (IH _ _ _ _ F1 H2 E2) as [K2 F2]. split; [eapply kept_trans; eauto | exact F2].
Qed.

Lemma kept_vref m m' k v r : kept m m' -> mm_vref keqb veqb m k v = Some r -> mm_vref keqb veqb m' k v = Some r.
Proof.
  intros [K1 K2] H. unfold mm_vref, mm_ref in *.
  destruct (m_ref keqb m k) as [i|] eqn:Er; [|discriminate]. rewrite (K1 k i Er).
  destruct (m_read m i) as [s|] eqn:Es; [|discriminate].
  destruct (K2 k i s Er Es) as (s' & -> & Hs).
  destruct (s_ref veqb s v) as [j|] eqn:Ej; [|discriminate]. now rewrite (Hs v j Ej).
Qed.

(** What a reference to a value reads: a value equal to the one asked for. *)
Lemma vref_read (m : mmap) k v r : mm_vref keqb veqb m k v = Some r ->
  exists x, mm_vread m r = Some x /\ veqb x v = true.
Proof.
  unfold mm_vref, mm_vread. destruct (mm_ref keqb m k) as [i|]; [|discriminate].
  destruct (m_read m i) as [s|] eqn:Es; [|discriminate]. unfold s_ref.
  destruct (s_items s) as [l|] eqn:El; [|discriminate].
  destruct (find_idx (fun x => veqb x v) l) as [j|] eqn:Ej; [|discriminate]. cbn. intro H. injection H as <-. cbn [fst snd].
  rewrite Es. destruct (find_idx_nth _ _ _ Ej) as (x & Hx & Hp). exists x. split; [|exact Hp].
  destruct (s_items_prefix _ _ El) as (t & -> & _). rewrite rd_nth_error, Nat2N.id, nth_error_app1; [exact Hx|].
  apply nth_error_Some. congruence.
Qed.

(** Erasing a value that leaves others in its set moves no set. *)
Lemma erase_value_keeps_sets (m m' : mmap) k s n v : fits m -> m_get keqb m k = Some s -> 1 < s_size s ->
  mm_erase keqb veqb m k v = Some (m', n) ->
  m_size m' = m_size m /\
  (forall k0, m_ref keqb m' k0 = m_ref keqb m k0) /\
  (forall r, m_ref keqb m k <> Some r -> m_read m' r = m_read m r).
Proof.
  clear Hvc. intros F Hg Hsz He. pose proof (get_fits _ _ _ F Hg) as Hf0. unfold mm_erase in He. destruct (m_contains keqb m k) as [[|]|] eqn:Ec; [| |discriminate].
  2: { injection He as <- _. auto. }
  rewrite Hg in He. destruct (s_erase veqb s v) as [[s' n']|] eqn:Es; [|discriminate].
  destruct (m_get_assign keqb m k s') as [m1|] eqn:Ea; [|discriminate].
  assert (Hs' : s_size s' <> 0).
  { unfold s_erase in Es. destruct (s_items s) as [l|] eqn:El; [|discriminate].
    destruct (s_items_prefix _ _ El) as (t & Ht & Hlen). assert (len (s_storage s) = len l + len t) by (rewrite Ht; apply len_app).
    destruct (find_idx _ l).
    - destruct (rd _ _); [|discriminate]. destruct (wr _ _ _); [|discriminate]. injection Es as <- _. cbn [s_size].
      rewrite sz_dec_pos by lia. lia.
    - injection Es as <- _. lia. }
  destruct (N.eqb_spec (s_size s') 0); [contradiction|]. injection He as -> _.
  destruct (get_read _ _ _ Hg) as (i & Hf & _). unfold m_get_assign in Ea. rewrite Hf in Ea.
  destruct (m_set_at_keys _ _ _ _ Ea) as (E1 & E2 & E3).
  destruct (set_at_slots _ _ _ _ Ea) as (e & En & Est & _).
  split; [exact E1|]. split.
  - intro k0. unfold m_ref. now rewrite (keys_find keqb m m' k0 E1 E2 E3).
  - intros r Hr. unfold m_read. rewrite !rd_nth_error, Est. f_equal.
    assert (Hne : N.to_nat r <> i).
    { intro Hi. apply Hr. unfold m_ref. rewrite Hf, <- Hi, N2Nat.id. reflexivity. }
    destruct (Nat.lt_ge_cases (N.to_nat r) (length (m_storage m))).
    + rewrite nth_error_set_nth by (apply nth_error_Some; congruence).
      destruct (Nat.eqb_spec (N.to_nat r) i); [contradiction | reflexivity].
    + rewrite (proj2 (nth_error_None _ _)) by (rewrite set_nth_length; lia). symmetry. now apply nth_error_None.
Qed.

Hypothesis Heq : forall x y, keqb x y = true <-> x = y.

(** Erasing the only value of a key erases the key, and that moves the last set. *)
Lemma erase_value_refs (m : mmap) l k k' v s r r' :
  len (m_storage m) < size_mod -> m_items m = Some l -> NoDup (map fst l) -> k <> k' ->
  m_ref keqb m k = Some r -> m_ref keqb m k' = Some r' ->
  m_get keqb m k' = Some s -> s_size s = 1 -> s_contains veqb s v = Some true ->
  exists m', mm_erase keqb veqb m k' v = Some (m', 1) /\ m_size m' = m_size m - 1 /\
    m_ref keqb m' k = Some (if r =? m_size m - 1 then r' else r) /\ r' <> r /\
    (r = m_size m - 1 -> ~ r < m_size m').
Proof.
  clear Hvc. intros Hc Hl Hn Hne Hr Hr' Hg Hsz Hco.
  destruct (get_read _ _ _ Hg) as (i & Hf & Hrd).
  (* the set's own erase *)
  assert (HS : exists s', s_erase veqb s v = Some (s', 1) /\ s_size s' = 0).
  { unfold s_contains in Hco. unfold s_erase. destruct (s_items s) as [sl|] eqn:Esl; [|discriminate].
    destruct (find_idx _ sl) as [j|] eqn:Ej; [|discriminate]. rewrite Hsz, (sz_dec_pos 1) by (reflexivity || lia).
    destruct (s_items_prefix _ _ Esl) as (t & Ht & Hlen). rewrite Hsz in Hlen.
    destruct sl as [|x [|? ?]]; try (unfold len in Hlen; cbn in Hlen; lia).
    destruct (find_idx_nth _ _ _ Ej) as (? & Hj & _).
    assert (j < 1)%nat by (change 1%nat with (length [x]); apply nth_error_Some; congruence).
    replace j with 0%nat by lia. rewrite Ht. cbn. eexists. split; [reflexivity|]. reflexivity. }
  destruct HS as (s' & Hse & Hs0).
  destruct (m_set_at m i s') as [m1|] eqn:Em1.
  2: { exfalso. unfold m_set_at in Em1. unfold m_read in Hrd. destruct (rd (m_storage m) (N.of_nat i)) as [[? ?]|] eqn:E; [|discriminate].
       rewrite rd_nth_error in E. unfold wr in Em1.
       assert (N.to_nat (N.of_nat i) < length (m_storage m))%nat by (apply nth_error_Some; congruence).
       destruct (N.ltb_spec (N.of_nat i) (len (m_storage m))); [discriminate|]. unfold len in *. lia. }
  destruct (m_set_at_keys _ _ _ _ Em1) as (E1 & E2 & E3).
  assert (Hl1 : exists l1, m_items m1 = Some l1 /\ map fst l1 = map fst l).
  { unfold m_items in *. rewrite E1, E3. destruct (_ <=? _); [|discriminate]. injection Hl as <-.
    eexists. split; [reflexivity|]. now rewrite <- !firstn_map, E2. }
  destruct Hl1 as (l1 & Hl1 & Hk1).
  assert (Href : forall k0, m_ref keqb m1 k0 = m_ref keqb m k0).
  { intro k0. unfold m_ref. now rewrite (keys_find keqb m m1 k0 E1 E2 E3). }
  destruct (map_erase_refs keqb Heq m1 l1 k k' r r') as (m' & H1 & H2 & H3 & H4 & H5);
    try assumption; try (now rewrite ?Href); try (rewrite E3; exact Hc); try (rewrite Hk1; exact Hn).
  exists m'. rewrite E1 in *. repeat split; try assumption.
  unfold mm_erase, m_contains. rewrite Hf. cbn [option_map]. rewrite Hg, Hse. unfold m_get_assign.
  rewrite Hf, Em1, Hs0, N.eqb_refl, H1. reflexivity.
Qed.
End RefMulti.
