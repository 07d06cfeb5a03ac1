(** C87 for cx_multimap: what its sets, used or not, keep alive. *)
From Verif Require Import Base BaseLemmas CxSetModel CxMapModel CxMultimapModel RetainSpec RetainProofs.
Open Scope N_scope.

(** The keys and values a call brings in, and the values it hands out. *)
Definition mm_keys {K V} (o : mm_op K V) : list K := match o with MMInsert k _ | MMInsertKey k => [k] | _ => [] end.
Definition mm_given {K V} (o : mm_op K V) : list V :=
  match o with MMInsert _ v => [v] | MMOnSet _ so => s_given so | _ => [] end.
Definition mm_got {K V} (o : mm_out K V) : list V :=
  match o with MMSet so => s_got so | MMList l => concat (map snd l) | _ => [] end.

Section Multi.
Context {K V : Type} (keqb : K -> K -> bool) (veqb : V -> V -> bool) (vcap : N) (dv : V).
Context (P : K -> Prop) (Q : V -> Prop) (n : nat).
Notation sets := (sinv Q (N.to_nat vcap)).
Notation inv := (minv P sets n).

Lemma s_make_sets l s : s_make vcap dv l = Some s -> Q dv -> Forall Q l -> sets s.
Proof.
  clear keqb veqb P n. unfold s_make. destruct (N.leb_spec (len l) vcap); [|discriminate]. intros E Hd Hl. injection E as <-.
  split; cbn [s_storage].
  - apply Forall_app. split; [exact Hl|]. apply Forall_forall. intros y Hy. apply repeat_spec in Hy. now subst.
  - unfold len in *. rewrite app_length, repeat_length. lia.
Qed.
Lemma get_sets (m : cmap K (cset V)) k s : m_get keqb m k = Some s -> inv m -> sets s.
Proof.
  intros E I. assert (E' : m_step keqb 0 m (MGet k) = Done m (MVal s) []) by (cbn [m_step]; now rewrite E).
  destruct (m_keeps keqb P sets n 0 m _ m _ [] E' I) as [_ H]; [split; constructor|]. now inversion H.
Qed.
Lemma assign_sets (m m' : cmap K (cset V)) k s : m_get_assign keqb m k s = Some m' -> inv m -> sets s -> inv m'.
Proof.
  intros E I Hs. assert (E' : m_step keqb 0 m (MGetAssign k s) = Done m' MUnit []) by (cbn [m_step]; now rewrite E).
  apply (m_keeps keqb P sets n 0 m _ m' _ [] E' I). split; repeat constructor; exact Hs || apply Hs.
Qed.
Lemma put_sets (m m' : cmap K (cset V)) k s b : m_put keqb m k s = Some (m', b) -> inv m -> P k -> sets s -> inv m'.
Proof.
  intros E I Hk Hs. assert (E' : m_step keqb 0 m (MPut k s) = Done m' (MBool b) []) by (cbn [m_step]; now rewrite E).
  apply (m_keeps keqb P sets n 0 m _ m' _ [] E' I). split; constructor; auto.
Qed.
Lemma erase_sets (m m' : cmap K (cset V)) k r : m_erase keqb m k = Some (m', r) -> inv m -> inv m'.
Proof.
  intros E I. assert (E' : m_step keqb 0 m (MErase k) = Done m' (MNum r) []) by (cbn [m_step]; now rewrite E).
  apply (m_keeps keqb P sets n 0 m _ m' _ [] E' I). split; constructor.
Qed.

Lemma Forall_firstn {A} (R : A -> Prop) k (l : list A) : Forall R l -> Forall R (firstn k l).
Proof. rewrite <- (firstn_skipn k l) at 1. intros H. apply Forall_app in H. apply H. Qed.
Lemma lists_sets (c : list (K * cset V)) : forall l, mm_lists c = Some l -> Forall (fun e => sets (snd e)) c -> Forall Q (concat (map snd l)).
Proof.
  induction c as [|[k s] c IH]; cbn [mm_lists]; intros l E H.
  - injection E as <-. constructor.
  - inversion H as [|? ? Hs Hc]; subst. cbn [snd] in Hs. destruct (s_items s) as [vs|] eqn:Es; [|discriminate].
    destruct (mm_lists c) as [t|]; [|discriminate]. injection E as <-. cbn [map snd concat]. apply Forall_app. split; [|now apply IH].
    unfold s_items in Es. destruct (s_size s <=? len (s_storage s)); [|discriminate]. injection Es as <-. apply Forall_firstn, Hs.
Qed.

Lemma mm_keeps_all : Q dv -> forall m o m' r ps, mm_step keqb veqb vcap dv m o = Done m' r ps -> inv m ->
  Forall P (mm_keys o) /\ Forall Q (mm_given o) -> inv m' /\ Forall Q (mm_got r).
Proof.
  intros Hd m o m' r ps E I [Gk Gv]. destruct o; cbn [mm_step mm_keys mm_given] in *.
  - inversion Gk; inversion Gv; subst. destruct (mm_insert keqb veqb vcap dv m k v) as [m1|] eqn:X; [|discriminate].
    injection E as <- <- _. split; [|constructor]. revert X. unfold mm_insert.
    destruct (m_contains keqb m k) as [[|]|]; [| |discriminate].
    + destruct (m_get keqb m k) as [s|] eqn:Eg; [|discriminate].
      destruct (s_insert veqb s v) as [[s' b]|] eqn:Es; [|discriminate]. intro X.
      apply (assign_sets _ _ _ _ X I). exact (s_insert_keeps veqb Q _ _ _ _ _ Es (get_sets _ _ _ Eg I) ltac:(assumption)).
    + destruct (s_make vcap dv [v]) as [s|] eqn:Em; [|discriminate].
      destruct (m_put keqb m k s) as [[m2 b]|] eqn:Ep; [|discriminate]. intro X. cbn in X. injection X as ->.
      apply (put_sets _ _ _ _ _ Ep I); [assumption|]. apply (s_make_sets _ _ Em Hd). now constructor.
  - inversion Gk; subst. destruct (mm_insert_key keqb vcap dv m k) as [m1|] eqn:X; [|discriminate].
    injection E as <- <- _. split; [|constructor]. revert X. unfold mm_insert_key.
    destruct (m_contains keqb m k) as [[|]|]; [intro X; injection X as <-; exact I| |discriminate].
    destruct (empty_set vcap dv) as [s|] eqn:Em; [|discriminate].
    destruct (m_put keqb m k s) as [[m2 b]|] eqn:Ep; [|discriminate]. intro X. cbn in X. injection X as ->.
    apply (put_sets _ _ _ _ _ Ep I); [assumption|]. apply (s_make_sets _ _ Em Hd). constructor.
  - destruct (mm_erase keqb veqb m k v) as [[m1 c]|] eqn:X; [|discriminate]. injection E as <- <- _. split; [|constructor].
    revert X. unfold mm_erase. destruct (m_contains keqb m k) as [[|]|]; [|intro X; injection X as <- _; exact I|discriminate].
    destruct (m_get keqb m k) as [s|] eqn:Eg; [|discriminate].
    destruct (s_erase veqb s v) as [[s' b]|] eqn:Es; [|discriminate].
    destruct (m_get_assign keqb m k s') as [m2|] eqn:Ea; [|discriminate].
    assert (E' : s_step veqb s (SErase v) = Done s' (SNum b) []) by (cbn [s_step]; now rewrite Es).
    destruct (s_keeps veqb Q _ s _ s' _ [] E' (get_sets _ _ _ Eg I)) as [Hs' _]; [constructor|].
    pose proof (assign_sets _ _ _ _ Ea I Hs') as I2. destruct (s_size s' =? 0).
    + destruct (m_erase keqb m2 k) as [[m3 c']|] eqn:Ee; [|discriminate]. intro X. cbn in X. injection X as -> _.
      exact (erase_sets _ _ _ _ Ee I2).
    + intro X. injection X as <- _. exact I2.
  - destruct (m_erase keqb m k) as [[m1 c]|] eqn:X; [|discriminate]. injection E as <- <- _.
    split; [exact (erase_sets _ _ _ _ X I)|constructor].
  - destruct (m_contains keqb m k); [|discriminate]. injection E as <- <- _. split; [exact I|constructor].
  - destruct (mm_contains2 keqb veqb m k v); [|discriminate]. injection E as <- <- _. split; [exact I|constructor].
  - destruct (m_get keqb m k) as [s|] eqn:Eg; [|discriminate].
    destruct (s_step veqb s op) as [s' so ps'|?|] eqn:Es; try discriminate.
    destruct (m_get_assign keqb m k s') as [m1|] eqn:Ea; [|discriminate]. injection E as <- <- _.
    destruct (s_keeps veqb Q _ s op s' so ps' Es (get_sets _ _ _ Eg I) Gv) as [Hs' Ho].
    split; [exact (assign_sets _ _ _ _ Ea I Hs') | exact Ho].
  - injection E as <- <- _. split; [exact I|constructor].
  - injection E as <- <- _. split; [exact I|constructor].
  - injection E as <- <- _. split; [exact I|constructor].
  - destruct (mm_items m) as [l|] eqn:X; [|discriminate]. injection E as <- <- _. split; [exact I|]. cbn [mm_got].
    unfold mm_items, m_items in X. destruct (m_size m <=? len (m_storage m)); [|discriminate].
    apply (lists_sets _ _ X). apply Forall_firstn. destruct I as [I _]. revert I. apply Forall_impl. intros e H. apply H.
Qed.
End Multi.

(** Every key and every value in any slot of any set is one that was given, or an initial one;
    what is handed out too.  There are always KeyN sets of ValueN values. *)
Theorem C87_multimap : forall K V (keqb : K -> K -> bool) (veqb : V -> V -> bool) (P : K -> Prop) (Q : V -> Prop)
  kcap vcap dk dv m ops m' rs ps,
  mm_init kcap vcap dk dv = Some m -> P dk -> Q dv ->
  Forall (fun o => Forall P (mm_keys o) /\ Forall Q (mm_given o)) ops ->
  run (mm_step keqb veqb vcap dv) m ops = Done m' rs ps ->
  Forall (fun e => P (fst e) /\ Forall Q (s_storage (snd e)) /\ len (s_storage (snd e)) = vcap) (m_storage m') /\
  len (m_storage m') = kcap /\ Forall (fun r => Forall Q (mm_got r)) rs.
Proof.
  intros K V keqb veqb P Q kcap vcap dk dv m ops m' rs ps M Hk Hv Ho R.
  destruct (run_keeps (mm_step keqb veqb vcap dv) (minv P (sinv Q (N.to_nat vcap)) (N.to_nat kcap))
    (fun o => Forall P (mm_keys o) /\ Forall Q (mm_given o)) (fun r => Forall Q (mm_got r))
    (mm_keeps_all keqb veqb vcap dv P Q _ Hv) ops m m' rs ps R) as [[H L] O]; [|exact Ho|].
  - revert M. unfold mm_init. destruct (empty_set vcap dv) as [s|] eqn:Es; [|discriminate].
    unfold m_make. change (len (@nil (K * cset V))) with 0. destruct (N.leb_spec 0 kcap); [|discriminate].
    intro M. injection M as <-. rewrite N.sub_0_r. split; cbn [m_storage app]; [|apply repeat_length].
    apply Forall_forall. intros y Hy. apply repeat_spec in Hy. subst y. split; [exact Hk|].
    apply (s_make_sets vcap dv Q [] s Es Hv). constructor.
  - split; [|split; [unfold len; lia|exact O]]. eapply Forall_impl; [|exact H]. intros e (H1 & H2 & H3).
    repeat split; auto. unfold len. lia.
Qed.
Print Assumptions C87_multimap.

(** clear lets go of nothing, and neither does erasing the last key with its only value. *)
Theorem C87_multimap_refuted : forall K V (keqb : K -> K -> bool) (veqb : V -> V -> bool),
  (forall x y, keqb x y = true <-> x = y) -> (forall x y, veqb x y = true <-> x = y) -> forall vcap dv (m : cmap K (cset V)),
  (exists m', mm_step keqb veqb vcap dv m MMClear = Done m' MMUnit [] /\
     mm_step keqb veqb vcap dv m' MMEmpty = Done m' (MMBool true) [] /\ m_storage m' = m_storage m) /\
  (forall k v st e t, m_storage m = (k, {| s_storage := v :: st; s_size := 1 |}) :: e :: t -> m_size m = 1 ->
   exists m', mm_step keqb veqb vcap dv m (MMErase k v) = Done m' (MMNum 1) [] /\
     mm_step keqb veqb vcap dv m' MMEmpty = Done m' (MMBool true) [] /\
     exists st', In (k, {| s_storage := v :: st'; s_size := 0 |}) (unused (m_size m') (m_storage m'))).
Proof.
  intros K V keqb veqb Hk Hv vcap dv m. split; [eexists; repeat split|].
  intros k v st e t Est Esz. destruct m as [sto sz]. cbn [m_storage m_size] in *. subst sto sz.
  assert (T : forall x, keqb x x = true) by (intro; now apply Hk). assert (T' : forall x, veqb x x = true) by (intro; now apply Hv).
  assert (D : sz_dec 1 = 0) by reflexivity.
  assert (I : forall x : K * cset V, m_items {| m_storage := x :: e :: t; m_size := 1 |} = Some [x]).
  { intro x. unfold m_items. cbn [m_size m_storage]. rewrite !len_cons. destruct (N.leb_spec 1 (len t + 1 + 1)); [reflexivity|lia]. }
  assert (R : forall x : K * cset V, rd (x :: e :: t) 0 = Some x).
  { intro x. unfold rd. rewrite !len_cons. destruct (N.ltb_spec 0 (len t + 1 + 1)); [reflexivity|lia]. }
  assert (W : forall x y : K * cset V, wr (x :: e :: t) 0 y = Some (y :: e :: t)).
  { intros x y. unfold wr. rewrite !len_cons. destruct (N.ltb_spec 0 (len t + 1 + 1)); [reflexivity|lia]. }
  assert (I' : s_items {| s_storage := v :: st; s_size := 1 |} = Some [v]).
  { unfold s_items. cbn [s_size s_storage]. rewrite len_cons. destruct (N.leb_spec 1 (len st + 1)); [reflexivity|lia]. }
  assert (R' : rd (v :: st) 0 = Some v).
  { unfold rd. rewrite len_cons. destruct (N.ltb_spec 0 (len st + 1)); [reflexivity|lia]. }
  assert (W' : wr (v :: st) 0 v = Some (v :: st)).
  { unfold wr. rewrite len_cons. destruct (N.ltb_spec 0 (len st + 1)); [reflexivity|lia]. }
  assert (F : forall s : cset V, m_find keqb {| m_storage := (k, s) :: e :: t; m_size := 1 |} k = Some (Some O)).
  { intro s. unfold m_find. rewrite I. cbn. now rewrite T. }
  assert (E : mm_erase keqb veqb {| m_storage := (k, {| s_storage := v :: st; s_size := 1 |}) :: e :: t; m_size := 1 |} k v
    = Some ({| m_storage := (k, {| s_storage := v :: st; s_size := 0 |}) :: e :: t; m_size := 0 |}, 1)).
  { unfold mm_erase, m_contains, m_get, m_get_assign, s_erase. rewrite F. cbn [option_map m_storage].
    change (N.of_nat 0) with 0. rewrite R. cbn [option_map snd s_size s_storage]. rewrite I'. cbn [find_idx]. rewrite T'. cbn zeta.
    cbn [s_size s_storage]. rewrite D. change (N.of_nat 0) with 0. rewrite R', W'. unfold m_set_at. cbn [m_storage]. change (N.of_nat 0) with 0.
    rewrite R, W. cbn [option_map s_size N.eqb m_size]. unfold m_erase. rewrite F. cbn zeta. cbn [m_size m_storage]. rewrite D.
    change (N.of_nat 0) with 0. rewrite R, W. reflexivity. }
  eexists. split; [cbn [mm_step]; rewrite E; reflexivity|]. split; [reflexivity|].
  exists st. cbn. now left.
Qed.
Print Assumptions C87_multimap_refuted.
Example C87_multimap_example : exists m m', mm_init 2 2 0 0 = Some m /\
  run (mm_step N.eqb N.eqb 2 0) m [MMInsert 1 10; MMInsert 1 11; MMErase 1 10; MMOnSet 1 SItems; MMErase 1 11; MMEmpty]
    = Done m' [MMUnit; MMUnit; MMNum 1; MMSet (SList [11]); MMNum 1; MMBool true] [] /\
  m_storage m' = [(1, {| s_storage := [11; 11]; s_size := 0 |}); (0, {| s_storage := [0; 0]; s_size := 0 |})].
Proof. eexists _, _. split; [reflexivity|]. split; vm_compute; reflexivity. Qed.
