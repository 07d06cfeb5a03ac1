From Verif Require Import Base BaseLemmas CxVectorModel CxVectorSpec CxVectorProofs VecProgModel VecProgSpec.
Open Scope N_scope.

Section P.
Context {A : Type}.

Lemma play_ok cap (f : callback A) : forall st c c' r,
  len st = cap -> (forall i x, c i = Some x -> rd st i = Some x) -> expected cap c f = Some (c', r) ->
  exists st', play st f = Some (st', match r with Some n => Returned n | None => Threw end) /\
  len st' = cap /\ (forall i x, c' i = Some x -> rd st' i = Some x) .
Proof.
  induction f as [n| |i next IH|i x next IH]; intros st c c' r L H E; cbn in *.
  - injection E as <- <-. eauto.
  - injection E as <- <-. eauto.
  - destruct (c i) as [x|] eqn:C; [|discriminate]. rewrite (H _ _ C). exact (IH x _ _ _ _ L H E).
  - destruct (N.ltb_spec i cap) as [Hi|]; [|discriminate]. destruct (wr_lt_Some st i x) as (st1 & W); [lia|].
    rewrite W. apply (IH st1 (put c i x) c' r); [rewrite (wr_len _ _ _ _ W); exact L| |exact E].
    intros j y Hj. rewrite (rd_wr _ _ _ _ j W). unfold put in Hj. destruct (j =? i); [exact Hj|exact (H _ _ Hj)].
Qed.

Lemma first_cells_ok (c : cells A) st n : forall l,
  (forall i x, c i = Some x -> rd st i = Some x) -> first_cells c n = Some l ->
  firstn n st = l /\ length l = n.
Proof.
  induction n as [|k IH]; intros l H E; cbn [first_cells] in E.
  - injection E as <-. split; reflexivity.
  - destruct (first_cells c k) as [l0|]; [|discriminate]. destruct (c (N.of_nat k)) as [x|] eqn:C; [|discriminate].
    injection E as <-. destruct (IH l0 H eq_refl) as [H1 H2]. specialize (H _ _ C).
    rewrite rd_nth_error, Nat2N.id in H. apply nth_error_split in H as (a & b & -> & La).
    rewrite <- La in H1 |- *. rewrite firstn_app_len in H1. subst l0. split.
    + replace (S (length a)) with (length (a ++ [x])) by (rewrite app_length; cbn; lia).
      replace (a ++ x :: b) with ((a ++ [x]) ++ b) by (rewrite <- app_assoc; reflexivity). apply firstn_app_len.
    + rewrite app_length. cbn. lia.
Qed.

Lemma vp_step_ok cap (v : vector A) l op l' o :
  cap < size_mod -> VRep cap v l -> vplist_step cap l op = Some (l', o) ->
  exists v', vp_step cap v op = Done v' o [] /\ VRep cap v' l'.
Proof.
  intros Hc HR H. destruct op as [op|f]; cbn [vplist_step vp_step] in *.
  - destruct (vlist_step cap l op) as [[l1 o1]|] eqn:E; [|discriminate]. injection H as <- <-.
    destruct (v_step_ok cap v l op l1 o1 Hc HR E) as (v' & -> & R). eauto.
  - destruct HR as (Hst & Hsz & t & Ht).
    destruct (expected cap (cells_of l) (f cap)) as [[c r]|] eqn:E; [|discriminate].
    assert (H0 : forall i x, cells_of l i = Some x -> rd (v_storage v) i = Some x).
    { intros i x Hx. unfold cells_of in Hx. rewrite rd_nth_error, Ht, nth_error_app1; [exact Hx|].
      apply nth_error_Some. congruence. }
    destruct (play_ok cap (f cap) _ _ _ _ Hst H0 E) as (st' & P & L & R).
    unfold v_overwrite. rewrite Hst, P. destruct r as [n|].
    + destruct (first_cells c (N.to_nat n)) as [l1|] eqn:F; [|discriminate]. injection H as <- <-.
      eexists. split; [reflexivity|]. destruct (first_cells_ok c st' _ _ R F) as [H1 H2].
      split; [exact L|]. cbn. split; [unfold len; lia|]. exists (skipn (N.to_nat n) st').
      rewrite <- H1, firstn_skipn. reflexivity.
    + destruct (first_cells c (length l)) as [l1|] eqn:F; [|discriminate]. injection H as <- <-.
      eexists. split; [reflexivity|]. destruct (first_cells_ok c st' _ _ R F) as [H1 H2].
      split; [exact L|]. cbn. split; [rewrite Hsz; unfold len; lia|]. exists (skipn (length l) st').
      rewrite <- H1 at 1. rewrite firstn_skipn. reflexivity.
Qed.

Lemma vp_run_ok cap ops : forall (v : vector A) l l' os,
  cap < size_mod -> VRep cap v l -> spec_run (vplist_step cap) l ops = Some (l', os) ->
  exists v', run (vp_step cap) v ops = Done v' os [] /\ VRep cap v' l'.
Proof.
  induction ops as [|op ops IH]; intros v l l' os Hc HR; cbn [spec_run run].
  - intros E; injection E as <- <-. exists v. split; [reflexivity|exact HR].
  - destruct (vplist_step cap l op) as [[l1 o]|] eqn:E1; [|discriminate].
    destruct (spec_run (vplist_step cap) l1 ops) as [[l2 os']|] eqn:E2; [|discriminate].
    intros E; injection E as <- <-.
    destruct (vp_step_ok cap _ _ _ _ _ Hc HR E1) as (v1 & E3 & HR1). rewrite E3.
    destruct (IH _ _ _ _ Hc HR1 E2) as (v2 & E4 & HR2). rewrite E4.
    exists v2. split; [reflexivity|exact HR2].
Qed.

(** Too large a size is not noticed. *)
Lemma overwrite_too_large cap (v : vector A) l n : VRep cap v l -> cap < n ->
  exists v', vp_step cap v (Overwrite (fun _ => Return n)) = Done v' (Finished true) [] /\
  vp_step cap v' (Plain VSize) = Done v' (PlainOut (VNum n)) [] /\
  vp_step cap v' (Plain VItems) = Undef.
Proof.
  intros (Hst & _ & _) Hn. eexists. cbn. split; [reflexivity|]. split; [reflexivity|].
  unfold v_items. cbn. destruct (N.leb_spec n (len (v_storage v))); [lia|reflexivity].
Qed.
End P.
