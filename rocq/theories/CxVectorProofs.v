From Verif Require Import Base BaseLemmas CxVectorModel CxVectorSpec.
Open Scope N_scope.

Definition VRep {A} (cap : N) (v : vector A) (l : list A) : Prop :=
  len (v_storage v) = cap /\ v_size v = len l /\ exists t, v_storage v = l ++ t.

Lemma find_app {A} (p : A -> bool) a b : find p (a ++ b) = match find p a with Some x => Some x | None => find p b end.
Proof. induction a as [|x a IH]; [reflexivity|]. cbn. destruct (p x); [reflexivity|exact IH]. Qed.
Lemma v_fill_ok {A} (ws : list (N * A)) : forall st, forallb (fun w => fst w <? len st) ws = true ->
  exists st', v_fill st ws = Some st' /\ len st' = len st /\
    forall i, rd st' i = match find (fun w => fst w =? i) (rev ws) with Some w => Some (snd w) | None => rd st i end.
Proof.
  induction ws as [|[i x] ws IH]; intros st H; cbn [v_fill].
  - exists st. split; [reflexivity|]. split; reflexivity.
  - cbn [forallb fst] in H. apply andb_prop in H as [Hi H]. apply N.ltb_lt in Hi.
    destruct (wr_lt_Some st i x Hi) as (st1 & E1). rewrite E1. assert (L1 := wr_len _ _ _ _ E1).
    destruct (IH st1) as (st2 & E2 & L2 & R2); [rewrite L1; exact H|]. exists st2. split; [exact E2|]. split; [congruence|].
    intros j. rewrite R2. cbn [rev]. rewrite find_app. destruct (find _ (rev ws)) as [w|]; [reflexivity|].
    rewrite (rd_wr _ _ _ _ j E1). cbn [find fst]. rewrite (N.eqb_sym j i). destruct (i =? j); reflexivity.
Qed.
Lemma all_there_firstn {A} (st : list A) (f : nat -> option A) n : forall k l,
  (forall i x, f i = Some x -> nth_error st (i - k) = Some x \/ (i < k)%nat) ->
  all_there (map f (seq k n)) = Some l -> firstn n st = l /\ length l = n /\ (n <= length st)%nat.
Proof.
  revert st. induction n as [|n IH]; intros st k l Hf E; cbn [seq map all_there] in E.
  - injection E as <-. split; [reflexivity|]. split; [reflexivity|lia].
  - destruct (f k) as [x|] eqn:Ek; [|discriminate]. destruct (all_there (map f (seq (S k) n))) as [r|] eqn:Er; [|discriminate].
    injection E as <-. destruct (Hf k x Ek) as [Hx|]; [|lia]. rewrite Nat.sub_diag in Hx. destruct st as [|y st]; [discriminate|].
    injection Hx as ->. destruct (IH st (S k) r) as (H1 & H2 & H3); [|exact Er|].
    + intros i z Hz. destruct (Hf i z Hz) as [Hi|]; [|right; lia]. destruct (Nat.lt_ge_cases i (S k)) as [|Hk]; [right; lia|]. left.
      replace (i - k)%nat with (S (i - S k)) in Hi by lia. exact Hi.
    + cbn [firstn length]. rewrite H1. split; [reflexivity|]. split; lia.
Qed.

Lemma rev_cases {A} (l : list A) : l = [] \/ exists r x, l = r ++ [x].
Proof. destruct l using rev_ind; [left; reflexivity|right; eauto]. Qed.

Lemma v_step_ok {A} cap (v : vector A) l op l' o :
  cap < size_mod -> VRep cap v l -> vlist_step cap l op = Some (l', o) ->
  exists v', v_step cap v op = Done v' o [] /\ VRep cap v' l'.
Proof.
  intros Hcap (Hst & Hsz & t & Ht) Hs.
  assert (Hle : len l <= cap) by (rewrite <- Hst, Ht, len_app; lia).
  assert (HR : VRep cap v l) by (split; [assumption|split; [assumption|eauto]]).
  assert (Hitems : v_items v = Some l).
  { unfold v_items. rewrite Hsz, Hst. destruct (N.leb_spec (len l) cap); [|lia].
    rewrite len_to_nat, Ht, firstn_app_len. reflexivity. }
  destruct op as [x| | |i|i x| | | | | | | |xs n]; cbn [vlist_step] in Hs; unfold v_step.
  - destruct (N.ltb_spec (len l) cap) as [Hlt|]; [|discriminate]. injection Hs as <- <-.
    destruct t as [|y t]; [rewrite app_nil_r in Ht; rewrite Ht in Hst; lia|].
    unfold v_write. rewrite Hsz, Ht, wr_app_len. eexists; split; [reflexivity|].
    unfold VRep; cbn [v_storage v_size]. split; [|split].
    + rewrite <- Hst, Ht, !len_app, !len_cons. reflexivity.
    + rewrite sz_inc_small by lia. rewrite len_app. reflexivity.
    + exists t. rewrite <- app_assoc. reflexivity.
  - destruct (rev_cases l) as [->|(r & x & ->)]; [discriminate|].
    rewrite rev_unit in Hs. injection Hs as <- <-. rewrite rev_involutive.
    rewrite len_app, len_cons, len_nil in *. rewrite <- app_assoc in Ht. cbn [app] in Ht.
    rewrite Hsz, sz_dec_pos by lia. replace (len r + (0 + 1) - 1) with (len r) by lia.
    rewrite Ht, rd_len. eexists; split; [reflexivity|].
    unfold VRep; cbn [v_storage v_size]. rewrite <- Ht. split; [assumption|]. split; [reflexivity|].
    exists (x :: t). assumption.
  - injection Hs as <- <-. eexists; split; [reflexivity|]. split; [assumption|].
    split; [reflexivity|]. exists (v_storage v). reflexivity.
  - destruct (N.ltb_spec i (len l)) as [Hi|]; [|discriminate].
    destruct (nth_error l (N.to_nat i)) as [x|] eqn:E; [|discriminate]. injection Hs as <- <-.
    rewrite Ht, rd_app1 by assumption. rewrite rd_nth_error, E. exists v. split; [reflexivity|exact HR].
  - destruct (N.ltb_spec i (len l)) as [Hi|]; [|discriminate]. injection Hs as <- <-.
    unfold v_write, wr. rewrite Hst. destruct (N.ltb_spec i cap); [|lia].
    eexists; split; [reflexivity|]. unfold VRep; cbn [v_storage v_size]. split; [|split].
    + unfold len. rewrite set_nth_length. exact Hst.
    + unfold len. rewrite set_nth_length. exact Hsz.
    + exists t. rewrite Ht. apply set_nth_app1. unfold len in Hi. lia.
  - destruct l as [|x r]; [discriminate|]. injection Hs as <- <-.
    rewrite Ht. cbn [app]. rewrite rd_cons0. exists v. split; [reflexivity|exact HR].
  - destruct (rev_cases l) as [->|(r & x & ->)]; [discriminate|].
    rewrite rev_unit in Hs. injection Hs as <- <-.
    rewrite len_app, len_cons, len_nil in Hsz, Hle. rewrite Hsz, sz_dec_pos by lia.
    replace (len r + (0 + 1) - 1) with (len r) by lia.
    rewrite Ht, <- app_assoc. cbn [app]. rewrite rd_len. exists v. split; [reflexivity|exact HR].
  - injection Hs as <- <-. rewrite Hsz. exists v. split; [reflexivity|exact HR].
  - injection Hs as <- <-. rewrite Hsz. exists v. split; [|exact HR].
    destruct l as [|x r]; [reflexivity|]. rewrite len_cons.
    destruct (N.eqb_spec (len r + 1) 0); [lia|reflexivity].
  - injection Hs as <- <-. rewrite Hsz. exists v. split; [reflexivity|exact HR].
  - injection Hs as <- <-. rewrite Hitems. exists v. split; [reflexivity|exact HR].
  - injection Hs as <- <-. rewrite Hitems. exists v. split; [reflexivity|exact HR].
  - destruct (forallb (fun w => fst w <? cap) xs) eqn:Hw; [|discriminate].
    destruct (all_there (map (overwritten l xs) (seq 0 (N.to_nat n)))) as [l1|] eqn:Ha; [|discriminate].
    cbn [option_map] in Hs. injection Hs as <- <-. destruct (v_fill_ok xs (v_storage v)) as (st & E & L & R); [rewrite Hst; exact Hw|].
    rewrite E. cbn [option_map ret]. eexists; split; [reflexivity|]. unfold VRep; cbn [v_storage v_size].
    destruct (all_there_firstn st (overwritten l xs) (N.to_nat n) 0 l1) as (H1 & H2 & H3); [|exact Ha|].
    + intros i x Hi. left. rewrite Nat.sub_0_r. unfold overwritten in Hi. specialize (R (N.of_nat i)). rewrite rd_nth_error, Nat2N.id in R.
      rewrite R. destruct (find _ (rev xs)) as [w|]; [exact Hi|]. rewrite rd_nth_error, Nat2N.id, Ht. rewrite nth_error_app1; [exact Hi|].
      apply nth_error_Some. congruence.
    + split; [congruence|]. split; [unfold len; lia|]. exists (skipn (N.to_nat n) st). rewrite <- H1. symmetry. apply firstn_skipn.
Qed.

Lemma v_run_ok {A} cap ops : forall (v : vector A) l l' os,
  cap < size_mod -> VRep cap v l -> spec_run (vlist_step cap) l ops = Some (l', os) ->
  exists v', run (v_step cap) v ops = Done v' os [] /\ VRep cap v' l'.
Proof.
  induction ops as [|op ops IH]; intros v l l' os Hc HR; cbn [spec_run run].
  - intros E; injection E as <- <-. exists v. split; [reflexivity|exact HR].
  - destruct (vlist_step cap l op) as [[l1 o]|] eqn:E1; [|discriminate].
    destruct (spec_run (vlist_step cap) l1 ops) as [[l2 os']|] eqn:E2; [|discriminate].
    intros E; injection E as <- <-.
    destruct (v_step_ok cap _ _ _ _ _ Hc HR E1) as (v1 & E3 & HR1). rewrite E3.
    destruct (IH _ _ _ _ Hc HR1 E2) as (v2 & E4 & HR2). rewrite E4.
    exists v2. split; [reflexivity|exact HR2].
Qed.

Lemma v_make_rep {A} cap (d : A) ts v : v_make cap d ts = Some v -> VRep cap v ts.
Proof.
  unfold v_make. destruct (N.leb_spec (len ts) cap) as [H|]; [|discriminate].
  intros E; injection E as <-. unfold VRep; cbn [v_storage v_size]. split; [|split].
  - rewrite len_app, len_repeat. lia.
  - reflexivity.
  - eauto.
Qed.

Lemma v_eq_loop_spec {A} (eqb : A -> A -> bool) fuel : forall p1 l1 t1 p2 l2 t2,
  len p1 = len p2 -> len l1 = len l2 -> (length l1 <= fuel)%nat ->
  exists b, v_eq_loop eqb fuel (len p1) (len p1 + len l1) (p1 ++ l1 ++ t1) (p2 ++ l2 ++ t2) = Some b
    /\ (b = true <-> Forall2 (fun x y => eqb x y = true) l1 l2).
Proof.
  induction fuel as [|fuel IH]; intros p1 l1 t1 p2 l2 t2 Hp Hl Hf.
  - destruct l1 as [|x l1]; [|cbn in Hf; lia].
    destruct l2 as [|y l2]; [|rewrite len_nil, len_cons in Hl; lia].
    exists true. cbn [v_eq_loop]. destruct (N.ltb_spec (len p1) (len p1 + len (@nil A))).
    + rewrite len_nil in *. lia.
    + split; [reflexivity|split; [constructor|reflexivity]].
  - destruct l1 as [|x l1], l2 as [|y l2]; rewrite ?len_nil, ?len_cons in Hl; try lia.
    + exists true. cbn [v_eq_loop]. destruct (N.ltb_spec (len p1) (len p1 + len (@nil A))).
      * rewrite len_nil in *. lia.
      * split; [reflexivity|split; [constructor|reflexivity]].
    + cbn [v_eq_loop]. rewrite len_cons.
      destruct (N.ltb_spec (len p1) (len p1 + (len l1 + 1))); [|lia].
      cbn [app].
      assert (E1 : rd (p1 ++ x :: l1 ++ t1) (len p1) = Some x) by apply rd_len.
      assert (E2 : rd (p2 ++ y :: l2 ++ t2) (len p1) = Some y) by (rewrite Hp; apply rd_len).
      rewrite E1, E2. clear E1 E2.
      destruct (eqb x y) eqn:E.
      * cbn [negb].
        destruct (IH (p1 ++ [x]) l1 t1 (p2 ++ [y]) l2 t2) as (b & Eb & Hb);
          [rewrite !len_app, !len_cons, !len_nil; lia|lia|cbn in Hf; lia|].
        exists b. split.
        -- rewrite <- Eb. rewrite len_app, len_cons, len_nil, <- !app_assoc. cbn [app].
           f_equal; lia.
        -- rewrite Hb. split; [intros F; constructor; assumption|]. intros F; inversion F; assumption.
      * exists false. split; [reflexivity|]. split; [discriminate|].
        intros F. inversion F. congruence.
Qed.

Lemma v_eq_ok {A} (eqb : A -> A -> bool) cap v1 l1 v2 l2 :
  VRep cap v1 l1 -> VRep cap v2 l2 ->
  exists b, v_eq eqb v1 v2 = Some b /\ (b = true <-> Forall2 (fun x y => eqb x y = true) l1 l2).
Proof.
  intros (Hc1 & Hs1 & t1 & Ht1) (Hc2 & Hs2 & t2 & Ht2). unfold v_eq. rewrite Hs1, Hs2.
  destruct (N.eqb_spec (len l1) (len l2)) as [E|E]; cbn [negb].
  - destruct (v_eq_loop_spec eqb (length (v_storage v1)) [] l1 t1 [] l2 t2) as (b & Eb & Hb);
      [reflexivity|exact E| |].
    { rewrite Ht1, app_length. lia. }
    exists b. split; [|exact Hb]. cbn [app] in Eb. rewrite <- Ht1, <- Ht2 in Eb. exact Eb.
  - exists false. split; [reflexivity|]. split; [discriminate|].
    intros F. destruct E. unfold len. f_equal. clear -F. induction F; cbn; congruence.
Qed.

Lemma pointwise_eq {A} (eqb : A -> A -> bool) (Heq : forall x y, eqb x y = true <-> x = y) l1 l2 :
  Forall2 (fun x y => eqb x y = true) l1 l2 <-> l1 = l2.
Proof.
  split.
  - intros F. induction F as [|x y a b E F IH]; [reflexivity|]. apply Heq in E. congruence.
  - intros <-. induction l1; constructor; [apply Heq; reflexivity|assumption].
Qed.

Lemma cx_vector_list A cap (d : A) ts v ops l outs :
  cap < size_mod -> v_make cap d ts = Some v ->
  spec_run (vlist_step cap) ts ops = Some (l, outs) ->
  exists v', run (v_step cap) v ops = Done v' outs [].
Proof.
  intros Hc Hm Hs. destruct (v_run_ok cap ops v ts l outs Hc (v_make_rep _ _ _ _ Hm) Hs)
    as (v' & E & _). eauto.
Qed.

Lemma cx_vector_eq A (eqb : A -> A -> bool)
  cap (d1 d2 : A) ts1 ts2 v1 v2 ops1 ops2 l1 l2 outs1 outs2 w1 w2 :
  cap < size_mod ->
  v_make cap d1 ts1 = Some v1 -> v_make cap d2 ts2 = Some v2 ->
  spec_run (vlist_step cap) ts1 ops1 = Some (l1, outs1) ->
  spec_run (vlist_step cap) ts2 ops2 = Some (l2, outs2) ->
  run (v_step cap) v1 ops1 = Done w1 outs1 [] ->
  run (v_step cap) v2 ops2 = Done w2 outs2 [] ->
  exists b, v_eq eqb w1 w2 = Some b /\ (b = true <-> Forall2 (fun x y => eqb x y = true) l1 l2) /\
    ((forall x y, eqb x y = true <-> x = y) -> (b = true <-> l1 = l2)).
Proof.
  intros Hc Hm1 Hm2 Hs1 Hs2 Hr1 Hr2.
  destruct (v_run_ok cap ops1 v1 ts1 l1 outs1 Hc (v_make_rep _ _ _ _ Hm1) Hs1) as (x1 & E1 & R1).
  destruct (v_run_ok cap ops2 v2 ts2 l2 outs2 Hc (v_make_rep _ _ _ _ Hm2) Hs2) as (x2 & E2 & R2).
  rewrite E1 in Hr1. rewrite E2 in Hr2. injection Hr1 as <-. injection Hr2 as <-.
  destruct (v_eq_ok eqb cap _ _ _ _ R1 R2) as (b & E & H). exists b. split; [exact E|]. split; [exact H|].
  intros Heq. rewrite H. apply pointwise_eq. exact Heq.
Qed.

(** Over/underflow is undefined behaviour, never a wrong answer. *)
Lemma cx_vector_ub A cap (d : A) ts v ops l outs :
  cap < size_mod -> v_make cap d ts = Some v ->
  spec_run (vlist_step cap) ts ops = Some (l, outs) ->
  (forall x, len l = cap -> run (v_step cap) v (ops ++ [VPush x]) = Undef) /\
  (l = [] -> run (v_step cap) v (ops ++ [VPop]) = Undef).
Proof.
  intros Hc Hm Hs.
  destruct (v_run_ok cap ops v ts l outs Hc (v_make_rep _ _ _ _ Hm) Hs) as (x1 & E1 & R1).
  destruct R1 as (Hst & Hsz & t & Ht). split.
  - intros x Hl. rewrite (run_app _ _ _ _ _ _ _ E1). cbn [run]. unfold v_step, v_write.
    rewrite wr_ge_None by lia. reflexivity.
  - intros Hl. rewrite (run_app _ _ _ _ _ _ _ E1). cbn [run]. unfold v_step.
    rewrite Hsz, Hl. change (len (@nil A)) with 0. rewrite sz_dec_0. rewrite rd_ge_None by lia.
    reflexivity.
Qed.
