From Verif Require Import Base BaseLemmas CxQueueModel CxQueueSpec.
Open Scope N_scope.

Section Proofs.
Context {A : Type} (mv : A -> A).
Variable cap : N.
Hypothesis cap_pos : 0 < cap.
Hypothesis cap_small : cap < size_mod.

Definition slot (base i : N) : N := if base + i <? cap then base + i else base + i - cap.

Definition Rep (q : queue A) (l : list A) : Prop :=
  len (q_storage q) = cap /\
  q_pop q < cap /\
  q_size q = len l /\
  len l <= cap /\
  q_push q = slot (q_pop q) (if len l =? 0 then cap - 1 else len l - 1) /\
  forall i, i < len l -> rd (q_storage q) (slot (q_pop q) i) = rd l i.

Lemma slot_lt b i : b < cap -> i < cap -> slot b i < cap.
Proof. unfold slot. intros. destruct (N.ltb_spec (b + i) cap); lia. Qed.

Lemma slot_inj b i j : b < cap -> i < cap -> j < cap -> slot b i = slot b j -> i = j.
Proof.
  unfold slot. intros. destruct (N.ltb_spec (b + i) cap), (N.ltb_spec (b + j) cap); lia.
Qed.

Lemma rep_init d : Rep (q_init cap d) [].
Proof.
  unfold Rep, q_init; cbn [q_storage q_push q_pop q_size]. change (len (@nil A)) with 0.
  repeat split; try lia.
  - rewrite len_repeat. lia.
  - rewrite sz_dec_pos by lia. unfold slot. ncmp; lia.
Qed.

Lemma push_body_ok q l v :
  Rep q l -> len l < cap ->
  exists q' , push_body cap q v = Some (q', slot (q_pop q) (len l)) /\
    Rep q' (l ++ [v]) /\ q_pop q' = q_pop q.
Proof.
  intros (Hst & Hpop & Hsz & Hle & Hpush & Hrd) Hlt.
  unfold push_body.
  set (i := if sz_inc (q_push q) =? cap then 0 else sz_inc (q_push q)).
  assert (Hi : i = slot (q_pop q) (len l)).
  { unfold i. rewrite Hpush.
    assert (Hs : slot (q_pop q) (if len l =? 0 then cap - 1 else len l - 1) < cap)
      by (apply slot_lt; [assumption|destruct (N.eqb_spec (len l) 0); lia]).
    rewrite sz_inc_small by lia.
    unfold slot in *. destruct (N.eqb_spec (len l) 0) as [E|E];
    repeat match goal with |- context [?a <? ?b] => destruct (N.ltb_spec a b)
      | |- context [?a =? ?b] => destruct (N.eqb_spec a b) end; lia. }
  clearbody i. subst i.
  assert (Hs : slot (q_pop q) (len l) < cap) by (apply slot_lt; lia).
  destruct (wr_lt_Some (q_storage q) (slot (q_pop q) (len l)) v ltac:(lia)) as [st Ew].
  rewrite Ew. eexists; split; [reflexivity|]. split; [|reflexivity].
  unfold Rep; cbn [q_storage q_push q_pop q_size].
  rewrite len_app, len_cons, len_nil. rewrite (wr_len _ _ _ _ Ew).
  repeat split; try lia.
  - rewrite sz_inc_small by lia. lia.
  - destruct (N.eqb_spec (len l + (0 + 1)) 0); [lia|]. f_equal. lia.
  - intros j Hj. rewrite (rd_wr _ _ _ _ _ Ew).
    destruct (N.eqb_spec (slot (q_pop q) j) (slot (q_pop q) (len l))) as [E|E].
    + apply slot_inj in E; try lia. subst j. rewrite rd_app2 by lia.
      rewrite N.sub_diag. reflexivity.
    + assert (j <> len l) by congruence. rewrite rd_app1 by lia. apply Hrd. lia.
Qed.

Lemma pop_body_ok q x l :
  Rep q (x :: l) -> exists q', pop_body mv cap q = Some (q', x) /\ Rep q' l.
Proof.
  intros (Hst & Hpop & Hsz & Hle & Hpush & Hrd).
  rewrite len_cons in *. unfold pop_body.
  assert (E0 := Hrd 0 ltac:(lia)). rewrite rd_cons0 in E0.
  assert (S0 : slot (q_pop q) 0 = q_pop q)
    by (unfold slot; destruct (N.ltb_spec (q_pop q + 0) cap); lia).
  rewrite S0 in E0. rewrite E0.
  destruct (wr_lt_Some (q_storage q) (q_pop q) (mv x) ltac:(lia)) as [st Ew]. rewrite Ew.
  eexists; split; [reflexivity|].
  unfold Rep; cbn [q_storage q_push q_pop q_size].
  assert (Hdec : sz_dec (q_size q) = len l) by (rewrite sz_dec_pos; lia).
  assert (Hlen : len st = cap) by (rewrite (wr_len _ _ _ _ Ew); exact Hst).
  assert (Hinc : sz_inc (q_pop q) = q_pop q + 1) by (apply sz_inc_small; lia).
  rewrite Hinc.
  repeat split.
  - exact Hlen.
  - destruct (N.eqb_spec (q_pop q + 1) cap); lia.
  - exact Hdec.
  - lia.
  - rewrite Hpush. destruct (N.eqb_spec (len l + 1) 0); [lia|].
    unfold slot.
    destruct (N.eqb_spec (q_pop q + 1) cap), (N.eqb_spec (len l) 0);
    repeat match goal with |- context [?a <? ?b] => destruct (N.ltb_spec a b) end; lia.
  - intros j Hj. rewrite (rd_wr _ _ _ _ _ Ew).
    assert (E : slot (if q_pop q + 1 =? cap then 0 else q_pop q + 1) j
                = slot (q_pop q) (j + 1)).
    { unfold slot. destruct (N.eqb_spec (q_pop q + 1) cap);
      repeat match goal with |- context [?a <? ?b] => destruct (N.ltb_spec a b) end; lia. }
    rewrite E. destruct (N.eqb_spec (slot (q_pop q) (j + 1)) (q_pop q)) as [E'|E'].
    + rewrite <- S0 in E' at 2. apply slot_inj in E'; lia.
    + rewrite Hrd by lia. apply rd_consS.
Qed.

Lemma set_at_ok q l k v :
  Rep q l -> k < len l ->
  exists q', set_at q (slot (q_pop q) k) v = Some (q', OUnit) /\
             Rep q' (set_nth (N.to_nat k) v l).
Proof.
  intros (Hst & Hpop & Hsz & Hle & Hpush & Hrd) Hk.
  unfold set_at.
  destruct (wr_lt_Some (q_storage q) (slot (q_pop q) k) v) as [st Ew].
  { rewrite Hst. apply slot_lt; lia. }
  rewrite Ew. eexists; split; [reflexivity|].
  assert (El : len (set_nth (N.to_nat k) v l) = len l)
    by (unfold len; rewrite set_nth_length; reflexivity).
  unfold Rep; cbn [q_storage q_push q_pop q_size]. rewrite El, (wr_len _ _ _ _ Ew).
  repeat split; try assumption.
  intros j Hj. rewrite (rd_wr _ _ _ _ _ Ew).
  rewrite (rd_nth_error (set_nth _ _ _)), nth_error_set_nth by (unfold len in Hk; lia).
  destruct (N.eqb_spec (slot (q_pop q) j) (slot (q_pop q) k)) as [E|E].
  - apply slot_inj in E; try lia. subst j. rewrite Nat.eqb_refl. reflexivity.
  - destruct (Nat.eqb_spec (N.to_nat j) (N.to_nat k)) as [E'|E'].
    + assert (j = k) by lia. congruence.
    + rewrite <- rd_nth_error. apply Hrd. lia.
Qed.

Lemma set_last_set_nth (l : list A) v :
  l <> [] -> set_last l v = set_nth (length l - 1) v l.
Proof.
  unfold set_last. induction l as [|x l IH]; [congruence|]. intros _.
  destruct l as [|y l]; [reflexivity|].
  cbn [removelast length]. replace (S (S (length l)) - 1)%nat with (S (length l)) by lia.
  cbn [set_nth]. cbn [app]. f_equal. rewrite <- app_nil_r at 1.
  rewrite app_nil_r. assert (E : removelast (y :: l) ++ [v] = set_nth (length (y :: l) - 1) v (y :: l))
    by (apply IH; congruence).
  cbn [length] in E. replace (S (length l) - 1)%nat with (length l) in E by lia. exact E.
Qed.

Lemma back_slot q l : Rep q l -> l <> [] -> q_push q = slot (q_pop q) (len l - 1).
Proof.
  intros (_ & _ & _ & _ & Hpush & _) Hne. rewrite Hpush.
  destruct (N.eqb_spec (len l) 0) as [E|E]; [|reflexivity].
  destruct l; [congruence|]. rewrite len_cons in E. lia.
Qed.

Lemma check_push_ok pol (l : list A) :
  len l < cap -> check_push pol (len l) cap = None.
Proof. destruct pol; cbn; [|reflexivity]. intros. destruct (N.leb_spec cap (len l)); [lia|reflexivity]. Qed.

Lemma check_pop_ok pol (l : list A) :
  l <> [] -> check_pop pol (len l) = None.
Proof.
  destruct pol; cbn; [|reflexivity]. intros H. destruct (N.leb_spec (len l) 0); [|reflexivity].
  destruct l; [congruence|]. rewrite len_cons in *. lia.
Qed.

Lemma rep_size q l : Rep q l -> q_size q = len l.
Proof. intros (_ & _ & H & _). exact H. Qed.

(** One step: whenever the specification accepts the operation, so does the model, with
    the same output, no panic, and matching states, under any policy and handler. *)
Lemma step_ok pol h q l op l' o :
  Rep q l -> fifo_step cap l op = Some (l', o) ->
  exists q', q_step mv pol h cap q op = Done q' o [] /\ Rep q' l'.
Proof.
  intros HR Hs. pose proof (rep_size _ _ HR) as Hsz.
  destruct op as [v|v w| | | |v|v| | | |]; cbn [fifo_step] in Hs; unfold q_step; rewrite ?Hsz.
  - destruct (N.ltb_spec (len l) cap) as [Hlt|]; [|discriminate]. injection Hs as <- <-.
    rewrite check_push_ok by assumption.
    destruct (push_body_ok q l v HR Hlt) as (q' & E & HR' & _). rewrite E.
    exists q'. split; [reflexivity|exact HR'].
  - destruct (N.ltb_spec (len l) cap) as [Hlt|]; [|discriminate]. injection Hs as <- <-.
    rewrite check_push_ok by assumption.
    destruct (push_body_ok q l v HR Hlt) as (q' & E & HR' & Hp). rewrite E.
    rewrite <- Hp.
    destruct (set_at_ok q' (l ++ [v]) (len l) w HR') as (q'' & E' & HR'').
    { rewrite len_app, len_cons. lia. }
    rewrite E'. exists q''. split; [destruct h; reflexivity|].
    replace (l ++ [w]) with (set_nth (N.to_nat (len l)) w (l ++ [v])); [exact HR''|].
    unfold len. rewrite Nat2N.id. clear. induction l as [|y l IH]; cbn; [reflexivity|].
    f_equal. exact IH.
  - destruct l as [|x r]; [discriminate|]. injection Hs as <- <-.
    rewrite check_pop_ok by congruence.
    destruct (pop_body_ok q x r HR) as (q' & E & HR'). rewrite E.
    exists q'. split; [reflexivity|exact HR'].
  - destruct l as [|x r]; [discriminate|]. injection Hs as <- <-.
    rewrite check_pop_ok by congruence.
    destruct HR as (Hst & Hpop & Hsz' & Hle & Hpush & Hrd).
    assert (E0 := Hrd 0 ltac:(rewrite len_cons; lia)). rewrite rd_cons0 in E0.
    replace (slot (q_pop q) 0) with (q_pop q) in E0
      by (unfold slot; destruct (N.ltb_spec (q_pop q + 0) cap); lia).
    rewrite E0. exists q. split; [reflexivity|]. repeat split; assumption.
  - destruct (last_opt l) as [x|] eqn:El; [|discriminate]. injection Hs as <- <-.
    assert (Hne : l <> []) by (destruct l; [discriminate|congruence]).
    rewrite check_pop_ok by assumption. rewrite (back_slot _ _ HR Hne).
    pose proof HR as (Hst & Hpop & Hsz' & Hle & Hpush & Hrd).
    assert (Hpos : 0 < len l) by (destruct l; [congruence|rewrite len_cons; lia]).
    rewrite Hrd by lia. rewrite rd_nth_error. unfold last_opt in El. unfold len.
    replace (N.to_nat (N.of_nat (length l) - 1)) with (length l - 1)%nat by lia.
    rewrite El. exists q. split; [reflexivity|exact HR].
  - destruct l as [|x r]; [discriminate|]. injection Hs as <- <-.
    rewrite check_pop_ok by congruence.
    destruct (set_at_ok q (x :: r) 0 v HR) as (q' & E & HR'); [rewrite len_cons; lia|].
    replace (slot (q_pop q) 0) with (q_pop q) in E
      by (destruct HR as (_ & Hpop & _); unfold slot; destruct (N.ltb_spec (q_pop q + 0) cap); lia).
    rewrite E. exists q'. split; [reflexivity|exact HR'].
  - destruct l as [|x r]; [discriminate|]. injection Hs as <- <-.
    rewrite check_pop_ok by congruence.
    rewrite (back_slot _ _ HR) by congruence.
    destruct (set_at_ok q (x :: r) (len (x :: r) - 1) v HR) as (q' & E & HR');
      [rewrite len_cons; lia|].
    rewrite E. exists q'. split; [reflexivity|].
    rewrite set_last_set_nth by congruence.
    replace (length (x :: r) - 1)%nat with (N.to_nat (len (x :: r) - 1)) by (unfold len; lia).
    exact HR'.
  - injection Hs as <- <-. eexists; split; [reflexivity|].
    destruct HR as (Hst & Hpop & Hsz' & Hle & Hpush & Hrd).
    unfold Rep; cbn [q_storage q_push q_pop q_size]. change (len (@nil A)) with 0.
    repeat split; try lia; try assumption.
    rewrite sz_dec_pos by lia. unfold slot. ncmp; lia.
  - injection Hs as <- <-. exists q; split; [reflexivity|exact HR].
  - injection Hs as <- <-. exists q; split; [reflexivity|exact HR].
  - injection Hs as <- <-. exists q; split; [reflexivity|exact HR].
Qed.

Lemma run_ok pol h q l ops l' os :
  Rep q l -> spec_run (fifo_step cap) l ops = Some (l', os) ->
  exists q', run (q_step mv pol h cap) q ops = Done q' os [] /\ Rep q' l'.
Proof.
  revert q l os. induction ops as [|op ops IH]; intros q l os HR; cbn [spec_run run].
  - intros E; injection E as <- <-. exists q. split; [reflexivity|exact HR].
  - destruct (fifo_step cap l op) as [[l1 o]|] eqn:E1; [|discriminate].
    destruct (spec_run (fifo_step cap) l1 ops) as [[l2 os']|] eqn:E2; [|discriminate].
    intros E; injection E as <- <-.
    destruct (step_ok pol h _ _ _ _ _ HR E1) as (q1 & E3 & HR1). rewrite E3.
    destruct (IH _ _ _ HR1 E2) as (q2 & E4 & HR2). rewrite E4.
    exists q2. split; [reflexivity|exact HR2].
Qed.

(** A violated precondition is caught by the safe policy before anything changes. *)
Lemma step_violation q l op :
  Rep q l -> fifo_step cap l op = None ->
  q_step mv Safe DoesNotReturn cap q op = Stopped q (expected_panic op).
Proof.
  intros HR Hs. pose proof (rep_size _ _ HR) as Hsz.
  destruct HR as (_ & _ & _ & Hle & _).
  assert (Hempty : l = [] -> check_pop Safe (q_size q) = Some Underflow).
  { intros ->. rewrite Hsz. reflexivity. }
  assert (Hfull : ~ (len l < cap) -> check_push Safe (q_size q) cap = Some Overflow).
  { intros H. rewrite Hsz. unfold check_push. destruct (N.leb_spec cap (len l)); [reflexivity|lia]. }
  destruct op as [v|v w| | | |v|v| | | |]; cbn [fifo_step] in Hs; unfold q_step; try discriminate.
  - rewrite Hfull; [reflexivity|]. destruct (N.ltb_spec (len l) cap); [discriminate|lia].
  - rewrite Hfull; [reflexivity|]. destruct (N.ltb_spec (len l) cap); [discriminate|lia].
  - rewrite Hempty; [reflexivity|]. destruct l; [reflexivity|discriminate].
  - rewrite Hempty; [reflexivity|]. destruct l; [reflexivity|discriminate].
  - rewrite Hempty; [reflexivity|]. destruct l as [|x l]; [reflexivity|].
    unfold last_opt in Hs. destruct (nth_error (x :: l) (length (x :: l) - 1)) eqn:E; [discriminate|].
    apply nth_error_None in E. cbn in E. lia.
  - rewrite Hempty; [reflexivity|]. destruct l; [reflexivity|discriminate].
  - rewrite Hempty; [reflexivity|]. destruct l; [reflexivity|discriminate].
Qed.

(** With a handler that returns (the default), the operation goes ahead regardless. *)
Lemma push_overflow_returning q l v :
  Rep q l -> len l = cap ->
  exists q', q_step mv Safe Returns cap q (Push v) = Done q' (OVal v) [Overflow] /\
    q_size q' = (cap + 1) mod size_mod /\
    rd (q_storage q') (q_pop q') = Some v.
Proof.
  intros HR Hfull. pose proof (rep_size _ _ HR) as Hsz.
  destruct HR as (Hst & Hpop & Hsz' & Hle & Hpush & Hrd).
  unfold q_step. rewrite Hsz. unfold check_push.
  destruct (N.leb_spec cap (len l)); [|lia].
  unfold push_body.
  set (i := if sz_inc (q_push q) =? cap then 0 else sz_inc (q_push q)).
  assert (Hi : i = q_pop q).
  { unfold i. rewrite Hpush.
    assert (Hs : slot (q_pop q) (if len l =? 0 then cap - 1 else len l - 1) < cap)
      by (apply slot_lt; [assumption|destruct (N.eqb_spec (len l) 0); lia]).
    rewrite sz_inc_small by lia. unfold slot in *.
    destruct (N.eqb_spec (len l) 0);
    repeat match goal with |- context [?a <? ?b] => destruct (N.ltb_spec a b)
      | |- context [?a =? ?b] => destruct (N.eqb_spec a b) end; lia. }
  clearbody i. subst i.
  destruct (wr_lt_Some (q_storage q) (q_pop q) v ltac:(lia)) as [st Ew]. rewrite Ew.
  cbn. eexists; split; [reflexivity|]. cbn [q_size q_storage q_pop]. split.
  - unfold sz_inc. rewrite Hsz, Hfull. reflexivity.
  - rewrite (rd_wr _ _ _ _ _ Ew), N.eqb_refl. reflexivity.
Qed.

Lemma pop_underflow_returning q :
  Rep q [] ->
  exists q' x, q_step mv Safe Returns cap q Pop = Done q' (OVal x) [Underflow] /\
    q_size q' = size_mod - 1.
Proof.
  intros HR. pose proof (rep_size _ _ HR) as Hsz.
  destruct HR as (Hst & Hpop & Hsz' & Hle & Hpush & Hrd).
  unfold q_step. rewrite Hsz. cbn [len length N.of_nat check_pop N.leb N.compare].
  unfold pop_body. destruct (rd_lt_Some (q_storage q) (q_pop q) ltac:(lia)) as [x Er].
  destruct (wr_lt_Some (q_storage q) (q_pop q) (mv x) ltac:(lia)) as [st Ew].
  rewrite Er, Ew. cbn. eexists; exists x; split; [reflexivity|].
  cbn [q_size]. rewrite Hsz. apply sz_dec_0.
Qed.
End Proofs.

Lemma cx_queue_fifo (A : Type) (mv : A -> A) (cap : N) (d : A) pol h ops l outs :
  0 < cap -> cap < size_mod ->
  spec_run (fifo_step cap) [] ops = Some (l, outs) ->
  exists q, run (q_step mv pol h cap) (q_init cap d) ops = Done q outs [].
Proof.
  intros H1 H2 Hs.
  destruct (run_ok mv cap H1 H2 pol h _ _ _ _ _ (rep_init mv cap H1 H2 d) Hs) as (q & E & _).
  exists q. exact E.
Qed.

Lemma cx_queue_panics_exactly (A : Type) (mv : A -> A) (cap : N) (d : A) ops l outs op :
  0 < cap -> cap < size_mod ->
  spec_run (fifo_step cap) [] ops = Some (l, outs) ->
  exists q, run (q_step mv Safe DoesNotReturn cap) (q_init cap d) ops = Done q outs [] /\
    match fifo_step cap l op with
    | Some (_, o) => exists q', q_step mv Safe DoesNotReturn cap q op = Done q' o []
    | None => q_step mv Safe DoesNotReturn cap q op = Stopped q (expected_panic op)
    end.
Proof.
  intros H1 H2 Hs.
  destruct (run_ok mv cap H1 H2 Safe DoesNotReturn _ _ _ _ _ (rep_init mv cap H1 H2 d) Hs)
    as (q & E & HR).
  exists q. split; [exact E|].
  destruct (fifo_step cap l op) as [[l' o]|] eqn:Eo.
  - destruct (step_ok mv cap H1 H2 Safe DoesNotReturn _ _ _ _ _ HR Eo) as (q' & E' & _).
    exists q'. exact E'.
  - apply (step_violation mv cap) with (l := l); assumption.
Qed.

Lemma cx_queue_returning_overflow (A : Type) (mv : A -> A) (cap : N) (d : A) ops l outs v :
  0 < cap -> cap + 1 < size_mod ->
  spec_run (fifo_step cap) [] ops = Some (l, outs) ->
  len l = cap ->
  exists q, run (q_step mv Safe Returns cap) (q_init cap d) (ops ++ [Push v; Size; Full; Front])
    = Done q (outs ++ [OVal v; ONum (cap + 1); OBool false; OVal v]) [Overflow].
Proof.
  intros H1 H2 Hs Hfull. assert (H2' : cap < size_mod) by lia.
  destruct (run_ok mv cap H1 H2' Safe Returns _ _ _ _ _ (rep_init mv cap H1 H2' d) Hs)
    as (q & E & HR).
  rewrite (run_app _ _ _ _ _ _ _ E).
  destruct (push_overflow_returning mv cap H1 H2' _ _ v HR Hfull) as (q' & E1 & Hsz & Hrd).
  rewrite N.mod_small in Hsz by assumption.
  cbn [run]. rewrite E1. unfold q_step. rewrite Hsz, Hrd.
  unfold check_pop. destruct (N.leb_spec (cap + 1) 0); [lia|]. cbn [option_map after_check].
  destruct (N.eqb_spec (cap + 1) cap); [lia|]. cbn [app]. eexists; reflexivity.
Qed.

Lemma cx_queue_returning_underflow (A : Type) (mv : A -> A) (cap : N) (d : A) ops outs :
  0 < cap -> cap < size_mod ->
  spec_run (fifo_step cap) [] ops = Some ([], outs) ->
  exists q x, run (q_step mv Safe Returns cap) (q_init cap d) (ops ++ [Pop; Size; Empty])
    = Done q (outs ++ [OVal x; ONum (size_mod - 1); OBool false]) [Underflow].
Proof.
  intros H1 H2 Hs.
  destruct (run_ok mv cap H1 H2 Safe Returns _ _ _ _ _ (rep_init mv cap H1 H2 d) Hs)
    as (q & E & HR).
  rewrite (run_app _ _ _ _ _ _ _ E).
  destruct (pop_underflow_returning mv cap H1 H2 q HR) as (q' & x & E1 & Hsz).
  cbn [run]. rewrite E1. cbn [q_step]. rewrite Hsz.
  destruct (N.eqb_spec (size_mod - 1) 0) as [E'|_]; [lia|].
  cbn [app]. eexists; exists x; reflexivity.
Qed.
