From Verif Require Import Base BaseLemmas CxQueueModel CxQueueSpec CxQueueProofs IntrusiveListModel IntrusiveListSpec IntrusiveListProofs PoolModel PoolSpec PoolProofs MixModel MixSpec MixProofs CaughtModel CaughtSpec.
Open Scope N_scope.

Lemma policy_step_ok {A W} (mv : A -> A) cap pol (w : W) q l op s' o : 0 < cap -> cap < size_mod -> CxQueueProofs.Rep cap q l ->
  fifo_with pol cap (w, l) op = Some (s', o) ->
  exists q', CxQueueProofs.Rep cap q' (snd s') /\
    policy_step mv pol cap (w, q) op = match o with Some o => Done (fst s', q') o [] | None => Stopped (fst s', q') tt end.
Proof.
  intros C1 C2 R H. pose proof (rep_size _ _ _ R) as Z. unfold fifo_with in H. unfold policy_step.
  assert (E : ask pol cap w q op = match op with
    | Push _ | PushSet _ _ => on_push pol w (len l) cap
    | Pop | Front | Back | SetFront _ | SetBack _ => on_pop pol w (len l)
    | Clear | Size | Empty | Full => (w, true)
    end) by (unfold ask; rewrite Z; reflexivity).
  rewrite E. clear E. match type of H with (let '(_, _) := ?x in _) = _ => destruct x as [w' a] end. destruct a.
  - destruct (fifo_step cap l op) as [[l' o']|] eqn:F; [|discriminate]. injection H as <- <-.
    destruct (step_ok mv cap C1 C2 Unsafe Returns q l op l' o' R F) as (q' & Q & R'). exists q'. rewrite Q. split; [exact R' | reflexivity].
  - injection H as <- <-. exists q. split; [exact R | reflexivity].
Qed.
Lemma policy_run_ok {A W} (mv : A -> A) cap pol ops : 0 < cap -> cap < size_mod -> forall (w : W) q l s' os, CxQueueProofs.Rep cap q l ->
  spec_run (fifo_with pol cap) (w, l) ops = Some (s', os) ->
  exists q', run_caught (policy_step mv pol cap) (w, q) ops = Some ((fst s', q'), os).
Proof.
  intros C1 C2. induction ops as [|op ops IH]; intros w q l s' os R; cbn [spec_run run_caught].
  - intros E; injection E as <- <-. exists q. reflexivity.
  - destruct (fifo_with pol cap (w, l) op) as [[[w1 l1] o]|] eqn:E1; [|discriminate].
    destruct (spec_run (fifo_with pol cap) (w1, l1) ops) as [[s2 os']|] eqn:E2; [|discriminate]. intros E; injection E as <- <-.
    destruct (policy_step_ok mv cap pol w q l op _ _ C1 C2 R E1) as (q1 & R1 & S1). cbn [fst snd] in *.
    destruct (IH w1 q1 l1 _ _ R1 E2) as (q2 & E3). rewrite S1. destruct o; rewrite E3; eauto.
Qed.
Lemma fifo_len {A} cap (l : list A) op l' o : len l <= cap -> fifo_step cap l op = Some (l', o) -> len l' <= cap.
Proof.
  intros L H. destruct op as [v|v w| | | |v|v| | | |]; cbn [fifo_step] in H.
  - destruct (N.ltb_spec (len l) cap); [|discriminate]. injection H as <- _. rewrite len_app, len_cons, len_nil. lia.
  - destruct (N.ltb_spec (len l) cap); [|discriminate]. injection H as <- _. rewrite len_app, len_cons, len_nil. lia.
  - destruct l; [discriminate|]. injection H as <- _. rewrite len_cons in L. lia.
  - destruct l; [discriminate|]. now injection H as <- _.
  - destruct (last_opt l); [|discriminate]. now injection H as <- _.
  - destruct l; [discriminate|]. injection H as <- _. rewrite len_cons in *. lia.
  - destruct l as [|x l]; [discriminate|]. injection H as <- _. unfold set_last. rewrite len_app, len_cons, len_nil.
    pose proof (app_removelast_last x (l := x :: l) ltac:(discriminate)) as E. apply (f_equal len) in E. rewrite len_app in E.
    rewrite (len_cons (last (x :: l) x)), len_nil in E. lia.
  - injection H as <- _. rewrite len_nil. lia.
  - now injection H as <- _.
  - now injection H as <- _.
  - now injection H as <- _.
Qed.
Lemma protects_total {A W} cap (pol : overflow_policy W) ops : protects pol cap -> forall w (l : list A), len l <= cap ->
  exists s' os, spec_run (fifo_with pol cap) (w, l) ops = Some (s', os).
Proof.
  intros [P1 P2]. induction ops as [|op ops IH]; intros w l L; cbn [spec_run]; [eauto|].
  assert (X : exists w1 l1 o, fifo_with pol cap (w, l) op = Some ((w1, l1), o) /\ len l1 <= cap).
  { unfold fifo_with. match goal with |- context [let '(_, _) := ?x in _] => destruct x as [w' a] eqn:E end. destruct a; [|eauto 8].
    destruct (fifo_step cap l op) as [[l' o]|] eqn:F; [exists w', l', (Some o); split; [reflexivity | exact (fifo_len _ _ _ _ _ L F)]|].
    exfalso. assert (NE : forall (P : list A -> Prop), on_pop pol w (len l) = (w', true) -> (l = [] -> False)).
    { intros P Q ->. specialize (P2 w). rewrite len_nil in Q. rewrite Q in P2. discriminate. }
    assert (NF : on_push pol w (len l) cap = (w', true) -> len l < cap).
    { intros Q. destruct (N.eq_dec (len l) cap) as [K|]; [|lia]. rewrite K in Q. specialize (P1 w). rewrite Q in P1. discriminate. }
    destruct op as [v|v x| | | |v|v| | | |]; cbn [fifo_step] in F; try discriminate.
    - apply NF in E. apply N.ltb_lt in E. rewrite E in F. discriminate.
    - apply NF in E. apply N.ltb_lt in E. rewrite E in F. discriminate.
    - destruct l; [exact (NE (fun _ => True) E eq_refl) | discriminate].
    - destruct l; [exact (NE (fun _ => True) E eq_refl) | discriminate].
    - destruct l as [|y l]; [exact (NE (fun _ => True) E eq_refl)|]. unfold last_opt in F.
      destruct (nth_error (y :: l) (length (y :: l) - 1)) eqn:G; [discriminate|]. apply nth_error_None in G. cbn in G. lia.
    - destruct l; [exact (NE (fun _ => True) E eq_refl) | discriminate].
    - destruct l; [exact (NE (fun _ => True) E eq_refl) | discriminate]. }
  destruct X as (w1 & l1 & o & E & L1). rewrite E. destruct (IH w1 l1 L1) as (s2 & os & E2). rewrite E2. eauto.
Qed.
Lemma refuse_ok {A} (mv : A -> A) cap ops : 0 < cap -> cap < size_mod -> forall q l l' os, CxQueueProofs.Rep cap q l ->
  spec_run (fifo_refuse cap) l ops = Some (l', os) ->
  exists q', run_caught (q_step mv Safe DoesNotReturn cap) q ops = Some (q', os).
Proof.
  intros C1 C2. induction ops as [|op ops IH]; intros q l l' os R; cbn [spec_run run_caught].
  - intros E; injection E as <- <-. eauto.
  - unfold fifo_refuse at 1. destruct (fifo_step cap l op) as [[l1 o]|] eqn:F.
    + destruct (spec_run (fifo_refuse cap) l1 ops) as [[l2 os']|] eqn:E2; [|discriminate]. intros E; injection E as <- <-.
      destruct (step_ok mv cap C1 C2 Safe DoesNotReturn q l op l1 o R F) as (q1 & S1 & R1). rewrite S1.
      destruct (IH _ _ _ _ R1 E2) as (q2 & E3). rewrite E3. eauto.
    + destruct (spec_run (fifo_refuse cap) l ops) as [[l2 os']|] eqn:E2; [|discriminate]. intros E; injection E as <- <-.
      rewrite (step_violation mv cap C1 C2 q l op R F). destruct (IH _ _ _ _ R E2) as (q2 & E3). rewrite E3. eauto.
Qed.
Lemma refuse_total {A} cap ops : forall l : list A, exists l' os, spec_run (fifo_refuse cap) l ops = Some (l', os).
Proof.
  induction ops as [|op ops IH]; intros l; cbn [spec_run]; [eauto|]. unfold fifo_refuse at 1.
  destruct (fifo_step cap l op) as [[l1 o]|].
  - destruct (IH l1) as (l' & os & E). rewrite E. eauto.
  - destruct (IH l) as (l' & os & E). rewrite E. eauto.
Qed.

(** Lists. *)
Lemma mix_refused kinds nodes s ls i k op n j kj l : len kinds = len ls -> MixRep kinds nodes s ls ->
  rd kinds i = Some k -> n < nodes ->
  op = LPushFront n \/ op = LPushBack n \/ k = Double /\ (exists it, op = LInsert it n) ->
  rd kinds j = Some kj -> rd ls j = Some l -> noticed kj l n ->
  mix_step (all_checked kinds) DoesNotReturn s (i, op) = Stopped s BadListNode.
Proof.
  intros LK [HL HM HR HD HF] Ki Hn Ho Kj Rj No.
  destruct (rd_lt_Some (ends s) i) as (e & Re); [rewrite HL, <- LK; eapply rd_Some_lt; eauto|].
  assert (Ln : n < len (memory s)) by lia.
  destruct (rd_lt_Some (ends s) j) as (ej & Rej); [rewrite HL; eapply rd_Some_lt; eauto|].
  pose proof (HR j kj l ej Kj Rj Rej) as (_ & ND & _ & _ & _ & A). pose proof (noticed_in _ _ _ No) as I.
  assert (U : unlinked (at_ (memory s) n) = false) by (rewrite (A n I); apply link_noticed; assumption).
  cbn [mix_step]. rewrite rd_checked, Ki, Re.
  assert (X : exists body, kind_step k Checked DoesNotReturn (as_list e (memory s)) op = with_check Checked DoesNotReturn (as_list e (memory s)) n body)
    by (destruct Ho as [-> | [-> | (-> & it & ->)]]; [destruct k; eexists; reflexivity | destruct k; eexists; reflexivity | eexists; reflexivity]).
  destruct X as (body & X). rewrite X.
  assert (W : with_check Checked DoesNotReturn (as_list e (memory s)) n body = Stopped (as_list e (memory s)) BadListNode) by (apply check_panics; auto).
  rewrite W. unfold put_back. cbn [as_list head tail heap].
  destruct (wr_lt_Some (ends s) i (fst e, snd e)) as (es & We); [eapply rd_Some_lt; eauto|].
  match goal with |- context [wr ?a ?b ?c] => replace (wr a b c) with (Some es) by (symmetry; exact We) end.
  assert (es = ends s) as ->; [|destruct s; reflexivity].
  apply rd_ext; [exact (wr_len _ _ _ _ We)|]. intros y _. rewrite (rd_wr _ _ _ _ y We). destruct (N.eqb_spec y i) as [->|]; [|reflexivity].
  rewrite Re. destruct e; reflexivity.
Qed.
Lemma lists_refuse_ok kinds nodes ls ops ls2 xs : lists_refuse kinds nodes ls ops ls2 xs -> forall s, len kinds = len ls -> MixRep kinds nodes s ls ->
  exists s2, run_caught (mix_step (all_checked kinds) DoesNotReturn) s ops = Some (s2, xs) /\ MixRep kinds nodes s2 ls2.
Proof.
  induction 1 as [ls|ls op ls1 x ops ls2 xs E H IH|ls i k op n j kj l ops ls2 xs Ki Hn Ho Kj Rj No H IH]; intros s LK R; cbn [run_caught].
  - eauto.
  - destruct (mix_step_ok DoesNotReturn kinds nodes s ls op ls1 x LK R E) as (s1 & S1 & R1 & L1). rewrite S1.
    destruct (IH s1 ltac:(congruence) R1) as (s2 & E2 & R2). rewrite E2. eauto.
  - rewrite (mix_refused kinds nodes s ls i k op n j kj l LK R Ki Hn Ho Kj Rj No). destruct (IH s LK R) as (s2 & E2 & R2). rewrite E2. eauto.
Qed.
