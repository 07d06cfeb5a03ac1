(** C115: a list of timers ordered by cmp_less is in the order of the times. *)
From Coq Require Import Sorting.Sorted Permutation.
From Verif Require Import Base Ints IntsLemmas RolloverModel RolloverSpec RolloverProofs RollTimerModel RollTimerSpec.
Open Scope Z_scope.

Section S.
Variable w iw : Z.
Hypothesis HW : widths_ok w iw.
Notation wrap := (fun e : nat * Z => (fst e, r_make w (snd e))).

Lemma cmp_within a b ts : within w ts -> In a ts -> In b ts ->
  r_cmp_less w iw (r_make w a) (r_make w b) = Some (a <? b).
Proof.
  intros (m & HM) Ha Hb. pose proof (HM _ Ha). pose proof (HM _ Hb).
  replace a with (m + (a - m)) at 1 by lia. replace b with (m + (b - m)) at 1 by lia.
  rewrite cmp_window by (assumption || lia). f_equal. lia.
Qed.
Lemma add_wrap a b : r_add w iw (r_make w a) (r_make w b) = Some (r_make w (a + b)).
Proof.
  destruct HW as [Hw _].
  destruct (rollover_ops w iw (r_make w a) (r_make w b) (a + b) HW) as (H1 & _ & _ & _ & _ & _ & H2 & _);
    try (apply r_make_rv; lia).
  rewrite H2, H1. f_equal. unfold r_make. rewrite !cast_U. rewrite <- Zplus_mod. reflexivity.
Qed.

(** Insertion on times that do not roll over. *)
Fixpoint insertZ (x : nat * Z) (l : list (nat * Z)) : list (nat * Z) :=
  match l with [] => [x] | e :: r => if snd x <? snd e then x :: l else e :: insertZ x r end.
Lemma insert_wrap x q : within w (snd x :: map snd q) -> insert w iw (wrap x) (map wrap q) = Some (map wrap (insertZ x q)).
Proof.
  intros H. assert (forall e, In e q -> r_cmp_less w iw (r_make w (snd x)) (r_make w (snd e)) = Some (snd x <? snd e)) as HC.
  { intros e He. apply (cmp_within _ _ _ H); [now left|right; now apply in_map]. }
  clear H. induction q as [|e r IH]; [reflexivity|]. cbn [map insert insertZ fst snd].
  rewrite HC by (now left). cbn [bind]. destruct (snd x <? snd e); [reflexivity|].
  rewrite IH by (intros; apply HC; now right). reflexivity.
Qed.
Lemma insertZ_in x q e : In e (insertZ x q) <-> e = x \/ In e q.
Proof.
  induction q as [|a r IH]; cbn; [intuition|]. destruct (snd x <? snd a); cbn; [intuition|].
  rewrite IH. intuition.
Qed.
Lemma insertZ_order p q x : in_order p q -> in_order (p ++ [x]) (insertZ x q).
Proof.
  intros [HS HF]. split.
  - clear HF. induction HS as [|a r HS IH HA]; cbn; [repeat constructor|].
    destruct (Z.ltb_spec (snd x) (snd a)).
    + constructor; [constructor; assumption|]. constructor; [lia|].
      eapply Forall_impl; [|exact HA]. cbn. intros; lia.
    + constructor; [exact IH|]. rewrite Forall_forall in HA |- *. intros e He.
      apply insertZ_in in He as [-> | He]; [lia|now apply HA].
  - intros t. rewrite filter_app, <- HF. clear HF. cbn [filter].
    induction HS as [|a r HS IH HA]; [reflexivity|]. cbn [insertZ].
    destruct (Z.ltb_spec (snd x) (snd a)) as [HL|HL].
    + change (filter (fun e => snd e =? t) (x :: a :: r)) with
        (if snd x =? t then x :: filter (fun e => snd e =? t) (a :: r) else filter (fun e => snd e =? t) (a :: r)).
      destruct (Z.eqb_spec (snd x) t) as [E|E]; [|now rewrite app_nil_r].
      assert (filter (fun e => snd e =? t) (a :: r) = []) as ->; [|reflexivity].
      cbn [filter]. destruct (Z.eqb_spec (snd a) t); [lia|].
      rewrite Forall_forall in HA. clear IH HS. induction r as [|b s IH]; [reflexivity|]. cbn [filter].
      pose proof (HA b ltac:(now left)). destruct (Z.eqb_spec (snd b) t); [lia|]. apply IH. intros; apply HA; now right.
    + cbn [filter]. destruct (snd a =? t); cbn; now rewrite IH.
Qed.
(** Taking the timers that are due. *)
Lemma expire_wrap now q : within w (now :: map snd q) -> StronglySorted (fun a b => snd a <= snd b) q ->
  expire w iw (r_make w now) (map wrap q) =
    Some (map fst (filter (fun e => snd e <=? now) q), map wrap (filter (fun e => now <? snd e) q)).
Proof.
  intros H HS. assert (forall e, In e q -> r_cmp_less w iw (r_make w now) (r_make w (snd e)) = Some (now <? snd e)) as HC.
  { intros e He. apply (cmp_within _ _ _ H); [now left|right; now apply in_map]. }
  clear H. induction HS as [|e r HS IH HA]; [reflexivity|]. cbn [map expire fst snd filter].
  rewrite HC by (now left). cbn [bind]. destruct (Z.ltb_spec now (snd e)) as [HL|HL].
  - destruct (Z.leb_spec (snd e) now); [lia|].
    assert (filter (fun e => snd e <=? now) r = [] /\ filter (fun e => now <? snd e) r = r) as [E1 E2].
    { clear IH HC HS. rewrite Forall_forall in HA. induction r as [|b s IH]; [split; reflexivity|].
      pose proof (HA b ltac:(now left)). cbn. destruct (Z.leb_spec (snd b) now); [lia|]. destruct (Z.ltb_spec now (snd b)); [|lia].
      destruct IH as [E1 E2]; [intros; apply HA; now right|]. rewrite E1, E2. split; reflexivity. }
    now rewrite E1, E2.
  - destruct (Z.leb_spec (snd e) now); [|lia]. rewrite IH by (intros; apply HC; now right). reflexivity.
Qed.
Lemma sorted_filter f (q : list (nat * Z)) : StronglySorted (fun a b => snd a <= snd b) q -> StronglySorted (fun a b => snd a <= snd b) (filter f q).
Proof.
  induction 1 as [|a r HS IH HA]; cbn; [constructor|]. destruct (f a); [|exact IH]. constructor; [exact IH|].
  rewrite Forall_forall in HA |- *. intros e He. apply filter_In in He as [He _]. now apply HA.
Qed.
Lemma filter_comm {X} f g (l : list X) : filter f (filter g l) = filter g (filter f l).
Proof.
  induction l as [|x r IH]; [reflexivity|]. cbn. destruct (f x) eqn:Ef, (g x) eqn:Eg; cbn; rewrite ?Ef, ?Eg, IH; reflexivity.
Qed.
Lemma order_filter f p q : in_order p q -> in_order (filter f p) (filter f q).
Proof.
  intros [HS HF]. split; [now apply sorted_filter|]. intros t. now rewrite filter_comm, HF, filter_comm.
Qed.
Lemma order_in p q e : in_order p q -> In e q <-> In e p.
Proof.
  intros [_ HF].
  assert (forall l, In e l <-> In e (filter (fun x => snd x =? snd e) l)) as HE
    by (intros l; rewrite filter_In, Z.eqb_refl; intuition).
  rewrite (HE q), (HE p), HF. reflexivity.
Qed.
Lemma within_order p q a : in_order p q -> within w (a :: map snd p) -> within w (a :: map snd q).
Proof.
  intros HO (m & HM). exists m. intros t [<- | Ht]; [apply HM; now left|].
  apply in_map_iff in Ht as (e & <- & He). apply HM. right. apply in_map. now apply (order_in p q e HO).
Qed.

Lemma run_goes ops : forall now p q, in_order p q -> served w now p ops ->
  exists outs, run w iw (r_make w now) (map wrap q) ops = Some outs /\ goes now p ops outs.
Proof.
  induction ops as [|o r IH]; intros now p q HO HS; [exists []; split; [reflexivity|constructor]|].
  destruct o as [d|id d|].
  - cbn [run]. rewrite add_wrap. cbn [bind]. cbn [served] in HS. destruct (IH _ _ _ HO HS) as (outs & HR & HG).
    exists outs. split; [exact HR|now constructor].
  - destruct HS as [HWi HS]. cbn [run]. rewrite add_wrap. cbn [bind].
    pose proof (insert_wrap (id, now + d) q (within_order _ _ _ HO HWi)) as HI. cbn [fst snd] in HI.
    rewrite HI. cbn [bind].
    destruct (IH _ _ _ (insertZ_order _ _ (id, now + d) HO) HS) as (outs & HR & HG).
    exists outs. split; [exact HR|now constructor].
  - destruct HS as [HWi HS]. cbn [run]. rewrite (expire_wrap now q (within_order _ _ _ HO HWi) (proj1 HO)). cbn [bind fst snd].
    destruct (IH _ _ _ (order_filter (fun e => now <? snd e) _ _ HO) HS) as (outs & HR & HG).
    rewrite HR. cbn [bind]. eexists. split; [reflexivity|]. constructor; [now apply order_filter|exact HG].
Qed.
End S.

(** At every step of every history in which the times that are compared lie within half the range, the
    timers that go off are those whose time has come, in the order of their times, however often the
    clock has rolled over. *)
Theorem C115_timers w iw ops now : widths_ok w iw -> served w now [] ops ->
  exists outs, run w iw (now mod 2 ^ w) [] ops = Some outs /\ goes now [] ops outs.
Proof.
  intros HW HS. destruct (run_goes w iw HW ops now [] []) as (outs & HR & HG).
  - split; [constructor|reflexivity].
  - exact HS.
  - exists outs. split; [|exact HG]. unfold r_make in HR. rewrite cast_U in HR. exact HR.
Qed.
Print Assumptions C115_timers.
(** What goes off is determined by the history. *)
Theorem C115_determined now p ops o1 o2 : goes now p ops o1 -> goes now p ops o2 -> o1 = o2.
Proof.
  assert (forall p q1 q2, in_order p q1 -> in_order p q2 -> q1 = q2) as HU.
  { intros p0 q1. revert p0. induction q1 as [|a r IH]; intros p0 q2 H1 H2.
    - destruct q2 as [|b s]; [reflexivity|]. destruct H1 as [_ F1], H2 as [_ F2].
      specialize (F1 (snd b)). specialize (F2 (snd b)). rewrite <- F1 in F2. cbn in F2. rewrite Z.eqb_refl in F2. discriminate.
    - destruct q2 as [|b s].
      { destruct H1 as [_ F1], H2 as [_ F2]. specialize (F1 (snd a)). specialize (F2 (snd a)). rewrite <- F2 in F1.
        cbn in F1. rewrite Z.eqb_refl in F1. discriminate. }
      assert (snd a = snd b) as E.
      { assert (In a (b :: s)) as Ia by (apply (order_in p0); [exact H2|apply (order_in p0 (a :: r)); [exact H1|now left]]).
        assert (In b (a :: r)) as Ib by (apply (order_in p0); [exact H1|apply (order_in p0 (b :: s)); [exact H2|now left]]).
        destruct H1 as [S1 _], H2 as [S2 _]. inversion_clear S1 as [|? ? _ A1]. inversion_clear S2 as [|? ? _ A2].
        rewrite Forall_forall in A1, A2.
        destruct Ia as [-> | Ia]; [reflexivity|]. destruct Ib as [-> | Ib]; [reflexivity|].
        pose proof (A1 _ Ib). pose proof (A2 _ Ia). lia. }
      assert (a = b) as ->.
      { destruct H1 as [_ F1], H2 as [_ F2]. specialize (F1 (snd a)). specialize (F2 (snd a)). rewrite <- F2 in F1.
        cbn in F1. rewrite Z.eqb_refl, <- E, Z.eqb_refl in F1. now injection F1. }
      f_equal. apply (IH r).
      + split; [destruct H1 as [S1 _]; now inversion_clear S1|reflexivity].
      + destruct H1 as [S1 F1], H2 as [S2 F2]. split; [now inversion_clear S2|]. intros t.
        specialize (F1 t). specialize (F2 t). rewrite <- F1 in F2. cbn in F2. destruct (snd b =? t); [now injection F2|exact F2]. }
  intros H1. revert o2. induction H1; intros o2 H2; inversion H2; subst; auto.
  f_equal; [f_equal; eapply HU; eassumption|auto].
Qed.
Print Assumptions C115_determined.
(** A timer of an 8-bit clock that starts at 250: the second one goes off first, after the rollover. *)
Example timers_ex :
  let ops := [Add 1 20; Tick 3; Add 2 10; Tick 10; Expire; Tick 7; Expire] in
  served 8 250 [] ops /\ run 8 32 250 [] ops = Some [[2%nat]; [1%nat]].
Proof.
  split; [|vm_compute; reflexivity]. cbn. repeat split; auto; exists 250; cbn; intros t Ht; decompose [or] Ht; try subst; lia || contradiction.
Qed.

(** FINDING: docs/rollover.adoc rules out delays of more than half the range.  Half the range is too
    much: each of the times is then before the other, and the timer that is due does not go off. *)
Theorem C115_half_range_refuted w iw now : widths_ok w iw ->
  let ops := [Add 1 0; Add 2 (2 ^ (w - 1)); Expire] in
  run w iw (now mod 2 ^ w) [] ops = Some [[]] /\ goes now [] ops [[1%nat]].
Proof.
  intros HW ops. pose proof HW as (Hw & _). pose proof (pow2_split w Hw) as Hs. pose proof (pow2_pos (w - 1) ltac:(lia)) as Hp.
  assert (now mod 2 ^ w = r_make w now) as -> by (unfold r_make; now rewrite cast_U).
  assert (forall a b, (a - b) mod 2 ^ w = 2 ^ (w - 1) -> r_cmp_less w iw (r_make w a) (r_make w b) = Some true) as HC.
  { intros a b E. rewrite cmp_raw by (try assumption; apply r_make_rv; lia). f_equal. unfold r_make. rewrite !cast_U, <- Zminus_mod, E. lia. }
  split.
  - unfold ops. cbn [run]. rewrite !add_wrap by assumption. cbn [bind insert snd fst]. rewrite Z.add_0_r.
    rewrite HC; [|replace (now + 2 ^ (w - 1) - now) with (2 ^ (w - 1)) by lia; apply Z.mod_small; lia].
    cbn [bind expire snd fst].
    rewrite HC; [reflexivity|]. replace (now - (now + 2 ^ (w - 1))) with (2 ^ (w - 1) + (-1) * 2 ^ w) by lia.
    rewrite Z.mod_add by lia. apply Z.mod_small; lia.
  - unfold ops. constructor. constructor. cbn [app]. rewrite Z.add_0_r.
    change [[1%nat]] with [map fst [(1%nat, now)]]. constructor; [|constructor].
    cbn [filter snd]. rewrite Z.leb_refl. destruct (Z.leb_spec (now + 2 ^ (w - 1)) now); [lia|].
    split; [repeat constructor|reflexivity].
Qed.
Print Assumptions C115_half_range_refuted.
(** FINDING: delays below half the range are not enough either: a timer that is due and has not gone
    off yet counts. *)
Theorem C115_late_refuted w iw now : widths_ok w iw -> 3 <= w ->
  let ops := [Add 1 0; Tick 2; Add 2 (2 ^ (w - 1) - 1); Expire] in
  delays_below (2 ^ (w - 1)) ops /\
  run w iw (now mod 2 ^ w) [] ops = Some [[]] /\ goes now [] ops [[1%nat]].
Proof.
  intros HW Hw3 ops. pose proof HW as (Hw & _). pose proof (pow2_split w Hw) as Hs.
  assert (2 ^ 2 <= 2 ^ (w - 1)) as Hp by (apply Z.pow_le_mono_r; lia). change (2 ^ 2) with 4 in Hp.
  assert (now mod 2 ^ w = r_make w now) as -> by (unfold r_make; now rewrite cast_U).
  assert (forall a b, (a - b) mod 2 ^ w = 2 ^ (w - 1) + 1 -> r_cmp_less w iw (r_make w a) (r_make w b) = Some true) as HC.
  { intros a b E. rewrite cmp_raw by (try assumption; apply r_make_rv; lia). f_equal. unfold r_make. rewrite !cast_U, <- Zminus_mod, E. lia. }
  split; [|split].
  - intros id d Hd. unfold ops in Hd. cbn in Hd. destruct Hd as [E|[E|[E|[E|[]]]]]; try discriminate; injection E as <- <-; lia.
  - unfold ops. cbn [run]. rewrite !add_wrap by assumption. cbn [bind insert snd fst].
    rewrite ?add_wrap by assumption. cbn [bind insert snd fst].
    rewrite HC; [|replace (now + 2 + (2 ^ (w - 1) - 1) - (now + 0)) with (2 ^ (w - 1) + 1) by lia; apply Z.mod_small; lia].
    cbn [bind expire snd fst].
    rewrite HC; [reflexivity|]. replace (now + 2 - (now + 2 + (2 ^ (w - 1) - 1))) with (2 ^ (w - 1) + 1 + (-1) * 2 ^ w) by lia.
    rewrite Z.mod_add by lia. apply Z.mod_small; lia.
  - unfold ops. constructor. constructor. constructor. cbn [app]. rewrite Z.add_0_r.
    change [[1%nat]] with [map fst [(1%nat, now)]]. constructor; [|constructor].
    cbn [filter snd]. destruct (Z.leb_spec now (now + 2)); [|lia]. destruct (Z.leb_spec (now + 2 + (2 ^ (w - 1) - 1)) (now + 2)); [lia|].
    split; [repeat constructor|reflexivity].
Qed.
Print Assumptions C115_late_refuted.
