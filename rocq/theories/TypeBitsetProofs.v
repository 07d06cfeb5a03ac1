(** Proofs about type_bitset. *)
From Verif Require Import Base BaseLemmas BitModel BitSpec BitLemmas BitProofs BitProofs2 BitsetModel BitsetSpec BitsetProofs TypeBitsetModel.
Open Scope N_scope.

Lemma index_of_lt t l : In t l <-> index_of t l < len l.
Proof.
  induction l as [|x l IH]; cbn [index_of]; [change (len (@nil N)) with 0; split; [intros []|lia]|].
  rewrite len_cons. destruct (N.eqb_spec x t) as [->|Hne]; [split; [lia|left; reflexivity]|].
  split; [intros [E|H]; [contradiction|]; apply IH in H; lia|]. intros H. right. apply IH. lia.
Qed.
Lemma rd_index_of t l : In t l -> rd l (index_of t l) = Some t.
Proof.
  induction l as [|x l IH]; [intros []|]. cbn [index_of]. destruct (N.eqb_spec x t) as [->|Hne]; [intros _; apply rd_cons0|].
  intros [E|H]; [contradiction|]. replace (1 + index_of t l) with (index_of t l + 1) by lia. rewrite rd_cons_pos by lia.
  replace (index_of t l + 1 - 1) with (index_of t l) by lia. apply IH. exact H.
Qed.
Lemma index_of_inj t u l : In t l -> In u l -> index_of t l = index_of u l -> t = u.
Proof. intros Ht Hu E. pose proof (rd_index_of t l Ht) as A. pose proof (rd_index_of u l Hu) as B. rewrite E, B in A. injection A as <-. reflexivity. Qed.

Lemma unique_in l : forall seen t, In t (unique_from seen l) <-> In t l /\ ~ In t seen.
Proof.
  induction l as [|x l IH]; intros seen t; cbn [unique_from]; [split; [intros []|intros ([] & _)]|].
  assert (Hx : existsb (N.eqb x) seen = true <-> In x seen).
  { rewrite existsb_exists. split; [intros (y & Hy & E); apply N.eqb_eq in E; subst; exact Hy|intros H; exists x; split; [exact H|apply N.eqb_refl]]. }
  destruct (existsb (N.eqb x) seen) eqn:E.
  - rewrite IH. assert (Hs : In x seen) by (apply Hx; reflexivity). split; [intros (A & B); split; [right; exact A|exact B]|].
    intros ([<-|A] & B); [contradiction|split; assumption].
  - assert (Hs : ~ In x seen) by (intros H; apply Hx in H; discriminate). cbn [In]. rewrite IH. cbn [In]. split.
    + intros [<-|(A & B)]; [split; [left; reflexivity|exact Hs]|]. split; [right; exact A|]. intros C. apply B. right. exact C.
    + intros ([<-|A] & B); [left; reflexivity|]. destruct (N.eq_dec x t) as [->|Hne]; [left; reflexivity|]. right. split; [exact A|].
      intros [C|C]; [contradiction|apply B; exact C].
Qed.
Lemma unique_nodup l : forall seen, NoDup (unique_from seen l).
Proof.
  induction l as [|x l IH]; intros seen; cbn [unique_from]; [constructor|]. destruct (existsb (N.eqb x) seen); [apply IH|].
  constructor; [|apply IH]. rewrite unique_in. intros (_ & H). apply H. left. reflexivity.
Qed.
Lemma unique_id l : forall seen, NoDup l -> (forall t, In t l -> ~ In t seen) -> unique_from seen l = l.
Proof.
  induction l as [|x l IH]; intros seen Hn Hs; cbn [unique_from]; [reflexivity|].
  inversion Hn; subst. destruct (existsb (N.eqb x) seen) eqn:E.
  - exfalso. apply existsb_exists in E as (y & Hy & E). apply N.eqb_eq in E. subst y. apply (Hs x); [left; reflexivity|exact Hy].
  - f_equal. apply IH; [assumption|]. intros t Ht [<-|Hin]; [contradiction|]. apply (Hs t); [right; exact Ht|exact Hin].
Qed.
Lemma mp_unique_in l t : In t (mp_unique l) <-> In t l.
Proof. unfold mp_unique. rewrite unique_in. cbn [In]. tauto. Qed.
Lemma mp_unique_id l : NoDup l -> mp_unique l = l.
Proof. intros H. apply unique_id; [exact H|]. intros t _ []. Qed.
Lemma unique_len l : forall seen, len (unique_from seen l) <= len l.
Proof.
  induction l as [|x l IH]; intros seen; cbn [unique_from]; [lia|].
  destruct (existsb (N.eqb x) seen); rewrite ?len_cons; [specialize (IH seen)|specialize (IH (x :: seen))]; lia.
Qed.
Lemma unique_index_le t l : forall seen, ~ In t seen -> index_of t (unique_from seen l) <= index_of t l.
Proof.
  induction l as [|x l IH]; intros seen Hs; cbn [unique_from]; [cbn; lia|].
  destruct (existsb (N.eqb x) seen) eqn:E.
  - cbn [index_of]. destruct (N.eqb_spec x t) as [->|Hne].
    + exfalso. apply existsb_exists in E as (y & Hy & E). apply N.eqb_eq in E. subst y. contradiction.
    + specialize (IH seen Hs). lia.
  - cbn [index_of]. destruct (N.eqb_spec x t) as [->|Hne]; [lia|]. specialize (IH (x :: seen)).
    assert (~ In t (x :: seen)) by (intros [C|C]; [contradiction|contradiction]). specialize (IH H). lia.
Qed.

Lemma picks : forall l f, NoDup l -> fold_right (fun i acc => match acc with Some a => match rd l i with Some t => Some (t :: a) | None => None end | None => None end) (Some []) (indices_where (len l) f)
     = Some (filter (fun t => f (index_of t l)) l).
Proof.
  induction l as [|x l IH] using rev_ind; intros f Hn; [reflexivity|].
    rewrite len_app. change (len [x]) with 1. rewrite indices_split, filter_app, fold_right_app.
    apply NoDup_remove in Hn as (Hn & Hx). rewrite app_nil_r in Hn, Hx.
    assert (Ex : index_of x (l ++ [x]) = len l).
    { clear IH Hn. induction l as [|y l IH]; cbn [app index_of]; [rewrite N.eqb_refl; reflexivity|].
      destruct (N.eqb_spec y x) as [->|]; [exfalso; apply Hx; left; reflexivity|]. rewrite IH by (intros C; apply Hx; right; exact C). rewrite len_cons. lia. }
    assert (El : forall t, In t l -> index_of t (l ++ [x]) = index_of t l).
    { clear. induction l as [|y l IH]; intros t; [intros []|]. cbn [app index_of]. destruct (N.eqb_spec y t); [reflexivity|]. intros [C|C]; [contradiction|]. rewrite IH by exact C. reflexivity. }
    change (indices_where 1 (fun i => f (len l + i))) with (filter (fun i => f (len l + i)) [0]). cbn [filter]. rewrite N.add_0_r, Ex.
    rewrite (filter_ext_in (fun t => f (index_of t (l ++ [x]))) (fun t => f (index_of t l)) l) by (intros t Ht; rewrite El by exact Ht; reflexivity).
    assert (Gen : forall js acc, Forall (fun j => j < len l) js ->
      fold_right (fun i acc => match acc with Some a => match rd (l ++ [x]) i with Some t => Some (t :: a) | None => None end | None => None end) (Some acc) js =
      match fold_right (fun i acc => match acc with Some a => match rd l i with Some t => Some (t :: a) | None => None end | None => None end) (Some []) js with Some a => Some (a ++ acc) | None => None end).
    { clear. induction js as [|j js IHj]; intros acc Hf; [reflexivity|]. inversion Hf; subst. cbn [fold_right]. rewrite IHj by assumption.
      destruct (fold_right _ (Some []) js); [|reflexivity]. rewrite rd_app1 by assumption. destruct (rd l j); reflexivity. }
    assert (Hf : Forall (fun j => j < len l) (indices_where (len l) f)).
    { apply Forall_forall. intros j Hj. apply filter_In in Hj as (Hj & _). apply In_range in Hj. lia. }
    destruct (f (len l)); cbn [map fold_right].
    - rewrite N.add_0_r. rewrite rd_len. rewrite Gen, IH by assumption. reflexivity.
    - rewrite Gen, IH by assumption. reflexivity.
Qed.

Section TB.
Context (pl : platform) (ts : list N) (w : N).
Context (Hpl : good_platform pl) (Hw : 0 < w) (Hwl : w <= llong_w pl) (Hne : ts <> []) (Hlen : len ts < size_mod).
Notation NN := (tb_N ts).

Lemma NN_le : NN <= len ts.
Proof. apply unique_len. Qed.
Lemma NN_pos : 0 < NN.
Proof.
  unfold tb_N, list_t. destruct ts as [|x r]; [contradiction|]. unfold mp_unique. cbn [unique_from existsb]. rewrite len_cons. lia.
Qed.
Lemma NN_lt : NN < size_mod.
Proof. pose proof NN_le. lia. Qed.
Notation cap := (total NN w).
Lemma NN_cap : NN <= cap.
Proof. exact (n_le_total pl NN w Hw Hwl NN_pos NN_lt). Qed.

Lemma tb_get_ok s t : wf NN w s -> In t ts -> tb_get ts w s t = Some (ab w s (index_of t (list_t ts))).
Proof.
  intros Hs Ht. unfold tb_get.
  assert (Hin : In t (list_t ts)) by (apply mp_unique_in; exact Ht).
  pose proof (proj1 (index_of_lt t (list_t ts)) Hin) as Hlt. pose proof NN_le. pose proof NN_cap. unfold tb_N in *.
  destruct (N.ltb_spec (index_of t (list_t ts)) (len ts)); [|lia].
  apply (get_ok pl (len (list_t ts)) w Hw Hwl); [exact NN_pos|exact NN_lt|exact Hs|]. lia.
Qed.

(** The bit a run of set/reset/flip over a list of positions leaves. *)
Lemma set_loop_ok v us : forall s, wf NN w s -> Forall (fun u => index_of u ts < NN) us ->
  exists s', tb_set_loop ts w s us v = Some s' /\ wf NN w s' /\
  forall i, i < cap -> ab w s' i = if existsb (fun u => index_of u ts =? i) us then v else ab w s i.
Proof.
  pose proof NN_cap.
  induction us as [|u us IH]; intros s Hs Hf; cbn [tb_set_loop].
  - exists s. auto.
  - inversion Hf; subst. destruct (set_one_ok pl NN w Hw Hwl NN_pos NN_lt s (index_of u ts) v Hs ltac:(lia)) as (s1 & -> & Hs1 & B1).
    destruct (IH s1 Hs1 ltac:(assumption)) as (s' & E & Hs' & B). exists s'. split; [exact E|]. split; [exact Hs'|].
    intros i Hi. rewrite B, B1 by exact Hi. cbn [existsb]. rewrite (N.eqb_sym i). destruct (index_of u ts =? i), (existsb _ us); reflexivity.
Qed.
Lemma reset_loop_ok us : forall s, wf NN w s -> Forall (fun u => index_of u ts < NN) us ->
  exists s', tb_reset_loop ts w s us = Some s' /\ wf NN w s' /\
  forall i, i < cap -> ab w s' i = if existsb (fun u => index_of u ts =? i) us then false else ab w s i.
Proof.
  pose proof NN_cap.
  induction us as [|u us IH]; intros s Hs Hf; cbn [tb_reset_loop].
  - exists s. auto.
  - inversion Hf; subst. destruct (reset_one_ok pl NN w Hw Hwl NN_pos NN_lt s (index_of u ts) Hs ltac:(lia)) as (s1 & -> & Hs1 & B1).
    destruct (IH s1 Hs1 ltac:(assumption)) as (s' & E & Hs' & B). exists s'. split; [exact E|]. split; [exact Hs'|].
    intros i Hi. rewrite B, B1 by exact Hi. cbn [existsb]. rewrite (N.eqb_sym i). destruct (index_of u ts =? i), (existsb _ us); reflexivity.
Qed.
Lemma flip_loop_ok us : forall s, wf NN w s -> Forall (fun u => index_of u ts < NN) us ->
  exists s', tb_flip_loop ts w s us = Some s' /\ wf NN w s' /\
  forall i, i < cap -> ab w s' i = fold_left (fun b u => if index_of u ts =? i then negb b else b) us (ab w s i).
Proof.
  pose proof NN_cap.
  induction us as [|u us IH]; intros s Hs Hf; cbn [tb_flip_loop].
  - exists s. auto.
  - inversion Hf; subst. destruct (flip_one_ok pl NN w Hw Hwl NN_pos NN_lt s (index_of u ts) Hs ltac:(lia)) as (s1 & -> & Hs1 & B1).
    destruct (IH s1 Hs1 ltac:(assumption)) as (s' & E & Hs' & B). exists s'. split; [exact E|]. split; [exact Hs'|].
    intros i Hi. rewrite B, B1 by exact Hi. cbn [fold_left]. rewrite (N.eqb_sym i). reflexivity.
Qed.

Lemma each_type s : wf NN w s ->
  tb_for_each_set pl ts w s = Some (filter (fun t => ab w s (index_of t (list_t ts))) (list_t ts)).
Proof.
  intros Hs. unfold tb_for_each_set. rewrite (for_each_set_ok pl NN w Hpl Hw Hwl NN_pos NN_lt s Hs).
  unfold tb_N, call_types. generalize (ab w s). intros f. apply picks. apply unique_nodup.
Qed.
Lemma each_unset s : wf NN w s ->
  tb_for_each pl ts w TUnset s = Some (filter (fun t => negb (ab w s (index_of t (list_t ts)))) (list_t ts)).
Proof.
  intros Hs. unfold tb_for_each. rewrite (for_each_unset_ok pl NN w Hpl Hw Hwl NN_pos NN_lt s Hs).
  unfold tb_N, call_types. generalize (ab w s). intros f. rewrite (picks (list_t ts) (fun i => negb (f i))); [reflexivity|apply unique_nodup].
Qed.
Lemma count_types s : wf NN w s -> tb_count pl ts w s = Some (len (filter (fun t => ab w s (index_of t (list_t ts))) (list_t ts))).
Proof.
  intros Hs. unfold tb_count. rewrite (count_ok pl NN w Hpl Hw Hwl NN_pos NN_lt s Hs). f_equal.
  pose proof (picks (list_t ts) (ab w s) (unique_nodup _ _)) as P. unfold tb_N.
  assert (G : forall l r, fold_right (fun i acc => match acc with Some a => match rd (list_t ts) i with Some t => Some (t :: a) | None => None end | None => None end) (Some []) l = Some r -> len l = len r).
  { induction l as [|i l IH]; cbn [fold_right]; intros r E; [injection E as <-; reflexivity|]. destruct (fold_right _ _ l) as [a|]; [|discriminate].
    destruct (rd _ i); [|discriminate]. injection E as <-. rewrite !len_cons. f_equal. apply IH. reflexivity. }
  apply G. exact P.
Qed.
Lemma types_index i : i < NN -> exists t, In t ts /\ index_of t (list_t ts) = i.
Proof.
  intros Hi. unfold tb_N in Hi. destruct (rd_lt_Some (list_t ts) i Hi) as (t & E). rewrite rd_nth_error in E. exists t. assert (Hin : In t (list_t ts)) by (eapply nth_error_In; exact E).
  split; [apply mp_unique_in; exact Hin|]. pose proof (rd_index_of t _ Hin) as E2. rewrite rd_nth_error in E2.
  pose proof (proj1 (index_of_lt t (list_t ts)) Hin) as L. unfold len in *.
  assert (Q : N.to_nat (index_of t (list_t ts)) = N.to_nat i); [|lia].
  apply (proj1 (NoDup_nth_error (list_t ts)) (unique_nodup _ _)); [lia|]. congruence.
Qed.
End TB.
