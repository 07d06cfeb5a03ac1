(** More proofs about type_bitset. *)
From Verif Require Import Base BaseLemmas BitModel BitSpec BitsetModel BitsetSpec BitsetProofs BitsetProofs2 TypeBitsetModel TypeBitsetSpec TypeBitsetProofs.
Open Scope N_scope.

Lemma firstn_app_len {A} (a b : list A) : firstn (length a) (a ++ b) = a.
Proof. induction a as [|x a IH]; [reflexivity|]. cbn [length app firstn]. rewrite IH. reflexivity. Qed.
Lemma existsb_same seen pre x : (forall t, In t seen <-> In t pre) -> existsb (N.eqb x) seen = listed x pre.
Proof.
  intros H. apply eq_true_iff_eq. unfold listed. rewrite !existsb_exists. split; intros (y & Hy & E); exists y; (split; [apply H; exact Hy|exact E]).
Qed.
Lemma unique_firsts l : forall seen pre, (forall t, In t seen <-> In t pre) ->
  unique_from seen l = map snd (filter (fun p => negb (listed (snd p) (firstn (fst p) (pre ++ l)))) (combine (seq (length pre) (length l)) l)).
Proof.
  induction l as [|x l IH]; intros seen pre H; [reflexivity|]. cbn [unique_from length seq combine filter fst snd].
  rewrite firstn_app_len, (existsb_same seen pre x H). destruct (listed x pre) eqn:E; cbn [negb map fst snd].
  - rewrite (IH seen (pre ++ [x])).
    + rewrite app_length, Nat.add_1_r, <- app_assoc. reflexivity.
    + intros t. rewrite in_app_iff, H. cbn [In]. unfold listed in E. apply existsb_exists in E. destruct E as (y & Hy & E). apply N.eqb_eq in E. subst y.
      split; [auto|]. intros [A|[<-|[]]]; assumption.
  - f_equal. rewrite (IH (x :: seen) (pre ++ [x])).
    + rewrite app_length, Nat.add_1_r, <- app_assoc. reflexivity.
    + intros t. rewrite in_app_iff. cbn [In]. rewrite H. tauto.
Qed.
Lemma mp_unique_firsts ts : mp_unique ts = firsts ts.
Proof. exact (unique_firsts ts [] [] (fun t => iff_refl _)). Qed.
Lemma unique_short l : forall seen, len (unique_from seen l) = len l -> NoDup l.
Proof.
  induction l as [|x l IH]; intros seen H; [constructor|]. cbn [unique_from] in H. destruct (existsb (N.eqb x) seen).
  - rewrite len_cons in H. pose proof (unique_len l seen). lia.
  - rewrite !len_cons in H. constructor; [|apply (IH (x :: seen)); lia]. intros Hx.
    assert (G : forall l seen, In x l -> In x seen -> len (unique_from seen l) < len l).
    { clear. induction l as [|y l IH]; intros seen Hin Hs; [destruct Hin|]. cbn [unique_from]. destruct (existsb (N.eqb y) seen) eqn:E; rewrite ?len_cons; [pose proof (unique_len l seen); lia|].
      destruct Hin as [->|Hin].
      - exfalso. assert (C : existsb (N.eqb x) seen = true) by (apply existsb_exists; exists x; split; [exact Hs|apply N.eqb_refl]). congruence.
      - specialize (IH (y :: seen) Hin (or_intror Hs)). lia. }
    specialize (G l (x :: seen) Hx (or_introl eq_refl)). lia.
Qed.

Lemma index_out t l : ~ In t l -> index_of t l = len l.
Proof. intros H. induction l as [|x l IH]; [reflexivity|]. cbn [index_of]. destruct (N.eqb_spec x t) as [->|]; [destruct H; left; reflexivity|]. rewrite IH, len_cons by (intros C; apply H; right; exact C). lia. Qed.
Lemma unknown_out ts w s t us v : ~ In t ts -> In t us ->
  tb_set ts w s us v = None /\ tb_reset ts w s us = None /\ tb_flip ts w s us = None /\ tb_of_types ts w us = None.
Proof.
  intros Ht Hu. assert (LE : tb_N ts <= len ts) by exact (unique_len ts []).
  assert (G : forallb (fun u => index_of u ts <? tb_N ts) us = false).
  { apply not_true_is_false. intros E. rewrite forallb_forall in E. specialize (E t Hu). apply N.ltb_lt in E. rewrite (index_out t ts Ht) in E. lia. }
  assert (G2 : forallb (fun u => index_of u (list_t ts) <? tb_N ts) us = false).
  { apply not_true_is_false. intros E. rewrite forallb_forall in E. specialize (E t Hu). apply N.ltb_lt in E.
    assert (Ht' : ~ In t (list_t ts)) by (unfold list_t; rewrite mp_unique_in; exact Ht). rewrite (index_out t _ Ht') in E. unfold tb_N in E. lia. }
  unfold tb_set, tb_reset, tb_flip, tb_of_types. rewrite G, G2. auto.
Qed.
Lemma unknown_get ts w s t : ~ In t ts -> (NoDup ts -> tb_get ts w s t = None) /\ (~ NoDup ts -> tb_get ts w s t = get w s (tb_N ts)).
Proof.
  intros Ht. assert (Ht' : ~ In t (list_t ts)) by (unfold list_t; rewrite mp_unique_in; exact Ht). unfold tb_get. rewrite (index_out t _ Ht'). split; intros D.
  - unfold list_t. rewrite mp_unique_id by exact D. destruct (N.ltb_spec (len ts) (len ts)); [lia|reflexivity].
  - assert (LE : tb_N ts <= len ts) by exact (unique_len ts []). unfold tb_N in *. destruct (N.ltb_spec (len (list_t ts)) (len ts)); [reflexivity|].
    exfalso. apply D. apply (unique_short ts []). unfold list_t, mp_unique in *. lia.
Qed.

Lemma index_after t a b : ~ In t a -> index_of t (a ++ t :: b) = len a.
Proof.
  intros Ha. induction a as [|x a IH]; cbn [app index_of]; [rewrite N.eqb_refl; reflexivity|].
  destruct (N.eqb_spec x t) as [->|]; [destruct Ha; left; reflexivity|]. rewrite IH, len_cons by (intros C; apply Ha; right; exact C). lia.
Qed.
Lemma unique_app a b : forall seen, exists seen', unique_from seen (a ++ b) = unique_from seen a ++ unique_from seen' b /\
  forall t, In t seen' <-> In t seen \/ In t a.
Proof.
  induction a as [|x a IH]; intros seen; [exists seen; split; [reflexivity|]; cbn [In]; tauto|]. cbn [app unique_from]. destruct (existsb (N.eqb x) seen) eqn:E.
  - destruct (IH seen) as (s' & A & B). exists s'. split; [exact A|]. intros t. rewrite B. cbn [In]. split; [tauto|]. intros [C|[<-|C]]; [tauto| |tauto].
    left. apply existsb_exists in E. destruct E as (y & Hy & E). apply N.eqb_eq in E. subst y. exact Hy.
  - destruct (IH (x :: seen)) as (s' & A & B). exists s'. split; [rewrite A; reflexivity|]. intros t. rewrite B. cbn [In]. tauto.
Qed.
Lemma unique_before t a b : ~ In t a -> ~ NoDup a -> len a <> index_of t (mp_unique (a ++ t :: b)).
Proof.
  intros Ha D E. unfold mp_unique in E. destruct (unique_app a (t :: b) []) as (s' & A & B). rewrite A in E. cbn [unique_from] in E.
  assert (Ht : existsb (N.eqb t) s' = false).
  { apply not_true_is_false. intros C. apply existsb_exists in C. destruct C as (y & Hy & C). apply N.eqb_eq in C. subst y. apply B in Hy. cbn [In] in Hy. tauto. }
  rewrite Ht, index_after in E by (rewrite unique_in; tauto). apply D. apply (unique_short a []). symmetry. exact E.
Qed.

Section TB2.
Context (pl : platform) (ts : list N) (w : N).
Context (Hpl : good_platform pl) (Hw : 0 < w) (Hwl : w <= llong_w pl) (Hne : ts <> []) (Hlen : len ts < size_mod).
Notation NN := (tb_N ts).
Notation P := (NN_pos pl ts w Hw Hwl Hne Hlen).
Notation L := (NN_lt pl ts w Hw Hwl Hlen).
Notation GET := (tb_get_ok pl ts w Hw Hwl Hne Hlen).

Lemma in_capacity t : In t ts -> index_of t (list_t ts) < total NN w.
Proof.
  intros Ht. pose proof (NN_cap pl ts w Hw Hwl Hne Hlen). apply (proj2 (mp_unique_in ts t)) in Ht. apply index_of_lt in Ht. unfold tb_N, list_t in *. lia.
Qed.
Lemma two f F a b : (forall i, i < total NN w -> ab w (f a b) i = F (ab w a i) (ab w b i)) -> valid NN w (f a b) -> valid NN w a -> valid NN w b ->
  forall t, In t ts -> exists x y, tb_get ts w a t = Some x /\ tb_get ts w b t = Some y /\ tb_get ts w (f a b) t = Some (F x y).
Proof.
  intros H Hf Ha Hb t Ht. rewrite !GET by assumption. do 2 eexists. split; [reflexivity|]. split; [reflexivity|]. f_equal. apply H, in_capacity, Ht.
Qed.
Lemma algebra a b : valid NN w a -> valid NN w b ->
  (valid NN w (tb_or a b) /\ valid NN w (tb_and a b) /\ valid NN w (tb_xor a b) /\ valid NN w (tb_minus w a b) /\ valid NN w (tb_not w a)) /\
  forall t, In t ts -> exists x y, tb_get ts w a t = Some x /\ tb_get ts w b t = Some y /\
  tb_get ts w (tb_or a b) t = Some (x || y)%bool /\ tb_get ts w (tb_and a b) t = Some (x && y)%bool /\
  tb_get ts w (tb_xor a b) t = Some (xorb x y) /\ tb_get ts w (tb_minus w a b) t = Some (x && negb y)%bool /\
  tb_get ts w (tb_not w a) t = Some (negb x).
Proof.
  intros Ha Hb.
  destruct (or_ok pl NN w Hw Hwl P L a b Ha Hb) as (A1 & A2). destruct (and_ok pl NN w Hw Hwl P L a b Ha Hb) as (B1 & B2).
  destruct (xor_ok pl NN w Hw Hwl P L a b Ha Hb) as (C1 & C2). destruct (minus_ok pl NN w Hw Hwl P L a b Ha Hb) as (D1 & D2).
  destruct (complement_ok pl NN w Hw Hwl P L a Ha) as (E1 & E2).
  split; [repeat split; first [apply A1|apply B1|apply C1|apply D1|apply E1]|]. intros t Ht.
  rewrite !GET by assumption. do 2 eexists. split; [reflexivity|]. split; [reflexivity|]. pose proof (in_capacity t Ht) as I.
  split; [f_equal; apply A2; exact I|]. split; [f_equal; apply B2; exact I|]. split; [f_equal; apply C2; exact I|]. split; [f_equal; apply D2; exact I|].
  f_equal. apply E2. exact I.
Qed.
Definition on (s : storage) : list N := filter (fun t => ab w s (index_of t (list_t ts))) (list_t ts).
Lemma on_nodup s : NoDup (on s).
Proof. apply NoDup_filter, unique_nodup. Qed.
Lemma on_in s t : valid NN w s -> In t (on s) <-> In t ts /\ tb_get ts w s t = Some true.
Proof.
  intros Hs. unfold on. rewrite filter_In. change (In t (list_t ts)) with (In t (mp_unique ts)). rewrite mp_unique_in. split; intros (A & B).
  - split; [exact A|]. rewrite GET by assumption. congruence.
  - split; [exact A|]. rewrite GET in B by assumption. congruence.
Qed.
Lemma counted s : valid NN w s -> exists l, NoDup l /\ (forall t, In t l <-> In t ts /\ tb_get ts w s t = Some true) /\ tb_count pl ts w s = Some (len l).
Proof.
  intros Hs. exists (on s). split; [apply on_nodup|]. split; [intros t; apply on_in; exact Hs|]. exact (count_types pl ts w Hpl Hw Hwl Hne Hlen s Hs).
Qed.
Lemma filter_len_iff {A} (f : A -> bool) l : len (filter f l) = len l <-> forall x, In x l -> f x = true.
Proof.
  induction l as [|y l IH]; [split; [intros _ x []|reflexivity]|]. cbn [filter].
  assert (B : len (filter f l) <= len l) by (clear; induction l as [|z l IH]; [reflexivity|]; cbn [filter]; destruct (f z); rewrite ?len_cons; lia).
  destruct (f y) eqn:E; rewrite ?len_cons; split.
  - intros H x [<-|Hx]; [exact E|]. apply IH; [lia|exact Hx].
  - intros H. f_equal. apply IH. intros x Hx. apply H. right. exact Hx.
  - intros H. lia.
  - intros H. rewrite (H y (or_introl eq_refl)) in E. discriminate.
Qed.
Lemma questions s : valid NN w s ->
  (exists e, tb_empty pl ts w s = Some e /\ tb_none pl ts w s = Some e /\ tb_any pl ts w s = Some (negb e) /\ (e = true <-> forall t, In t ts -> tb_get ts w s t = Some false)) /\
  (exists a, tb_all pl ts w s = Some a /\ (a = true <-> forall t, In t ts -> tb_get ts w s t = Some true)).
Proof.
  intros Hs. pose proof (count_types pl ts w Hpl Hw Hwl Hne Hlen s Hs) as C. fold (on s) in C. split.
  - exists (len (on s) =? 0). unfold tb_none, tb_empty, tb_any. rewrite C. split; [reflexivity|]. split; [reflexivity|]. split; [reflexivity|].
    rewrite N.eqb_eq. split.
    + intros Z t Ht. assert (No : ~ In t (on s)) by (destruct (on s); [intros []|rewrite len_cons in Z; lia]). rewrite on_in in No by exact Hs.
      rewrite GET in * by assumption. destruct (ab _ _ _); [exfalso; apply No; auto|reflexivity].
    + intros H. destruct (on s) as [|t l] eqn:E; [reflexivity|]. assert (I : In t (on s)) by (rewrite E; left; reflexivity). apply on_in in I; [|exact Hs].
      destruct I as (I & J). rewrite H in J by exact I. discriminate.
  - exists (len (on s) =? NN). unfold tb_all. rewrite C. split; [reflexivity|]. rewrite N.eqb_eq. unfold on, tb_N. rewrite filter_len_iff. split.
    + intros H t Ht. rewrite GET by assumption. f_equal. apply H. apply mp_unique_in. exact Ht.
    + intros H t Ht. unfold list_t in Ht. apply (proj1 (mp_unique_in ts t)) in Ht. specialize (H t Ht). rewrite GET in H by assumption. congruence.
Qed.
Lemma equal a b : valid NN w a -> valid NN w b -> exists r, tb_eq ts w a b = Some r /\ (r = true <-> forall t, In t ts -> tb_get ts w a t = tb_get ts w b t).
Proof.
  intros Ha Hb. destruct (eq_ok pl NN w Hw Hwl P L a b Ha Hb) as (r & E & H). exists r. split; [exact E|]. rewrite H. split.
  - intros G t Ht. rewrite !GET by assumption. f_equal. apply G. apply index_of_lt. apply mp_unique_in. exact Ht.
  - intros G i Hi. destruct (types_index pl ts w Hw Hwl Hlen i Hi) as (t & Ht & <-). specialize (G t Ht). rewrite !GET in G by assumption. congruence.
Qed.
Lemma fresh : valid NN w (tb_default ts w) /\ (forall t, In t ts -> tb_get ts w (tb_default ts w) t = Some false) /\
  exists s, tb_all_bits ts w = Some s /\ valid NN w s /\ forall t, In t ts -> tb_get ts w s t = Some true.
Proof.
  destruct (make_ok pl NN w Hw Hwl P L) as (A & B). destruct (all_ones_ok pl NN w Hw Hwl P L) as (s & E & C & D).
  split; [exact A|]. split.
  - intros t Ht. rewrite GET; [|exact A|exact Ht]. f_equal. apply B, in_capacity, Ht.
  - exists s. split; [exact E|]. split; [exact C|]. intros t Ht. rewrite GET; [|exact C|exact Ht]. f_equal. rewrite D by (apply in_capacity, Ht).
    apply N.ltb_lt, index_of_lt, mp_unique_in, Ht.
Qed.
Lemma each_unset_get s : valid NN w s ->
  tb_for_each pl ts w TUnset s = Some (filter (fun t => match tb_get ts w s t with Some b => negb b | None => false end) (mp_unique ts)).
Proof.
  intros Hs. rewrite (each_unset pl ts w Hpl Hw Hwl Hne Hlen s Hs). f_equal. apply filter_ext_in. intros t Ht.
  apply (proj1 (mp_unique_in ts t)) in Ht. rewrite GET by assumption. reflexivity.
Qed.
Lemma unknown_set s t : ~ In t ts -> ~ NoDup ts -> valid NN w s -> tb_get ts w (set_all w s) t = if NN mod w =? 0 then None else Some true.
Proof.
  intros Ht D Hs. destruct (set_all_ok pl NN w Hw Hwl P L s Hs) as (A & B). rewrite (proj2 (unknown_get ts w (set_all w s) t Ht) D).
  destruct (N.eqb_spec (NN mod w) 0) as [Z|Z].
  - unfold get. rewrite rd_ge_None; [reflexivity|]. rewrite (proj1 A). pose proof (n_mod_total pl NN w Hw Hwl P L Z) as T. unfold total in T.
    rewrite <- T at 2. rewrite N.div_mul by lia. lia.
  - pose proof (total_n_mod pl NN w Hw Hwl P L Z) as T. rewrite (get_ok pl NN w Hw Hwl P L) by assumption. f_equal. apply B. exact T.
Qed.
End TB2.
