(** Proofs about the calls of the tuple algorithms. *)
From Coq Require Import Permutation.
From Verif Require Import Base BaseLemmas TupleModel MoveModel MoveSpec MoveProofs CallOrderModel CallOrderSpec.
From Verif Require AlgThrowModel AlgThrowSpec AlgThrowProofs TupleProofs.
Notation row := AlgThrowSpec.row. Notation shortest := AlgThrowSpec.shortest.

Lemma packed {E} (ts : list (list E)) n : shortest ts n -> pack (zip_length ts) (args_at ts) = Some (rows ts n).
Proof. apply AlgThrowProofs.pack_rows. Qed.
Lemma rows_length {E} (ts : list (list E)) n : length (rows ts n) = n.
Proof. unfold rows. now rewrite map_length, seq_length. Qed.

(** ** transform with index functions *)
Lemma effects_order {W X R} (f : W -> X -> W * R) l : forall w, fst (effects f w l) = in_order f l w.
Proof.
  induction l as [|x l IH]; intros w; [reflexivity|]. cbn [effects]. unfold in_order. cbn [List.fold_left]. specialize (IH (fst (f w x))).
  destruct (f w x) as [w1 r]. cbn [fst] in *. unfold in_order in IH. rewrite <- IH. destruct (effects f w1 l); reflexivity.
Qed.
Lemma effects_pure {W X R} (f : W -> X -> W * R) (g : X -> R) l : (forall w x, snd (f w x) = g x) -> forall w, snd (effects f w l) = map g l.
Proof.
  intros H. induction l as [|x l IH]; intros w; [reflexivity|]. cbn [effects map]. specialize (H w x). destruct (f w x) as [w1 r]. cbn [snd] in H. subst r.
  specialize (IH w1). destruct (effects f w1 l) as [w2 rs]. cbn [snd] in *. now rewrite IH.
Qed.
Lemma scattered_ok {W X R} order (f : W -> X -> W * R) (g : X -> R) w xs : any_order order -> (forall w x, snd (f w x) = g x) ->
  exists args, Permutation xs args /\ scattered order f w xs = Some (in_order f args w, map g xs).
Proof.
  intros Ho Hf. destruct (pick_ok order Ho xs) as (args & E & P & _ & _). exists args. split; [exact P|]. unfold scattered. rewrite E.
  pose proof (effects_order f args w) as E1. pose proof (effects_pure f g args Hf w) as E2. destruct (effects f w args) as [w' rs]. cbn [fst snd] in *. subst.
  rewrite (arrange_ok order Ho xs g args E). reflexivity.
Qed.
Lemma effects_count {X} (l : list X) : forall a, effects (fun w _ => (S w, w)) a l = (a + length l, seq a (length l)).
Proof.
  induction l as [|x l IH]; intros a; cbn [effects length seq]; [f_equal; lia|]. rewrite IH. f_equal. lia.
Qed.
Lemma assoc_position is : forall a i p, assoc i (combine is (seq a (length is))) = Some p -> a <= p /\ nth_error is (p - a) = Some i.
Proof.
  induction is as [|k is IH]; intros a i p H; [discriminate H|]. cbn [length seq combine assoc] in H. destruct (Nat.eqb_spec k i) as [->|N].
  - injection H as ->. rewrite Nat.sub_diag. split; [lia|reflexivity].
  - apply IH in H as (H1 & H2). split; [lia|]. replace (p - a) with (S (p - S a)) by lia. exact H2.
Qed.
Lemma scattered_count {X} order (xs : list X) : any_order order ->
  scattered order (fun w _ => (S w, w)) 0 xs = Some (length xs, seq 0 (length xs)) -> order (length xs) = seq 0 (length xs).
Proof.
  intros Ho H. destruct (pick_ok order Ho xs) as (args & E & P & La & Lo). unfold scattered in H. rewrite E in H. rewrite effects_count in H.
  destruct (mapo _ _) as [zs|] eqn:Z in H; [|discriminate H]. injection H as _ ->.
  rewrite La in Z. set (is := order (length xs)) in *.
  assert (N : forall i, i < length xs -> nth_error is i = Some i).
  { intros i Hi. pose proof (TupleProofs.pack_nth (length xs) _ _ i Z Hi) as K. rewrite (nth_error_nth' _ 0) in K by (rewrite seq_length; exact Hi).
    rewrite seq_nth in K by exact Hi. symmetry in K. rewrite <- Lo in K. apply assoc_position in K as (_ & K). now rewrite Nat.sub_0_r in K. }
  apply nth_ext with (d := 0) (d' := 0); [now rewrite Lo, seq_length|]. intros i Hi. rewrite Lo in Hi. rewrite seq_nth by exact Hi.
  apply nth_error_nth. now apply N.
Qed.

(** ** Fold expressions *)
Section Folds.
Context {W X V T : Type}.
Variable type : V -> T.
Variable f : W -> X -> W * V.
Variable over : T -> T -> option (W -> V -> V -> W * V).
Lemma comma_plain xs : forall w x, (forall w w' x y, over (type (snd (f w x))) (type (snd (f w' y))) = None) ->
  fst (comma_fold type f over w x xs) = in_order f (x :: xs) w /\ exists w' y, snd (comma_fold type f over w x xs) = snd (f w' y).
Proof.
  intros w x H. revert w x. induction xs as [|y xs IH]; intros w x.
  - split; [reflexivity|]. exists w, x. reflexivity.
  - cbn [comma_fold]. pose proof (H w) as Hx. destruct (f w x) as [w1 a] eqn:Ea. destruct (IH w1 y) as (E1 & w' & z & E2).
    destruct (comma_fold type f over w1 y xs) as [w2 b]. cbn [fst snd] in *. subst b. specialize (Hx w' x z). rewrite Ea in Hx. cbn [snd] in Hx. rewrite Hx.
    cbn [fst snd]. split; [|eauto]. rewrite E1. unfold in_order. cbn [List.fold_left]. now rewrite Ea.
Qed.
Lemma for_each_plain xs w : (forall w w' x y, over (type (snd (f w x))) (type (snd (f w' y))) = None) ->
  for_each_calls type f over w xs = in_order f xs w.
Proof. intros H. destruct xs as [|x xs]; [reflexivity|]. apply (comma_plain xs w x H). Qed.
End Folds.
Lemma comma_logged {X V T} (type : V -> T) (over : T -> T -> option (list (event X) -> V -> V -> list (event X) * V)) v xs : forall w x,
  over (type v) (type v) = Some (fun w _ _ => (w ++ [Operator], v)) ->
  comma_fold type (fun w x => (w ++ [Call x], v)) over w x xs = (w ++ Call x :: map Call xs ++ repeat Operator (length xs), v).
Proof.
  intros w x H. revert w x. induction xs as [|y xs IH]; intros w x; cbn [comma_fold]; [reflexivity|]. rewrite IH, H. f_equal.
  cbn [map length]. rewrite <- !app_assoc. cbn [app]. rewrite <- app_assoc. cbn [app repeat]. do 4 f_equal. symmetry. apply (repeat_cons (length xs)).
Qed.
Section Logical.
Context {W X V T : Type}.
Variable type : V -> T.
Variable f : W -> X -> W * V.
Variable over : T -> T -> option (W -> V -> V -> W * V).
Variable result_type : X -> T.
Variable to_bool : V -> bool.
Variable of_bool : bool -> V.
Variable stop : bool.
Hypothesis Hb : forall b, to_bool (of_bool b) = b.
Hypothesis plain : forall t u, over t u = None.
Definition asked (w : W) (x : X) : W * option bool := (fst (f w x), Some (to_bool (snd (f w x)))).
Lemma logical_stopped xs : forall w a, to_bool a = stop -> fst (logical_fold type f over result_type to_bool of_bool stop w a xs) = w /\
  to_bool (snd (logical_fold type f over result_type to_bool of_bool stop w a xs)) = stop.
Proof.
  induction xs as [|x xs IH]; intros w a H; [split; [reflexivity|exact H]|]. cbn [logical_fold]. rewrite plain, H, Bool.eqb_reflx. apply IH, Hb.
Qed.
Lemma logical_plain xs : forall w a, to_bool a = negb stop ->
  let r := logical_fold type f over result_type to_bool of_bool stop w a xs in
  AlgThrowModel.until_fold stop asked w xs = (fst r, AlgThrowModel.Returned (to_bool (snd r))).
Proof.
  induction xs as [|x xs IH]; intros w a H; cbn zeta; cbn [logical_fold AlgThrowModel.until_fold]; [cbn [fst snd]; now rewrite H|].
  rewrite plain, H. rewrite (proj2 (Bool.eqb_false_iff _ _) (fun e => Bool.no_fixpoint_negb stop e)).
  unfold asked at 1. destruct (f w x) as [w1 b]. cbn [fst snd]. destruct (Bool.eqb (to_bool b) stop) eqn:E.
  - apply Bool.eqb_prop in E. destruct (logical_stopped xs w1 (of_bool (to_bool b))) as (-> & ->); [now rewrite Hb|]. reflexivity.
  - apply IH. rewrite Hb. destruct (to_bool b), stop; cbn in *; congruence.
Qed.
Lemma all_or_any_plain xs w : let r := all_or_any type f over result_type to_bool of_bool stop w xs in
  AlgThrowModel.until_fold stop asked w xs = (fst r, AlgThrowModel.Returned (snd r)).
Proof.
  destruct xs as [|x xs]; [reflexivity|]. cbn [all_or_any AlgThrowModel.until_fold]. unfold asked at 1. destruct (f w x) as [w1 a]. cbn [fst snd].
  destruct (Bool.eqb (to_bool a) stop) eqn:E.
  - apply Bool.eqb_prop in E. destruct (logical_stopped xs w1 a E) as (E1 & E2). destruct (logical_fold _ _ _ _ _ _ _ w1 a xs) as [w2 b]. cbn [fst snd] in *. rewrite E1, E2. reflexivity.
  - assert (to_bool a = negb stop) by (destruct (to_bool a), stop; cbn in *; congruence). rewrite (logical_plain xs w1 a H).
    destruct (logical_fold _ _ _ _ _ _ _ w1 a xs); reflexivity.
Qed.
End Logical.
Lemma logical_logged {X V T} (type : V -> T) (over : T -> T -> option (list X -> V -> V -> list X * V)) (val : X -> V) (h : V -> V -> V) to_bool of_bool stop t xs : forall w a,
  over t t = Some (fun w a b => (w, h a b)) -> (forall x, type (val x) = t) -> (forall a b, type (h a b) = t) -> type a = t ->
  fst (logical_fold type (fun w x => (w ++ [x], val x)) over (fun _ => t) to_bool of_bool stop w a xs) = w ++ xs.
Proof.
  intros w a Ho Hv Hh. revert w a. induction xs as [|x xs IH]; intros w a Ha; cbn [logical_fold]; [now rewrite app_nil_r|].
  rewrite Ha, Ho. rewrite IH by apply Hh. now rewrite <- app_assoc.
Qed.

(** ** operator<=> *)
Lemma compare_from_log {E E'} (c : E -> E' -> option comparison) l : forall r w result, length l = length r ->
  exists k, k <= length l /\
    fst (compare_from (fun w x y => (w ++ [(x, y)], c x y)) w result (combine l r)) = w ++ firstn k (combine l r) /\
    (forall i x y, S i < k -> nth_error (combine l r) i = Some (x, y) -> c x y = Some Eq) /\
    (k < length l -> exists i x y, k = S i /\ nth_error (combine l r) i = Some (x, y) /\ c x y <> Some Eq).
Proof.
  induction l as [|x l IH]; intros [|y r] w result Hl; try discriminate Hl.
  - exists 0. cbn. rewrite app_nil_r. repeat split; intros; lia.
  - cbn [combine compare_from]. destruct (nonzero (c x y)) eqn:N.
    + exists 1. cbn [length firstn fst]. split; [lia|]. split; [reflexivity|]. split; [intros; lia|]. intros _. exists 0, x, y. split; [reflexivity|]. split; [reflexivity|].
      intros H. rewrite H in N. discriminate N.
    + destruct (IH r (w ++ [(x, y)]) (c x y)) as (k & K1 & K2 & K3 & K4); [injection Hl as Hl; exact Hl|]. exists (S k). cbn [length firstn]. split; [lia|].
      split; [now rewrite K2, <- app_assoc|]. split.
      * intros [|i] a b Hi Hn; cbn [nth_error] in Hn; [|now apply (K3 i); [lia|]]. injection Hn as <- <-. destruct (c x y) as [[]|]; cbn in N; congruence.
      * intros Hk. destruct K4 as (i & a & b & -> & Hn & Hc); [lia|]. exists (S i), a, b. auto.
Qed.
