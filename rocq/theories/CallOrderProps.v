(** C97 A tuple algorithm calls the function for each element, from first to last, and nothing else. *)
From Coq Require Import Permutation.
From Verif Require Import Base BaseLemmas TupleModel MoveSpec CallOrderModel CallOrderSpec CallOrderProofs.
From Verif Require AlgThrowModel AlgThrowSpec AlgThrowProofs TupleProofs.

(** ** for_each and enumerate
    The results' types have no comma operators of their own: *)
Theorem C97_for_each_partial : forall W E V T (type : V -> T) over (op : W -> list E -> W * V) w ts n, shortest ts n ->
  (forall w w' x y, over (type (snd (op w x))) (type (snd (op w' y))) = None) ->
  tuple_for_each type over op w ts = Some (in_order op (rows ts n) w).
Proof. intros W E V T type over op w ts n Hs H. unfold tuple_for_each. rewrite (packed ts n Hs). now rewrite for_each_plain. Qed.
Print Assumptions C97_for_each_partial.
(** Otherwise the operator is called, as often as there are calls but one. *)
Theorem C97_comma_refuted : forall E V T (type : V -> T) over (v : V) w (ts : list (list E)) n, shortest ts n ->
  over (type v) (type v) = Some (fun w _ _ => (w ++ [Operator], v)) ->
  tuple_for_each type over (fun w r => (w ++ [Call r], v)) w ts = Some (w ++ map Call (rows ts n) ++ repeat Operator (n - 1)).
Proof.
  intros E V T type over v w ts n Hs H. unfold tuple_for_each. rewrite (packed ts n Hs). f_equal. pose proof (rows_length ts n) as L.
  destruct (rows ts n) as [|x xs]; cbn [for_each_calls]; [cbn in L; subst n; cbn; now rewrite app_nil_r|].
  rewrite (comma_logged type over v xs w x H). cbn [fst map app length] in *. now replace (length xs) with (n - 1) by lia.
Qed.
Print Assumptions C97_comma_refuted.

(** ** all_of ([stop] = false) and any_of ([stop] = true)
    Without operators of their own, no call is made after the first that decides. *)
Theorem C97_logical_partial : forall W E V T (type : V -> T) over result_type to_bool of_bool stop (op : W -> list E -> W * V) w ts n, shortest ts n ->
  (forall b, to_bool (of_bool b) = b) -> (forall t u, over t u = None) ->
  AlgThrowSpec.searches (fun w r => (fst (op w r), Some (to_bool (snd (op w r))))) (row ts) stop n w
    (option_map (fun r => (fst r, AlgThrowModel.Returned (snd r))) (tuple_all_any type over result_type to_bool of_bool stop op w ts)).
Proof.
  intros W E V T type over result_type to_bool of_bool stop op w ts n Hs Hb H. unfold tuple_all_any. rewrite (packed ts n Hs).
  pose proof (AlgThrowProofs.until_searches (asked op to_bool) stop (row ts) n w) as S.
  pose proof (all_or_any_plain type op over result_type to_bool of_bool stop Hb H (rows ts n) w) as A. cbn zeta in A. unfold rows in *. rewrite A in S. exact S.
Qed.
Print Assumptions C97_logical_partial.
(** With an operator of their own every call is made, whatever the answers. *)
Theorem C97_logical_refuted : forall E V T (type : V -> T) over (val : list E -> V) h to_bool of_bool stop t w ts n, shortest ts n ->
  over t t = Some (fun w a b => (w, h a b)) -> (forall x, type (val x) = t) -> (forall a b, type (h a b) = t) ->
  option_map fst (tuple_all_any type over (fun _ => t) to_bool of_bool stop (fun w r => (w ++ [r], val r)) w ts) = Some (w ++ rows ts n).
Proof.
  intros E V T type over val h to_bool of_bool stop t w ts n Hs Ho Hv Hh. unfold tuple_all_any. rewrite (packed ts n Hs). cbn [option_map]. f_equal.
  destruct (rows ts n) as [|x xs]; cbn [all_or_any]; [cbn; now rewrite app_nil_r|].
  pose proof (logical_logged type over val h to_bool of_bool stop t xs (w ++ [x]) (val x) Ho Hv Hh (Hv x)) as L.
  destruct (logical_fold _ _ _ _ _ _ _ _ _ xs) as [w2 b]. cbn [fst] in *. now rewrite L, <- app_assoc.
Qed.
Print Assumptions C97_logical_refuted.

(** ** transform to an indexed tuple
    In any order of evaluation every element is transformed once; if what the function answers does
    not depend on the calls before, the result is as expected. *)
Theorem C97_indexed_partial : forall W E R order (op : W -> list E -> W * R) g w ts n, any_order order -> shortest ts n -> (forall w r, snd (op w r) = g r) ->
  exists args, Permutation (rows ts n) args /\ transform_indexed order op w ts = Some (in_order op args w, map g (rows ts n)).
Proof. intros W E R order op g w ts n Ho Hs H. unfold transform_indexed. rewrite (packed ts n Hs). now apply scattered_ok. Qed.
Print Assumptions C97_indexed_partial.
(** Evaluated in any order but the first to last, a function that counts its calls shows it. *)
Theorem C97_indexed_refuted : forall E order (ts : list (list E)) n, any_order order -> shortest ts n -> order n <> seq 0 n ->
  transform_indexed order (fun w _ => (S w, w)) 0 ts <> Some (n, seq 0 n).
Proof.
  intros E order ts n Ho Hs Hn H. unfold transform_indexed in H. rewrite (packed ts n Hs) in H. apply Hn.
  pose proof (scattered_count order (rows ts n) Ho) as S. rewrite rows_length in S. exact (S H).
Qed.
Print Assumptions C97_indexed_refuted.

(** ** operator<=>
    The pairs up to the first that differ are compared, but the first pair twice. *)
Theorem C97_compare_twice_refuted : forall E E' (c : E -> E' -> option comparison) x l y r, length l = length r ->
  let pairs := combine (x :: l) (y :: r) in
  exists k, 1 <= k <= length pairs /\
  option_map fst (tuple_compare (fun w a b => (w ++ [(a, b)], c a b)) [] (x :: l) (y :: r)) = Some ((x, y) :: firstn k pairs) /\
  (forall i a b, S i < k -> nth_error pairs i = Some (a, b) -> c a b = Some Eq) /\
  (k < length pairs -> exists a b, nth_error pairs (k - 1) = Some (a, b) /\ c a b <> Some Eq).
Proof.
  intros E E' c x l y r Hl pairs. assert (Lp : length pairs = length (x :: l)) by (unfold pairs; rewrite combine_length; cbn [length]; lia).
  destruct (compare_from_log c (x :: l) (y :: r) [(x, y)] (c x y)) as (k & K1 & K2 & K3 & K4); [cbn; now rewrite Hl|].
  change (combine (x :: l) (y :: r)) with pairs in K2, K3, K4. change ([] ++ [(x, y)]) with [(x, y)].
  exists k. assert (k <> 0) by (intros ->; destruct K4 as (i & _ & _ & H & _); [cbn; lia|discriminate H]). split; [lia|]. split; [|split; [exact K3|]].
  - unfold tuple_compare, tuple_size. cbn [length]. rewrite Hl, Nat.eqb_refl. cbn [Nat.eqb get nth_error].
    rewrite (TupleProofs.pack_ok _ _ pairs).
    + cbn [option_map]. f_equal. exact K2.
    + rewrite Lp. cbn [length]. now rewrite Hl.
    + intros i Hi. unfold get. assert (Hi2 : i < length pairs) by (rewrite Lp; cbn; lia). destruct (nth_error pairs i) as [[a b]|] eqn:Ep; [|apply nth_error_None in Ep; lia].
      unfold pairs in Ep. apply (nth_error_nth _ _ (x, y)) in Ep. rewrite combine_nth in Ep by (cbn; lia). apply pair_equal_spec in Ep as [Ea Eb].
      assert (Ea' : nth_error (x :: l) i = Some a) by (rewrite <- Ea; apply nth_error_nth'; cbn; lia).
      assert (Eb' : nth_error (y :: r) i = Some b) by (rewrite <- Eb; apply nth_error_nth'; cbn; lia). now rewrite Ea', Eb'.
  - intros Hk. destruct K4 as (i & a & b & -> & H1 & H2); [rewrite <- Lp; exact Hk|]. exists a, b. now rewrite Nat.sub_1_r.
Qed.
Print Assumptions C97_compare_twice_refuted.

Example C97_example :
  shortest [[1; 2; 3]; [4; 5; 6; 7]] 3 /\
  tuple_for_each (fun v : nat => v) (fun _ _ => Some (fun w _ _ => (w ++ [Operator], 9))) (fun w r => (w ++ [Call r], 9)) [] [[1; 2; 3]; [4; 5; 6; 7]]
    = Some [Call [1; 4]; Call [2; 5]; Call [3; 6]; Operator; Operator] /\
  tuple_for_each (fun v : nat => v) (fun _ _ => None) (fun w r => (w ++ [Call r], 9)) [] [[1; 2; 3]] = Some [Call [1]; Call [2]; Call [3]] /\
  transform_indexed (fun n => rev (seq 0 n)) (fun w _ => (S w, w)) 0 [[5; 6; 7]] = Some (3, [2; 1; 0]) /\
  any_order (fun n => rev (seq 0 n)) /\
  tuple_compare (fun w a b => (w ++ [(a, b)], Some (Nat.compare a b))) [] [1; 2; 3] [1; 4; 5] = Some ([(1, 1); (1, 1); (2, 4)], Some Lt) /\
  tuple_all_any (fun _ : bool => tt) (fun _ _ => None) (fun _ => tt) (fun b => b) (fun b => b) false (fun w r => (w ++ [r], hd 0 r =? 1)) [] [[1; 2; 3]] = Some ([[1]; [2]], false) /\
  tuple_all_any (fun _ : bool => tt) (fun _ _ => Some (fun w a b => (w, a && b))) (fun _ => tt) (fun b => b) (fun b => b) false (fun w r => (w ++ [r], hd 0 r =? 1)) [] [[1; 2; 3]] = Some ([[1]; [2]; [3]], false).
Proof.
  split; [split; [repeat (apply Forall_cons; [cbn; lia|]); apply Forall_nil|apply Exists_cons_hd; reflexivity]|].
  repeat split; try reflexivity. intros n. apply Permutation_rev.
Qed.
