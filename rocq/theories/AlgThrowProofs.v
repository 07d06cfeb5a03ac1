(** Proofs about algorithms whose functions throw. *)
From Verif Require Import Base BaseLemmas AlgorithmModel AlgorithmSpec AlgorithmProofs AlgThrowModel AlgThrowSpec.
From Verif Require TupleModel ArgsModel.

(** The rounds i, ..., i + n - 1, one after the other until one throws. *)
Section Go.
Context {S : Type}.
Variable r : nat -> S -> S * bool.
Fixpoint go (i n : nat) (s : S) : S * bool :=
  match n with
  | O => (s, true)
  | Datatypes.S n => let (s', b) := r i s in if b then go (i + 1) n s' else (s', false)
  end.
Lemma after_S n s : after r (Datatypes.S n) s = fst (r n (after r n s)).
Proof. unfold after. rewrite seq_S, fold_left_app. reflexivity. Qed.
Lemma go_ok j n s : (forall i, i < n -> snd (r (j + i) (fold_left (fun s i => fst (r i s)) (seq j i) s)) = true) ->
  go j n s = (fold_left (fun s i => fst (r i s)) (seq j n) s, true).
Proof.
  revert j s. induction n as [|n IH]; intros j s H; cbn [go]; [reflexivity|].
  pose proof (H 0 ltac:(lia)) as H0. cbn in H0. rewrite Nat.add_0_r in H0.
  destruct (r j s) as [s' b] eqn:E. cbn in H0. subst b. replace (j + 1) with (Datatypes.S j) by lia. rewrite IH.
  - cbn [seq fold_left]. now rewrite E.
  - intros i Hi. specialize (H (Datatypes.S i) ltac:(lia)). cbn [seq fold_left] in H. rewrite E in H. cbn [fst] in H.
    now replace (Datatypes.S j + i) with (j + Datatypes.S i) by lia.
Qed.
Lemma go_throws j n s k : k < n -> (forall i, i < k -> snd (r (j + i) (fold_left (fun s i => fst (r i s)) (seq j i) s)) = true) ->
  snd (r (j + k) (fold_left (fun s i => fst (r i s)) (seq j k) s)) = false ->
  go j n s = (fold_left (fun s i => fst (r i s)) (seq j (1 + k)) s, false).
Proof.
  revert j s k. induction n as [|n IH]; intros j s k Hk H Ht; [lia|]. cbn [go].
  destruct k as [|k].
  - cbn in *. rewrite Nat.add_0_r in Ht. destruct (r j s) as [s' b] eqn:E. cbn in *. now subst b.
  - pose proof (H 0 ltac:(lia)) as H0. cbn in H0. rewrite Nat.add_0_r in H0.
    destruct (r j s) as [s' b] eqn:E. cbn in H0. subst b. replace (j + 1) with (Datatypes.S j) by lia. rewrite (IH _ _ k); [|lia| |].
    + change (1 + Datatypes.S k) with (Datatypes.S (1 + k)). cbn [seq fold_left]. now rewrite E.
    + intros i Hi. specialize (H (Datatypes.S i) ltac:(lia)). cbn [seq fold_left] in H. rewrite E in H. cbn [fst] in H.
      now replace (Datatypes.S j + i) with (j + Datatypes.S i) by lia.
    + cbn [seq fold_left] in Ht. rewrite E in Ht. cbn [fst] in Ht. now replace (Datatypes.S j + k) with (j + Datatypes.S k) by lia.
Qed.
(** What the rounds amount to. *)
Definition outcome_of {W A} (thrown : S -> W) (returned : S -> W * A) (x : S * bool) : option (W * ended A) :=
  if snd x then Some (fst (returned (fst x)), Returned (snd (returned (fst x)))) else Some (thrown (fst x), Threw).
Lemma go_stops {W A} n s (thrown : S -> W) (returned : S -> W * A) res :
  res = outcome_of thrown returned (go 0 n s) -> stops r n s thrown returned res.
Proof.
  intros ->. split.
  - intros k Hk H Ht. rewrite (go_throws 0 n s k Hk H Ht). reflexivity.
  - intros H. rewrite (go_ok 0 n s H). reflexivity.
Qed.
End Go.
Lemma go_ext {S} (r r' : nat -> S -> S * bool) i n s : (forall j s, i <= j < i + n -> r j s = r' j s) -> go r i n s = go r' i n s.
Proof.
  revert i s. induction n as [|n IH]; intros i s H; cbn [go]; [reflexivity|]. rewrite H by lia.
  destruct (r' i s) as [s' []]; [|reflexivity]. apply IH. intros j x Hj. apply H. lia.
Qed.

Section Ranges.
Variable size_of : N -> N.
(** Availability from position [i] on. *)
Lemma avail_at i n its : available size_of (i + n) its -> available size_of n (map (shift i) its).
Proof.
  intros H. apply Forall_map. eapply Forall_impl; [|exact H]. intros it Hit. cbn beta in *. unfold shift. cbn [fst snd]. lia.
Qed.
Lemma shift_1 i it : shift 1 (shift i it) = shift (i + 1) it.
Proof. apply shift_shift. Qed.
Lemma map_shift_1 i its : map (shift 1) (map (shift i) its) = map (shift (i + 1)) its.
Proof. rewrite map_map. apply map_ext. intros it. apply shift_1. Qed.
Lemma eq_shift_at i n it : iter_eq (shift i it) (shift (i + n) it) = (n =? 0).
Proof. rewrite <- (shift_shift n i). apply eq_shift. Qed.

Lemma fuel_enough it n its : available size_of n (it :: its) -> n <= fuel size_of it.
Proof. intros H. apply Forall_cons_iff in H as (H & _). pose proof (avail_fuel size_of it n H). lia. Qed.
End Ranges.

Section Algorithm.
Context {W B : Type}.
Variable size_of : N -> N.
Variable op : W -> list iter -> W * option B.

Lemma each_body_ok i n w first firsts : available size_of (i + S n) (first :: firsts) ->
  each_body size_of op w (shift i first) (map (shift i) firsts) =
  Some (fst (each op (first :: firsts) i w), if snd (each op (first :: firsts) i w) then Returned (shift (i + 1) first, map (shift (i + 1)) firsts) else Threw).
Proof.
  intros H. pose proof (avail_at size_of i (S n) _ H) as Ha. cbn [map] in Ha. unfold each_body.
  rewrite (all_deref_ok size_of n _ Ha). unfold each. change (args (first :: firsts) i) with (shift i first :: map (shift i) firsts).
  destruct (op w _) as [w1 [b|]]; cbn [called next_if fst snd returns]; [|reflexivity].
  apply Forall_cons_iff in Ha as (H1 & H2). rewrite (next_ok size_of _ n H1), (all_next_ok size_of n _ H2).
  now rewrite shift_1, map_shift_1.
Qed.
Definition each_result first firsts n (x : W * bool) : option (W * ended (iter * list iter)) :=
  outcome_of (fun w => w) (fun w => (w, (shift n first, map (shift n) firsts))) x.
Lemma for_each_loop_ok n : forall i k w first firsts, n <= k -> available size_of (i + n) (first :: firsts) ->
  for_each_loop size_of op k w (shift i first) (shift (i + n) first) (map (shift i) firsts) =
  each_result first firsts (i + n) (go (each op (first :: firsts)) i n w).
Proof.
  induction n as [|n IH]; intros i k w first firsts Hk Ha.
  - destruct k; cbn [for_each_loop]; rewrite eq_shift_at; cbn; now rewrite Nat.add_0_r.
  - destruct k as [|k]; [lia|]. cbn [for_each_loop go]. rewrite eq_shift_at. cbn [Nat.eqb]. rewrite (each_body_ok i n) by exact Ha.
    destruct (each op (first :: firsts) i w) as [w' []]; cbn [fst snd next_if]; [|reflexivity].
    replace (i + S n) with (i + 1 + n) in * by lia. apply IH; [lia|exact Ha].
Qed.
Lemma for_each_n_loop_ok n : forall i k w first firsts, n <= k -> available size_of (i + n) (first :: firsts) ->
  for_each_n_loop size_of op k w (shift i first) (Z.of_nat n) (map (shift i) firsts) =
  each_result first firsts (i + n) (go (each op (first :: firsts)) i n w).
Proof.
  induction n as [|n IH]; intros i k w first firsts Hk Ha.
  - destruct k; cbn [for_each_n_loop]; cbn; now rewrite Nat.add_0_r.
  - destruct k as [|k]; [lia|]. cbn [for_each_n_loop go]. destruct (Z.of_nat (S n) >? 0)%Z eqn:E; [|lia]. rewrite (each_body_ok i n) by exact Ha.
    destruct (each op (first :: firsts) i w) as [w' []]; cbn [fst snd next_if]; [|reflexivity].
    replace (Z.of_nat (S n) - 1)%Z with (Z.of_nat n) by lia.
    replace (i + S n) with (i + 1 + n) in * by lia. apply IH; [lia|exact Ha].
Qed.
Lemma lag_loop_ok n : forall i k w adv first firsts, n <= k -> (snd adv + N.of_nat (i + n) <= size_of (fst adv))%N -> available size_of (i + n) (first :: firsts) ->
  lag_loop size_of op k w (shift i adv) (shift i first) (shift (i + n) adv) (map (shift i) firsts) =
  each_result first firsts (i + n) (go (each op (first :: firsts)) i n w).
Proof.
  induction n as [|n IH]; intros i k w adv first firsts Hk Hadv Ha.
  - destruct k; cbn [lag_loop]; rewrite eq_shift_at; cbn; now rewrite Nat.add_0_r.
  - destruct k as [|k]; [lia|]. cbn [lag_loop go]. rewrite eq_shift_at. cbn [Nat.eqb]. rewrite (each_body_ok i n) by exact Ha.
    destruct (each op (first :: firsts) i w) as [w' []]; cbn [fst snd next_if]; [|reflexivity].
    rewrite (next_ok size_of _ 0) by (unfold shift; cbn [fst snd]; lia). rewrite shift_1.
    replace (i + S n) with (i + 1 + n) in * by lia. apply IH; [lia|exact Hadv|exact Ha].
Qed.
(** Without the position to start from. *)
Lemma for_each_ok n w first firsts : available size_of n (first :: firsts) ->
  for_each size_of op w first (shift n first) firsts =
  outcome_of (fun w => w) (fun w => (w, map (shift n) firsts)) (go (each op (first :: firsts)) 0 n w).
Proof.
  intros H. unfold for_each. pose proof (for_each_loop_ok n 0 (fuel size_of first) w first firsts (fuel_enough _ _ _ _ H) H) as E.
  cbn [Nat.add] in E. rewrite shift_0, map_shift_0 in E. rewrite E. destruct (go _ 0 n w) as [w' []]; reflexivity.
Qed.
Lemma for_each_n_ok n w first firsts : available size_of (Z.to_nat n) (first :: firsts) ->
  for_each_n size_of op w first n firsts = each_result first firsts (Z.to_nat n) (go (each op (first :: firsts)) 0 (Z.to_nat n) w).
Proof.
  intros H. unfold for_each_n. destruct (Z.leb_spec n 0).
  - rewrite (nonpos_nat n) by lia. unfold fuel. cbn [for_each_n_loop]. destruct (n >? 0)%Z eqn:E; [lia|]. cbn. now rewrite shift_0, map_shift_0.
  - pose proof (for_each_n_loop_ok (Z.to_nat n) 0 (fuel size_of first) w first firsts (fuel_enough _ _ _ _ H) H) as E.
    cbn [Nat.add] in E. rewrite shift_0, map_shift_0 in E. rewrite Z2Nat.id in E by lia. exact E.
Qed.
Lemma butlastn_ok random n m w first firsts :
  (snd first + N.of_nat n <= size_of (fst first))%N -> (Z.of_nat n < 2 ^ 63)%Z -> (0 <= m < 2 ^ 63)%Z ->
  available size_of (n - Z.to_nat m) firsts ->
  for_each_butlastn size_of op random w first (shift n first) m firsts =
  each_result first firsts (n - Z.to_nat m) (go (each op (first :: firsts)) 0 (n - Z.to_nat m) w).
Proof.
  intros Hf Hn Hm Ha.
  assert (Ha' : available size_of (n - Z.to_nat m) (first :: firsts)) by (constructor; [lia|exact Ha]). destruct random; cbn [for_each_butlastn].
  - unfold butlastn_random. assert (E1 : ptrdiff (Z.of_N (snd (shift n first)) - Z.of_N (snd first))%Z = Some (Z.of_nat n)).
    { unfold ptrdiff, shift. cbn [snd]. destruct ((- 2 ^ 63 <=? _) && (_ <? 2 ^ 63))%Z eqn:E; [f_equal; lia|].
      apply andb_false_iff in E as [E|E]; [apply Z.leb_gt in E|apply Z.ltb_ge in E]; lia. }
    rewrite E1. rewrite (to_ptrdiff_small m) by lia.
    assert (E2 : ptrdiff (Z.of_nat n - m)%Z = Some (Z.of_nat n - m)%Z).
    { unfold ptrdiff. destruct ((- 2 ^ 63 <=? _) && (_ <? 2 ^ 63))%Z eqn:E; [reflexivity|].
      apply andb_false_iff in E as [E|E]; [apply Z.leb_gt in E|apply Z.ltb_ge in E]; lia. }
    rewrite E2. replace (n - Z.to_nat m) with (Z.to_nat (Z.of_nat n - m)) in * by lia. now apply for_each_n_ok.
  - unfold butlastn_forward.
    rewrite (advance_upto_ok size_of n _ first m) by (try exact Hf; pose proof (avail_fuel size_of first n Hf); lia).
    set (a := n - Z.to_nat m) in *.
    assert (Ea : shift (Nat.min n (Z.to_nat m)) first = shift (n - a) first) by (f_equal; lia).
    rewrite Ea.
    pose proof (lag_loop_ok a 0 (fuel size_of first) w (shift (n - a) first) first firsts) as L. cbn [Nat.add] in L.
    rewrite !shift_0, map_shift_0, shift_shift in L. replace (n - a + a) with n in L by lia. apply L; [|unfold shift; cbn [fst snd]; lia|exact Ha'].
    pose proof (avail_fuel size_of first n Hf). lia.
Qed.
Section Stored.
Variable store : W -> iter -> B -> W * option unit.
Lemma transform_body_ok i n w d first firsts : available size_of (i + S n) (d :: first :: firsts) ->
  transform_body size_of op store w (shift i d) (shift i first) (map (shift i) firsts) =
  Some (fst (each_stored op store (first :: firsts) d i w),
        if snd (each_stored op store (first :: firsts) d i w) then Returned (shift (i + 1) d, shift (i + 1) first, map (shift (i + 1)) firsts) else Threw).
Proof.
  intros H. pose proof (avail_at size_of i (S n) _ H) as Ha. cbn [map] in Ha. apply Forall_cons_iff in Ha as (Hd & Ha). unfold transform_body.
  rewrite (all_deref_ok size_of n _ Ha). unfold each_stored. change (args (first :: firsts) i) with (shift i first :: map (shift i) firsts).
  destruct (op w _) as [w1 [b|]]; cbn [called next_if fst snd returns]; [|reflexivity].
  rewrite (deref_ok size_of _ n Hd). destruct (store w1 (shift i d) b) as [w2 [u|]]; cbn [called next_if fst snd returns]; [|reflexivity].
  apply Forall_cons_iff in Ha as (H1 & H2). rewrite (next_ok size_of _ n H1), (all_next_ok size_of n _ H2), (next_ok size_of _ n Hd).
  now rewrite !shift_1, map_shift_1.
Qed.
Definition stored_result d first firsts n (x : W * bool) : option (W * ended (iter * iter * list iter)) :=
  outcome_of (fun w => w) (fun w => (w, (shift n d, shift n first, map (shift n) firsts))) x.
Lemma transform_loop_ok n : forall i k w d first firsts, n <= k -> available size_of (i + n) (d :: first :: firsts) ->
  transform_loop size_of op store k w (shift i d) (shift i first) (shift (i + n) first) (map (shift i) firsts) =
  stored_result d first firsts (i + n) (go (each_stored op store (first :: firsts) d) i n w).
Proof.
  induction n as [|n IH]; intros i k w d first firsts Hk Ha.
  - destruct k; cbn [transform_loop]; rewrite eq_shift_at; cbn; now rewrite Nat.add_0_r.
  - destruct k as [|k]; [lia|]. cbn [transform_loop go]. rewrite eq_shift_at. cbn [Nat.eqb]. rewrite (transform_body_ok i n) by exact Ha.
    destruct (each_stored op store (first :: firsts) d i w) as [w' []]; cbn [fst snd next_if]; [|reflexivity].
    replace (i + S n) with (i + 1 + n) in * by lia. apply IH; [lia|exact Ha].
Qed.
Lemma transform_n_loop_ok n : forall i k w d first firsts, n <= k -> available size_of (i + n) (d :: first :: firsts) ->
  transform_n_loop size_of op store k w (shift i d) (shift i first) (Z.of_nat n) (map (shift i) firsts) =
  stored_result d first firsts (i + n) (go (each_stored op store (first :: firsts) d) i n w).
Proof.
  induction n as [|n IH]; intros i k w d first firsts Hk Ha.
  - destruct k; cbn [transform_n_loop]; cbn; now rewrite Nat.add_0_r.
  - destruct k as [|k]; [lia|]. cbn [transform_n_loop go]. destruct (Z.of_nat (S n) >? 0)%Z eqn:E; [|lia]. rewrite (transform_body_ok i n) by exact Ha.
    destruct (each_stored op store (first :: firsts) d i w) as [w' []]; cbn [fst snd next_if]; [|reflexivity].
    replace (Z.of_nat (S n) - 1)%Z with (Z.of_nat n) by lia.
    replace (i + S n) with (i + 1 + n) in * by lia. apply IH; [lia|exact Ha].
Qed.

Lemma transform_ok n w d first firsts : available size_of n (d :: first :: firsts) ->
  transform size_of op store w first (shift n first) d firsts =
  stored_result d first firsts n (go (each_stored op store (first :: firsts) d) 0 n w).
Proof.
  intros H. unfold transform. pose proof H as H'. apply Forall_cons_iff in H' as (_ & H').
  pose proof (transform_loop_ok n 0 (fuel size_of first) w d first firsts (fuel_enough _ _ _ _ H') H) as E.
  cbn [Nat.add] in E. rewrite !shift_0, map_shift_0 in E. exact E.
Qed.
Lemma transform_n_ok n w d first firsts : available size_of (Z.to_nat n) (d :: first :: firsts) ->
  transform_n size_of op store w first n d firsts =
  stored_result d first firsts (Z.to_nat n) (go (each_stored op store (first :: firsts) d) 0 (Z.to_nat n) w).
Proof.
  intros H. unfold transform_n. pose proof H as H'. apply Forall_cons_iff in H' as (_ & H'). destruct (Z.leb_spec n 0).
  - rewrite (nonpos_nat n) by lia. unfold fuel. cbn [transform_n_loop]. destruct (n >? 0)%Z eqn:E; [lia|]. cbn. now rewrite !shift_0, map_shift_0.
  - pose proof (transform_n_loop_ok (Z.to_nat n) 0 (fuel size_of first) w d first firsts (fuel_enough _ _ _ _ H') H) as E.
    cbn [Nat.add] in E. rewrite !shift_0, map_shift_0 in E. rewrite Z2Nat.id in E by lia. exact E.
Qed.
End Stored.
End Algorithm.

Lemma go_app {S} (r : nat -> S -> S * bool) n m : forall i s,
  go r i (n + m) s = let (s', b) := go r i n s in if b then go r (i + n) m s' else (s', false).
Proof.
  induction n as [|n IH]; intros i s; cbn [Nat.add go]; [now rewrite Nat.add_0_r|].
  destruct (r i s) as [s' []]; [|reflexivity]. rewrite IH. destruct (go r (i + 1) n s') as [s2 []]; [|reflexivity].
  f_equal. lia.
Qed.
Lemma go_shift {S} (r r' : nat -> S -> S * bool) j n : forall i s, (forall k s, i <= k < i + n -> r (j + k) s = r' k s) -> go r (j + i) n s = go r' i n s.
Proof.
  induction n as [|n IH]; intros i s H; cbn [go]; [reflexivity|]. rewrite H by lia. destruct (r' i s) as [s' []]; [|reflexivity].
  replace (j + i + 1) with (j + (i + 1)) by lia. apply IH. intros k x Hk. apply H. lia.
Qed.
Lemma initial_medial_final_ok {W} size_of (iop mop fop : W -> list iter -> W * option unit) random n w (first : iter) :
  (snd first + N.of_nat n <= size_of (fst first))%N -> (Z.of_nat n < 2 ^ 63)%Z ->
  initial_medial_final size_of iop mop fop random w first (shift n first) =
  outcome_of (fun w => w) (fun w => (w, tt)) (go (initial_or_final iop mop fop first n) 0 n w).
Proof.
  intros Hf Hn. unfold initial_medial_final. destruct n as [|n].
  { rewrite eq_shift. reflexivity. }
  rewrite eq_shift. cbn [Nat.eqb]. rewrite (deref_ok size_of first n Hf). cbn [go]. unfold initial_or_final at 1. cbn [Nat.eqb].
  rewrite shift_0. destruct (iop w [first]) as [w1 [b|]]; cbn [called next_if fst snd returns]; [|reflexivity].
  rewrite (next_ok size_of first n Hf). unfold for_each_butlast.
  replace (shift (S n) first) with (shift n (shift 1 first)) by (rewrite shift_shift; reflexivity).
  assert (H1 : (snd (shift 1 first) + N.of_nat n <= size_of (fst (shift 1 first)))%N) by (unfold shift; cbn [fst snd]; lia).
  rewrite (butlastn_ok size_of mop random n 1 w1 (shift 1 first) []); [|exact H1|lia|lia|constructor].
  change (Z.to_nat 1) with 1. cbn [Nat.add map]. unfold each_result.
  destruct n as [|n].
  { cbn [Nat.sub go outcome_of fst snd next_if]. rewrite !shift_0, (proj2 (iter_eq_ok _ _) eq_refl). reflexivity. }
  replace (S n - 1) with n by lia. replace (go (initial_or_final iop mop fop first (S (S n))) 1 (S n) w1) with (go (initial_or_final iop mop fop first (S (S n))) (1 + 0) (n + 1) w1) by (rewrite Nat.add_1_r; reflexivity). rewrite go_app.
  rewrite (go_shift (initial_or_final iop mop fop first (S (S n))) (each mop [shift 1 first]) 1 n 0).
  2:{ intros k x Hk. unfold initial_or_final, each. assert ((1 + k =? S (S n) - 1) = false) as -> by (apply Nat.eqb_neq; lia).
      cbn [Nat.add Nat.eqb]. unfold args. cbn [map]. rewrite shift_shift. reflexivity. }
  match goal with |- next_if (outcome_of _ _ ?g) _ = _ => change g with (go (each mop [shift 1 first]) 0 n w1) end.
  destruct (go (each mop [shift 1 first]) 0 n w1) as [w2 []]; cbn [outcome_of fst snd next_if]; [|reflexivity].
  rewrite !shift_shift. replace (1 + S n) with (1 + n + 1) by lia. rewrite eq_shift_at. cbn [Nat.eqb].
  rewrite (deref_ok size_of _ 0) by (unfold shift; cbn [fst snd]; lia). cbn [Nat.add go]. unfold initial_or_final. cbn [Nat.eqb Nat.sub].
  rewrite Nat.eqb_refl. destruct (fop w2 [shift (S n) first]) as [w3 [[]|]]; reflexivity.
Qed.

Section Numeric.
Context {W B T : Type}.
Variable size_of : N -> N.
Variable top : W -> list iter -> W * option B.
Variable rop : W -> T -> B -> W * option T.
Lemma reduce_body_ok i n w t first firsts : available size_of (i + S n) (first :: firsts) ->
  reduce_body size_of top rop w t (shift i first) (map (shift i) firsts) =
  let x := each_reduced top rop (first :: firsts) i (w, t) in
  Some (fst (fst x), if snd x then Returned (snd (fst x), shift (i + 1) first, map (shift (i + 1)) firsts) else Threw).
Proof.
  intros H. pose proof (avail_at size_of i (S n) _ H) as Ha. cbn [map] in Ha. unfold reduce_body.
  rewrite (all_deref_ok size_of n _ Ha). unfold each_reduced. change (args (first :: firsts) i) with (shift i first :: map (shift i) firsts). cbn [fst snd].
  destruct (top w _) as [w1 [b|]]; cbn [called next_if fst snd]; [|reflexivity].
  destruct (rop w1 t b) as [w2 [t'|]]; cbn [called next_if fst snd]; [|reflexivity].
  apply Forall_cons_iff in Ha as (H1 & H2). rewrite (next_ok size_of _ n H1), (all_next_ok size_of n _ H2).
  now rewrite shift_1, map_shift_1.
Qed.
Definition reduced_result (x : W * T * bool) : option (W * ended T) := outcome_of fst (fun s => s) x.
Lemma reduce_loop_ok n : forall i k w t first firsts, n <= k -> available size_of (i + n) (first :: firsts) ->
  reduce_loop size_of top rop k w t (shift i first) (shift (i + n) first) (map (shift i) firsts) =
  reduced_result (go (each_reduced top rop (first :: firsts)) i n (w, t)).
Proof.
  induction n as [|n IH]; intros i k w t first firsts Hk Ha.
  - destruct k; cbn [reduce_loop]; rewrite eq_shift_at; reflexivity.
  - destruct k as [|k]; [lia|]. cbn [reduce_loop go]. rewrite eq_shift_at. cbn [Nat.eqb]. rewrite (reduce_body_ok i n) by exact Ha. cbv zeta.
    destruct (each_reduced top rop (first :: firsts) i (w, t)) as [[w' t'] []]; cbn [fst snd next_if]; [|reflexivity].
    replace (i + S n) with (i + 1 + n) in * by lia. apply IH; [lia|exact Ha].
Qed.
Lemma reduce_n_loop_ok n : forall i k w t first firsts, n <= k -> available size_of (i + n) (first :: firsts) ->
  reduce_n_loop size_of top rop k w t (shift i first) (Z.of_nat n) (map (shift i) firsts) =
  reduced_result (go (each_reduced top rop (first :: firsts)) i n (w, t)).
Proof.
  induction n as [|n IH]; intros i k w t first firsts Hk Ha.
  - destruct k; reflexivity.
  - destruct k as [|k]; [lia|]. cbn [reduce_n_loop go]. destruct (Z.of_nat (S n) =? 0)%Z eqn:E; [lia|]. rewrite (reduce_body_ok i n) by exact Ha. cbv zeta.
    destruct (each_reduced top rop (first :: firsts) i (w, t)) as [[w' t'] []]; cbn [fst snd next_if]; [|reflexivity].
    replace (Z.of_nat (S n) - 1)%Z with (Z.of_nat n) by lia.
    replace (i + S n) with (i + 1 + n) in * by lia. apply IH; [lia|exact Ha].
Qed.
Lemma transform_reduce_ok n w t first firsts : available size_of n (first :: firsts) ->
  transform_reduce size_of top rop w first (shift n first) t firsts = reduced_result (go (each_reduced top rop (first :: firsts)) 0 n (w, t)).
Proof.
  intros H. pose proof (reduce_loop_ok n 0 (fuel size_of first) w t first firsts (fuel_enough _ _ _ _ H) H) as E.
  cbn [Nat.add] in E. rewrite shift_0, map_shift_0 in E. exact E.
Qed.
Lemma transform_reduce_n_ok n w t first firsts : available size_of n (first :: firsts) ->
  transform_reduce_n size_of top rop w first (Z.of_nat n) t firsts = reduced_result (go (each_reduced top rop (first :: firsts)) 0 n (w, t)).
Proof.
  intros H. pose proof (reduce_n_loop_ok n 0 (fuel size_of first) w t first firsts (fuel_enough _ _ _ _ H) H) as E.
  cbn [Nat.add] in E. rewrite shift_0, map_shift_0 in E. exact E.
Qed.
End Numeric.

(** ** Pack expansions *)
Lemma go_cons {S X} (r : (nat -> X) -> nat -> S -> S * bool) (l : nat -> X) n s :
  (forall l j s, r l (1 + j) s = r (fun i => l (1 + i)) j s) ->
  go (r l) 0 (1 + n) s = let (s', b) := r l 0 s in if b then go (r (fun i => l (1 + i))) 0 n s' else (s', false).
Proof.
  intros H. cbn [Nat.add go]. destruct (r l 0 s) as [s' []]; [|reflexivity].
  apply (go_shift (r l) (r (fun i => l (1 + i))) 1 n 0). intros k x _. apply H.
Qed.
Section Packs.
Context {W X R : Type}.
Variable f : W -> X -> W * option R.
Variable d : X.
Lemma comma_fold_ok xs : forall w,
  Some (comma_fold f w xs) = outcome_of (fun w => w) (fun w => (w, tt)) (go (on_row f (fun i => nth i xs d)) 0 (length xs) w).
Proof.
  induction xs as [|x xs IH]; intros w; [reflexivity|]. cbn [length]. change (S (length xs)) with (1 + length xs).
  rewrite (go_cons (on_row f)) by reflexivity. cbn [comma_fold nth Nat.add]. unfold on_row at 1. cbn [nth].
  destruct (f w x) as [w1 [b|]]; cbn [returns]; [apply IH|reflexivity].
Qed.
Variable drop : W -> R -> W.
Lemma braces_ok xs : forall w built,
  Some (braces f drop w built xs) = outcome_of (destroyed drop) kept (go (keeping f (fun i => nth i xs d)) 0 (length xs) (w, built)).
Proof.
  induction xs as [|x xs IH]; intros w built; [reflexivity|]. cbn [length]. change (S (length xs)) with (1 + length xs).
  rewrite (go_cons (keeping f)) by reflexivity. cbn [braces nth Nat.add]. unfold keeping at 1. cbn [nth fst snd].
  destruct (f w x) as [w1 [b|]]; [apply IH|reflexivity].
Qed.
End Packs.
Lemma fold_left_mapped {A B C} (f : A -> B -> A) (g : C -> B) l : forall a, fold_left f (map g l) a = fold_left (fun a c => f a (g c)) l a.
Proof. induction l as [|x l IH]; intros a; [reflexivity|]. cbn [map fold_left]. apply IH. Qed.
Lemma until_fold_ok {W X} (f : W -> X -> W * option bool) (d : X) b xs : forall w,
  searches f (fun i => nth i xs d) b (length xs) w (Some (until_fold b f w xs)).
Proof.
  induction xs as [|x xs IH]; intros w k Hk H; cbn zeta in *.
  - cbn [length] in *. split; [|split]; [|lia|lia]. reflexivity.
  - assert (E : forall i, after (on_row f (fun i => nth i (x :: xs) d)) (1 + i) w = after (on_row f (fun i => nth i xs d)) i (fst (f w x))).
    { intros i. unfold after. cbn [Nat.add seq fold_left]. rewrite <- seq_shift, fold_left_mapped.
      replace (fst (on_row f (fun i0 => nth i0 (x :: xs) d) 0 w)) with (fst (f w x)); [reflexivity|].
      unfold on_row. cbn [nth]. destruct (f w x); reflexivity. }
    cbn [until_fold length]. change (S (length xs)) with (1 + length xs).
    destruct k as [|k].
    + split; [intros; lia|]. rewrite !E. cbn [after seq fold_left nth Nat.add]. cbn.
      destruct (f w x) as [w1 [c|]]; cbn; (split; intros _ HH); try discriminate HH; [|reflexivity].
      injection HH as ->. now rewrite Bool.eqb_reflx.
    + pose proof (H 0 ltac:(lia)) as H0. cbn in H0.
      specialize (IH (fst (f w x)) k ltac:(cbn [length] in *; lia)). cbn zeta in IH.
      destruct (f w x) as [w1 c]. cbn [fst snd] in *. subst c. rewrite (proj2 (Bool.eqb_false_iff _ _) (Bool.no_fixpoint_negb b)).
      assert (H' : forall i, i < k -> snd (f (after (on_row f (fun i => nth i xs d)) i w1) (nth i xs d)) = Some (negb b)).
      { intros i Hi. specialize (H (1 + i) ltac:(lia)). rewrite E in H. exact H. }
      destruct (IH H') as (A1 & A2 & A3). change (S k) with (1 + k). rewrite !E. cbn [Nat.add nth length].
      split; [|split]; intros; [apply A1; lia|apply A2; [lia|assumption]|apply A3; [lia|assumption]].
Qed.

(** ** Tuples *)
From Verif Require TupleProofs ArgsProofs.
Lemma shortest_len {E} (ts : list (list E)) n : shortest ts n -> TupleModel.zip_length ts = n.
Proof.
  intros (H1 & H2). assert (ts <> []) as Hne by (intros ->; inversion H2).
  destruct (TupleProofs.zip_length_ok ts Hne) as (A1 & A2).
  apply Exists_exists in H2 as (t & Ht & <-). apply Exists_exists in A2 as (u & Hu & Eu).
  rewrite Forall_forall in H1, A1. specialize (H1 _ Hu). specialize (A1 _ Ht). cbn beta in *. lia.
Qed.
Lemma args_row {E} (ts : list (list E)) i : Forall (fun t => i < length t) ts -> TupleModel.args_at ts i = Some (row ts i).
Proof.
  intros H. unfold TupleModel.args_at, TupleModel.get. induction H as [|t ts Ht _ IH]; [reflexivity|]. cbn [TupleModel.mapo row flat_map].
  destruct (nth_error t i) eqn:En; [|apply nth_error_None in En; lia]. rewrite IH. reflexivity.
Qed.
Lemma pack_map {Y} n (f : nat -> option Y) g : (forall i, i < n -> f i = Some (g i)) -> TupleModel.pack n f = Some (map g (seq 0 n)).
Proof.
  intros H. apply TupleProofs.pack_ok; [now rewrite map_length, seq_length|]. intros i Hi. rewrite H by exact Hi.
  rewrite nth_error_map. rewrite (nth_error_nth' _ 0) by (rewrite seq_length; exact Hi). rewrite seq_nth by exact Hi. reflexivity.
Qed.
Lemma pack_rows {E} (ts : list (list E)) n : shortest ts n -> TupleModel.pack (TupleModel.zip_length ts) (TupleModel.args_at ts) = Some (map (row ts) (seq 0 n)).
Proof.
  intros H. rewrite (shortest_len _ _ H). apply pack_map. intros i Hi. apply args_row. destruct H as (H & _).
  eapply Forall_impl; [|exact H]. cbn. intros; lia.
Qed.
Lemma nth_mapped {Y} (g : nat -> Y) n i d : i < n -> nth i (map g (seq 0 n)) d = g i.
Proof.
  intros H. rewrite (nth_indep _ d (g 0)) by (rewrite map_length, seq_length; exact H).
  rewrite map_nth, seq_nth by exact H. reflexivity.
Qed.
Section Packed.
Context {W X R : Type}.
Variable f : W -> X -> W * option R.
Lemma comma_stops (g : nat -> X) n w : stops (on_row f g) n w (fun w => w) (fun w => (w, tt)) (Some (comma_fold f w (map g (seq 0 n)))).
Proof.
  apply go_stops. rewrite (comma_fold_ok f (g 0)). rewrite map_length, seq_length. f_equal. apply go_ext. intros j x Hj.
  unfold on_row. now rewrite nth_mapped by lia.
Qed.
Lemma braces_stops (drop : W -> R -> W) (g : nat -> X) n w : stops (keeping f g) n (w, []) (destroyed drop) kept (Some (braces f drop w [] (map g (seq 0 n)))).
Proof.
  apply go_stops. rewrite (braces_ok f (g 0)). rewrite map_length, seq_length. f_equal. apply go_ext. intros j x Hj.
  unfold keeping. now rewrite nth_mapped by lia.
Qed.
End Packed.
Lemma after_ext {S} (r r' : nat -> S -> S * bool) n s : (forall j s, j < n -> r j s = r' j s) -> after r n s = after r' n s.
Proof.
  intros H. induction n as [|n IH]; [reflexivity|]. rewrite !after_S, IH by (intros; apply H; lia). now rewrite H by lia.
Qed.
Lemma until_searches {W X} (f : W -> X -> W * option bool) b (g : nat -> X) n w : searches f g b n w (Some (until_fold b f w (map g (seq 0 n)))).
Proof.
  pose proof (until_fold_ok f (g 0) b (map g (seq 0 n)) w) as H. rewrite map_length, seq_length in H.
  assert (E : forall k, k <= n -> after (on_row f (fun i => nth i (map g (seq 0 n)) (g 0))) k w = after (on_row f g) k w).
  { intros k Hk. apply after_ext. intros j s Hj. unfold on_row. now rewrite nth_mapped by lia. }
  intros k Hk Hb. cbn zeta in *. destruct (H k Hk) as (A1 & A2 & A3).
  - intros i Hi. rewrite E by lia. rewrite nth_mapped by lia. apply Hb. exact Hi.
  - split; [|split].
    + intros ->. rewrite A1 by reflexivity. now rewrite E.
    + intros Hn Hf. rewrite A2; [now rewrite E by lia|exact Hn|]. rewrite E, nth_mapped by lia. exact Hf.
    + intros Hn Hf. rewrite A3; [now rewrite E by lia|exact Hn|]. rewrite E, nth_mapped by lia. exact Hf.
Qed.
Section Folds.
Context {W V : Type}.
Variable op : W -> V -> V -> W * option V.
Lemma fold_l_ok d l : forall w v,
  Some (fold_l op w v l) = outcome_of fst (fun s => s) (go (combining op (fun i => nth i l d)) 0 (length l) (w, v)).
Proof.
  induction l as [|x l IH]; intros w v; [reflexivity|]. cbn [length]. change (S (length l)) with (1 + length l).
  rewrite (go_cons (combining op)) by reflexivity. cbn [fold_l nth Nat.add]. unfold combining at 1. cbn [nth fst snd].
  destruct (op w v x) as [w1 [b|]]; [apply IH|reflexivity].
Qed.
Lemma fold_r_app l : forall w init x,
  fold_r op w (l ++ [x]) init = match op w x init with (w', Some v) => fold_r op w' l v | (w', None) => (w', Threw) end.
Proof.
  induction l as [|y l IH]; intros w init x; cbn [app fold_r].
  - destruct (op w x init) as [w' [v|]]; reflexivity.
  - rewrite IH. destruct (op w x init) as [w' [v|]]; reflexivity.
Qed.
End Folds.
Lemma fold_r_l {W V} (op : W -> V -> V -> W * option V) l : forall w init, fold_r op w l init = fold_l (fun w a x => op w x a) w init (rev l).
Proof.
  induction l as [|x l IH] using rev_ind; intros w init; [reflexivity|]. rewrite fold_r_app, rev_app_distr. cbn [rev app fold_l].
  destruct (op w x init) as [w' [v|]]; [apply IH|reflexivity].
Qed.
Lemma exec_batch {E} c (args : list E) i : (1 + i) * c <= length args -> ArgsModel.exec c args (i * c) = Some (batch c args i).
Proof. intros H. apply (ArgsProofs.exec_ok (W := unit) (R := unit) (fun w _ => (w, tt))). lia. Qed.
Lemma for_each_n_args_ok {W E R} (op : W -> list E -> W * option R) n arity w args c m :
  c = (if n =? 0 then arity else n) -> c > 0 -> length args = m * c ->
  for_each_n_args op n arity w args = Some (comma_fold op w (map (batch c args) (seq 0 m))).
Proof.
  intros -> Hc Hl. unfold for_each_n_args. set (c := if n =? 0 then arity else n) in *.
  destruct (c =? 0) eqn:Ec; [apply Nat.eqb_eq in Ec; lia|]. rewrite Hl, Nat.mod_mul, Nat.div_mul by lia. cbn [Nat.eqb].
  rewrite (pack_map m _ (batch c args)); [reflexivity|]. intros i Hi. apply exec_batch. rewrite Hl. apply Nat.mul_le_mono_r. lia.
Qed.
Lemma enumerate_ok {W E R} (op : W -> nat -> list E -> W * option R) w ts n : shortest ts n ->
  tuple_enumerate op w ts = Some (comma_fold (fun w ir => op w (fst ir) (snd ir)) w (map (fun i => (i, row ts i)) (seq 0 n))).
Proof.
  intros H. unfold tuple_enumerate. rewrite (shortest_len _ _ H). rewrite (pack_map n _ (fun i => (i, row ts i))); [reflexivity|].
  intros i Hi. rewrite args_row; [reflexivity|]. destruct H as (H & _). eapply Forall_impl; [|exact H]. cbn. intros; lia.
Qed.
