(** Proofs about the iterator algorithms. *)
From Verif Require Import Base BaseLemmas AlgorithmModel AlgorithmSpec.

Lemma iter_eq_ok x y : iter_eq x y = true <-> x = y.
Proof. destruct x, y. unfold iter_eq. cbn [fst snd]. rewrite andb_true_iff, !N.eqb_eq. split; [intros (-> & ->); reflexivity|intros H; inversion H; auto]. Qed.
Lemma iter_neq x y : x <> y -> iter_eq x y = false.
Proof. intros H. destruct (iter_eq x y) eqn:E; [apply iter_eq_ok in E; contradiction|reflexivity]. Qed.
Lemma shift_0 it : shift 0 it = it.
Proof. destruct it. unfold shift. cbn [fst snd]. rewrite N.add_0_r. reflexivity. Qed.
Lemma shift_shift a b it : shift a (shift b it) = shift (b + a) it.
Proof. unfold shift. cbn [fst snd]. f_equal. lia. Qed.
Lemma args_0 its : args its 0 = its.
Proof. unfold args. rewrite <- (map_id its) at 2. apply map_ext. exact shift_0. Qed.
Lemma args_shift its a b : args (map (shift a) its) b = args its (a + b).
Proof. unfold args. rewrite map_map. apply map_ext. intros it. apply shift_shift. Qed.

Section Common.
Variable size_of : N -> N.
Lemma deref_ok it n : (snd it + N.of_nat (S n) <= size_of (fst it))%N -> deref size_of it = Some it.
Proof. intros H. unfold deref. destruct (N.ltb_spec (snd it) (size_of (fst it))); [reflexivity|lia]. Qed.
Lemma next_ok it n : (snd it + N.of_nat (S n) <= size_of (fst it))%N -> next size_of it = Some (shift 1 it).
Proof. intros H. unfold next. destruct (N.ltb_spec (snd it) (size_of (fst it))); [reflexivity|lia]. Qed.
Lemma all_deref_ok n its : available size_of (S n) its -> all (deref size_of) its = Some its.
Proof.
  induction its as [|it its IH]; intros H; cbn [all]; [reflexivity|]. apply Forall_cons_iff in H as (H1 & H2).
  rewrite (deref_ok it n H1), (IH H2). reflexivity.
Qed.
Lemma all_next_ok n its : available size_of (S n) its -> all (next size_of) its = Some (map (shift 1) its).
Proof.
  induction its as [|it its IH]; intros H; cbn [all map]; [reflexivity|]. apply Forall_cons_iff in H as (H1 & H2).
  rewrite (next_ok it n H1), (IH H2). reflexivity.
Qed.
Lemma available_shift n its : available size_of (S n) its -> available size_of n (map (shift 1) its).
Proof.
  intros H. apply Forall_map. unfold available in H. eapply Forall_impl; [|exact H]. intros it Hit. cbn beta in *. unfold shift. cbn [fst snd]. lia.
Qed.
Lemma available_le n m its : (m <= n)%nat -> available size_of n its -> available size_of m its.
Proof. intros Hm H. eapply Forall_impl; [|exact H]. intros it Hit. cbn beta in *. lia. Qed.
(** An iterator [n] elements before the end of its container is not further away in fuel. *)
Lemma avail_fuel it n : (snd it + N.of_nat n <= size_of (fst it))%N -> (n < fuel size_of it)%nat.
Proof. intros H. unfold fuel. lia. Qed.
End Common.

Lemma fold_left_map' {A B C} (f : A -> B -> A) (g : C -> B) l : forall a, fold_left f (map g l) a = fold_left (fun x c => f x (g c)) l a.
Proof. induction l as [|x l IH]; intros a; cbn; [reflexivity|apply IH]. Qed.
Lemma fold_left_ext' {A B} (f g : A -> B -> A) l : (forall a b, f a b = g a b) -> forall a, fold_left f l a = fold_left g l a.
Proof. intros H. induction l as [|x l IH]; intros a; cbn; [reflexivity|rewrite H; apply IH]. Qed.
Lemma map_shift_0 its : map (shift 0) its = its.
Proof. exact (args_0 its). Qed.
Lemma map_shift_S n its : map (shift n) (map (shift 1) its) = map (shift (S n)) its.
Proof. rewrite map_map. apply map_ext. intros it. apply shift_shift. Qed.
Lemma eq_shift n it : iter_eq it (shift n it) = (n =? 0)%nat.
Proof.
  destruct n; [rewrite shift_0; apply iter_eq_ok; reflexivity|]. apply iter_neq. destruct it. unfold shift. cbn [fst snd]. intros H. inversion H. lia.
Qed.
Lemma shift_S n it : shift n (shift 1 it) = shift (S n) it.
Proof. apply shift_shift. Qed.

Lemma nonpos_nat n : (n <= 0)%Z -> Z.to_nat n = O.
Proof. lia. Qed.

Section Algo.
Context {W B : Type}.
Variable size_of : N -> N.
Variable op : W -> list iter -> W * B.
Variable store : W -> iter -> B -> W.

Lemma calls_S its n w : calls op its (S n) w = calls op (map (shift 1) its) n (fst (op w its)).
Proof.
  unfold calls. cbn [seq fold_left]. rewrite args_0. rewrite <- seq_shift, fold_left_map'.
  apply fold_left_ext'. intros a b. rewrite args_shift. reflexivity.
Qed.
Lemma stores_S its d n w : stores op store its d (S n) w = stores op store (map (shift 1) its) (shift 1 d) n (store (fst (op w its)) d (snd (op w its))).
Proof.
  unfold stores. cbn [seq fold_left]. rewrite args_0, shift_0. rewrite <- seq_shift, fold_left_map'.
  apply fold_left_ext'. intros a b. rewrite args_shift, shift_S. reflexivity.
Qed.

Lemma transform_body_ok n w d first firsts : available size_of (S n) (d :: first :: firsts) ->
  transform_body size_of op store w d first firsts
  = Some (store (fst (op w (first :: firsts))) d (snd (op w (first :: firsts))), shift 1 d, shift 1 first, map (shift 1) firsts).
Proof.
  intros H. apply Forall_cons_iff in H as (Hd & H). unfold transform_body. rewrite (all_deref_ok size_of n _ H). destruct (op w (first :: firsts)) as (w1 & b).
  apply Forall_cons_iff in H as (Hf & H). rewrite (deref_ok size_of d n Hd), (next_ok size_of first n Hf), (all_next_ok size_of n _ H), (next_ok size_of d n Hd). reflexivity.
Qed.
Lemma transform_loop_ok n : forall k w d first firsts, (n <= k)%nat -> available size_of n (d :: first :: firsts) ->
  transform_loop size_of op store k w d first (shift n first) firsts
  = Some (stores op store (first :: firsts) d n w, shift n d, shift n first, map (shift n) firsts).
Proof.
  induction n as [|n IH]; intros k w d first firsts Hk Ha.
  - destruct k; cbn [transform_loop]; rewrite !shift_0, map_shift_0; rewrite (proj2 (iter_eq_ok first first) eq_refl); reflexivity.
  - destruct k as [|k]; [lia|]. cbn [transform_loop]. rewrite eq_shift. cbn [Nat.eqb]. rewrite (transform_body_ok n) by exact Ha.
    apply available_shift in Ha. rewrite <- (shift_S n first). rewrite IH by (try exact Ha; lia). rewrite stores_S, map_shift_S, !shift_S. reflexivity.
Qed.
Lemma transform_n_loop_ok n : forall k w d first firsts, (n <= k)%nat -> available size_of n (d :: first :: firsts) ->
  transform_n_loop size_of op store k w d first (Z.of_nat n) firsts
  = Some (stores op store (first :: firsts) d n w, shift n d, shift n first, map (shift n) firsts).
Proof.
  induction n as [|n IH]; intros k w d first firsts Hk Ha.
  - destruct k; cbn [transform_n_loop]; rewrite !shift_0, map_shift_0; reflexivity.
  - destruct k as [|k]; [lia|]. cbn [transform_n_loop]. destruct (Z.of_nat (S n) >? 0)%Z eqn:E; [|lia]. rewrite (transform_body_ok n) by exact Ha.
    apply available_shift in Ha. replace (Z.of_nat (S n) - 1)%Z with (Z.of_nat n) by lia. rewrite IH by (try exact Ha; lia). rewrite stores_S, map_shift_S, !shift_S. reflexivity.
Qed.
Theorem transform_ok n w d first firsts : available size_of n (d :: first :: firsts) ->
  transform size_of op store w first (shift n first) d firsts
  = Some (stores op store (first :: firsts) d n w, shift n d, shift n first, map (shift n) firsts).
Proof.
  intros H. apply transform_loop_ok; [|exact H]. apply Forall_cons_iff in H as (_ & H). apply Forall_cons_iff in H as (H & _).
  pose proof (avail_fuel size_of first n H). lia.
Qed.
Theorem transform_n_ok n w d first firsts : available size_of (Z.to_nat n) (d :: first :: firsts) ->
  transform_n size_of op store w first n d firsts
  = Some (stores op store (first :: firsts) d (Z.to_nat n) w, shift (Z.to_nat n) d, shift (Z.to_nat n) first, map (shift (Z.to_nat n)) firsts).
Proof.
  intros H. unfold transform_n. destruct (Z.le_gt_cases n 0) as [Hn|Hn].
  - rewrite (nonpos_nat n Hn). rewrite !shift_0, map_shift_0. cbn [stores seq fold_left]. unfold fuel. cbn [transform_n_loop].
    destruct (n >? 0)%Z eqn:E; [lia|reflexivity].
  - rewrite <- (Z2Nat.id n) at 1 by lia. apply transform_n_loop_ok; [|exact H]. apply Forall_cons_iff in H as (_ & H). apply Forall_cons_iff in H as (H & _).
    pose proof (avail_fuel size_of first _ H). lia.
Qed.

End Algo.
Section Each.
Context {W B : Type}.
Variable size_of : N -> N.
Variable op : W -> list iter -> W * B.
Lemma each_body_ok n w first firsts : available size_of (S n) (first :: firsts) ->
  each_body size_of op w first firsts = Some (fst (op w (first :: firsts)), shift 1 first, map (shift 1) firsts).
Proof.
  intros H. unfold each_body. rewrite (all_deref_ok size_of n _ H). apply Forall_cons_iff in H as (Hf & H).
  rewrite (next_ok size_of first n Hf), (all_next_ok size_of n _ H). reflexivity.
Qed.
Lemma for_each_loop_ok n : forall k w first firsts, (n <= k)%nat -> available size_of n (first :: firsts) ->
  for_each_loop size_of op k w first (shift n first) firsts = Some (calls op (first :: firsts) n w, shift n first, map (shift n) firsts).
Proof.
  induction n as [|n IH]; intros k w first firsts Hk Ha.
  - destruct k; cbn [for_each_loop]; rewrite !shift_0, map_shift_0; rewrite (proj2 (iter_eq_ok first first) eq_refl); reflexivity.
  - destruct k as [|k]; [lia|]. cbn [for_each_loop]. rewrite eq_shift. cbn [Nat.eqb]. rewrite (each_body_ok n) by exact Ha.
    apply available_shift in Ha. rewrite <- (shift_S n first). rewrite IH by (try exact Ha; lia). rewrite calls_S, map_shift_S. reflexivity.
Qed.
Lemma for_each_n_loop_ok n : forall k w first firsts, (n <= k)%nat -> available size_of n (first :: firsts) ->
  for_each_n_loop size_of op k w first (Z.of_nat n) firsts = Some (calls op (first :: firsts) n w, shift n first, map (shift n) firsts).
Proof.
  induction n as [|n IH]; intros k w first firsts Hk Ha.
  - destruct k; cbn [for_each_n_loop]; rewrite !shift_0, map_shift_0; reflexivity.
  - destruct k as [|k]; [lia|]. cbn [for_each_n_loop]. destruct (Z.of_nat (S n) >? 0)%Z eqn:E; [|lia]. rewrite (each_body_ok n) by exact Ha.
    apply available_shift in Ha. replace (Z.of_nat (S n) - 1)%Z with (Z.of_nat n) by lia. rewrite IH by (try exact Ha; lia). rewrite calls_S, map_shift_S, !shift_S. reflexivity.
Qed.
Theorem for_each_ok n w first firsts : available size_of n (first :: firsts) ->
  for_each size_of op w first (shift n first) firsts = Some (calls op (first :: firsts) n w, map (shift n) firsts).
Proof.
  intros H. unfold for_each. rewrite for_each_loop_ok; [reflexivity| |exact H]. apply Forall_cons_iff in H as (H & _).
  pose proof (avail_fuel size_of first n H). lia.
Qed.
Theorem for_each_n_ok n w first firsts : available size_of (Z.to_nat n) (first :: firsts) ->
  for_each_n size_of op w first n firsts = Some (calls op (first :: firsts) (Z.to_nat n) w, shift (Z.to_nat n) first, map (shift (Z.to_nat n)) firsts).
Proof.
  intros H. unfold for_each_n. destruct (Z.le_gt_cases n 0) as [Hn|Hn].
  - rewrite (nonpos_nat n Hn). rewrite !shift_0, map_shift_0. unfold fuel. cbn [for_each_n_loop]. destruct (n >? 0)%Z eqn:E; [lia|reflexivity].
  - rewrite <- (Z2Nat.id n) at 1 by lia. apply for_each_n_loop_ok; [|exact H]. apply Forall_cons_iff in H as (H & _).
    pose proof (avail_fuel size_of first _ H). lia.
Qed.

(** ** All but the last n *)
Lemma advance_upto_ok n : forall k first m, (n <= k)%nat -> (snd first + N.of_nat n <= size_of (fst first))%N ->
  advance_upto size_of k first (shift n first) m = Some (shift (Nat.min n (Z.to_nat m)) first).
Proof.
  induction n as [|n IH]; intros k first m Hk Ha.
  - rewrite Nat.min_0_l, !shift_0. destruct k; cbn [advance_upto]; destruct (0 <? m)%Z; try reflexivity; rewrite (proj2 (iter_eq_ok first first) eq_refl); reflexivity.
  - destruct k as [|k]; [lia|]. cbn [advance_upto]. destruct (0 <? m)%Z eqn:E.
    + rewrite eq_shift. cbn [Nat.eqb]. rewrite (next_ok size_of first n Ha). rewrite <- (shift_S n first). rewrite IH; [|lia|unfold shift; cbn [fst snd]; lia].
      f_equal. rewrite shift_S. f_equal. lia.
    + rewrite nonpos_nat by lia. rewrite Nat.min_0_r, shift_0. reflexivity.
Qed.
Lemma lag_loop_ok n : forall k w adv first last firsts, (n <= k)%nat -> last = shift n adv -> (snd adv + N.of_nat n <= size_of (fst adv))%N -> available size_of n (first :: firsts) ->
  lag_loop size_of op k w adv first last firsts = Some (calls op (first :: firsts) n w, shift n first, map (shift n) firsts).
Proof.
  induction n as [|n IH]; intros k w adv first last firsts Hk -> Hadv Ha.
  - destruct k; cbn [lag_loop]; rewrite !shift_0, map_shift_0; rewrite (proj2 (iter_eq_ok adv adv) eq_refl); reflexivity.
  - destruct k as [|k]; [lia|]. cbn [lag_loop]. rewrite eq_shift. cbn [Nat.eqb]. rewrite (each_body_ok n) by exact Ha. rewrite (next_ok size_of adv n Hadv).
    apply available_shift in Ha. rewrite (IH k _ (shift 1 adv) (shift 1 first) (shift (S n) adv)); [|lia|symmetry; apply shift_S|unfold shift; cbn [fst snd]; lia|exact Ha].
    rewrite calls_S, map_shift_S, shift_S. reflexivity.
Qed.
Theorem butlastn_forward_ok n m w first firsts : (snd first + N.of_nat n <= size_of (fst first))%N -> available size_of (n - Z.to_nat m) (first :: firsts) ->
  butlastn_forward size_of op w first (shift n first) m firsts
  = Some (calls op (first :: firsts) (n - Z.to_nat m) w, shift (n - Z.to_nat m) first, map (shift (n - Z.to_nat m)) firsts).
Proof.
  intros Hn Ha. pose proof (avail_fuel size_of first n Hn) as Hf. unfold butlastn_forward. rewrite advance_upto_ok by (try exact Hn; lia).
  apply lag_loop_ok; [lia| | |exact Ha].
  - rewrite shift_shift. f_equal. lia.
  - unfold shift. cbn [fst snd]. lia.
Qed.
Lemma to_ptrdiff_small m : (- 2 ^ 63 <= m < 2 ^ 63)%Z -> to_ptrdiff m = m.
Proof. intros H. unfold to_ptrdiff. rewrite Z.mod_small by lia. lia. Qed.
Theorem butlastn_random_ok n m w first firsts : (Z.of_nat n < 2 ^ 63)%Z -> (0 <= m < 2 ^ 63)%Z ->
  available size_of (n - Z.to_nat m) (first :: firsts) ->
  butlastn_random size_of op w first (shift n first) m firsts
  = Some (calls op (first :: firsts) (n - Z.to_nat m) w, shift (n - Z.to_nat m) first, map (shift (n - Z.to_nat m)) firsts).
Proof.
  intros Hn Hm Ha. unfold butlastn_random. rewrite to_ptrdiff_small by lia. unfold shift at 1. cbn [fst snd].
  replace (Z.of_N (snd first + N.of_nat n) - Z.of_N (snd first))%Z with (Z.of_nat n) by lia.
  unfold ptrdiff at 1. destruct ((- 2 ^ 63 <=? Z.of_nat n) && (Z.of_nat n <? 2 ^ 63))%Z eqn:E1; [|lia].
  unfold ptrdiff at 1. destruct ((- 2 ^ 63 <=? Z.of_nat n - m) && (Z.of_nat n - m <? 2 ^ 63))%Z eqn:E2; [|lia].
  replace (n - Z.to_nat m)%nat with (Z.to_nat (Z.of_nat n - m)) in * by lia. apply for_each_n_ok. exact Ha.
Qed.

(** A count beyond the end of the first range is undefined. *)
Lemma for_each_n_bad k : forall w first n firsts, (Z.of_N (size_of (fst first)) < Z.of_N (snd first) + n)%Z -> (0 < n)%Z -> (snd first <= size_of (fst first))%N ->
  for_each_n_loop size_of op k w first n firsts = None.
Proof.
  induction k as [|k IH]; intros w first n firsts H H0 H1; cbn [for_each_n_loop]; destruct (n >? 0)%Z eqn:E; try lia; [reflexivity|].
  unfold each_body. cbn [all]. unfold deref at 1. destruct (N.ltb_spec (snd first) (size_of (fst first))) as [Hl|Hl]; [|reflexivity].
  destruct (all (deref size_of) firsts) as [l|]; [|reflexivity]. unfold next at 1. destruct (N.ltb_spec (snd first) (size_of (fst first))); [|lia].
  destruct (all (next size_of) firsts) as [l'|]; [|reflexivity]. apply IH; cbn [fst snd]; lia.
Qed.
(** Random access with a negative count runs past the end. *)
Theorem butlastn_random_negative n m w first firsts : (snd first + N.of_nat n = size_of (fst first))%N -> (Z.of_nat n < 2 ^ 63)%Z -> (- 2 ^ 63 <= m < 0)%Z ->
  butlastn_random size_of op w first (shift n first) m firsts = None.
Proof.
  intros Hs Hn Hm. unfold butlastn_random. rewrite to_ptrdiff_small by lia. unfold shift. cbn [fst snd].
  replace (Z.of_N (snd first + N.of_nat n) - Z.of_N (snd first))%Z with (Z.of_nat n) by lia.
  unfold ptrdiff at 1. destruct ((- 2 ^ 63 <=? Z.of_nat n) && (Z.of_nat n <? 2 ^ 63))%Z eqn:E1; [|reflexivity].
  unfold ptrdiff at 1. destruct ((- 2 ^ 63 <=? Z.of_nat n - m) && (Z.of_nat n - m <? 2 ^ 63))%Z eqn:E2; [|reflexivity].
  apply for_each_n_bad; lia.
Qed.
End Each.

(** ** initial_medial_final *)
Section Imf.
Context {W : Type}.
Variable size_of : N -> N.
Variables iop mop fop : W -> list iter -> W * unit.
Lemma butlast_ok random n w first : (snd first + N.of_nat n <= size_of (fst first))%N -> (Z.of_nat n < 2 ^ 63)%Z ->
  for_each_butlast size_of mop random w first (shift n first) []
  = Some (calls mop [first] (n - 1) w, shift (n - 1) first, []).
Proof.
  intros H Hn. assert (Ha : available size_of (n - 1) [first]) by (constructor; [lia|constructor]).
  unfold for_each_butlast, for_each_butlastn. destruct random.
  - apply (butlastn_random_ok size_of mop n 1 w first []); [exact Hn|lia|exact Ha].
  - apply (butlastn_forward_ok size_of mop n 1 w first []); [exact H|exact Ha].
Qed.
Theorem imf_ok random n w first : (snd first + N.of_nat n <= size_of (fst first))%N -> (Z.of_nat n < 2 ^ 63)%Z ->
  initial_medial_final size_of iop mop fop random w first (shift n first)
  = Some match n with
         | O => w
         | S O => fst (iop w [first])
         | S (S k) => fst (fop (calls mop [shift 1 first] k (fst (iop w [first]))) [shift (S k) first])
         end.
Proof.
  intros H Hn. unfold initial_medial_final. rewrite eq_shift. destruct n as [|n]; [reflexivity|]. cbn [Nat.eqb].
  rewrite (deref_ok size_of first n H), (next_ok size_of first n H). rewrite <- (shift_S n first).
  rewrite butlast_ok; [|unfold shift; cbn [fst snd]; lia|lia]. destruct n as [|n].
  - cbn [Nat.sub]. rewrite (proj2 (iter_eq_ok _ _) eq_refl). reflexivity.
  - cbn [Nat.sub]. rewrite Nat.sub_0_r. replace (iter_eq (shift n (shift 1 first)) (shift (S n) (shift 1 first))) with false.
    2:{ symmetry. apply iter_neq. unfold shift. cbn [fst snd]. intros E. inversion E. lia. }
    rewrite shift_S. rewrite (deref_ok size_of (shift (S n) first) 0) by (unfold shift; cbn [fst snd]; lia). reflexivity.
Qed.
End Imf.

(** ** Reductions *)
Section Red.
Context {W B T : Type}.
Variable size_of : N -> N.
Variable top : W -> list iter -> W * B.
Variable rop : W -> T -> B -> W * T.
Lemma reduces_S its n w t : reduces top rop its (S n) w t =
  let s := rop (fst (top w its)) t (snd (top w its)) in reduces top rop (map (shift 1) its) n (fst s) (snd s).
Proof.
  unfold reduces. cbn [seq fold_left fst snd]. rewrite args_0. rewrite <- seq_shift, fold_left_map'.
  cbv zeta. rewrite <- surjective_pairing. apply fold_left_ext'. intros a b. rewrite args_shift. reflexivity.
Qed.
Lemma reduce_body_ok n w t first firsts : available size_of (S n) (first :: firsts) ->
  reduce_body size_of top rop w t first firsts =
  let s := rop (fst (top w (first :: firsts))) t (snd (top w (first :: firsts))) in Some (fst s, snd s, shift 1 first, map (shift 1) firsts).
Proof.
  intros H. unfold reduce_body. rewrite (all_deref_ok size_of n _ H). destruct (top w (first :: firsts)) as (w1 & b). cbn [fst snd].
  destruct (rop w1 t b) as (w2 & t2). apply Forall_cons_iff in H as (Hf & H). rewrite (next_ok size_of first n Hf), (all_next_ok size_of n _ H). reflexivity.
Qed.
Lemma reduce_loop_ok n : forall k w t first firsts, (n <= k)%nat -> available size_of n (first :: firsts) ->
  reduce_loop size_of top rop k w t first (shift n first) firsts = Some (reduces top rop (first :: firsts) n w t).
Proof.
  induction n as [|n IH]; intros k w t first firsts Hk Ha.
  - destruct k; cbn [reduce_loop]; rewrite !shift_0; rewrite (proj2 (iter_eq_ok first first) eq_refl); reflexivity.
  - destruct k as [|k]; [lia|]. cbn [reduce_loop]. rewrite eq_shift. cbn [Nat.eqb]. rewrite (reduce_body_ok n) by exact Ha. cbv zeta.
    apply available_shift in Ha. rewrite <- (shift_S n first). rewrite IH by (try exact Ha; lia). rewrite reduces_S. reflexivity.
Qed.
Lemma reduce_n_loop_ok n : forall k w t first firsts, (n <= k)%nat -> available size_of n (first :: firsts) ->
  reduce_n_loop size_of top rop k w t first (Z.of_nat n) firsts = Some (reduces top rop (first :: firsts) n w t).
Proof.
  induction n as [|n IH]; intros k w t first firsts Hk Ha.
  - destruct k; reflexivity.
  - destruct k as [|k]; [lia|]. cbn [reduce_n_loop]. destruct (Z.of_nat (S n) =? 0)%Z eqn:E; [lia|]. rewrite (reduce_body_ok n) by exact Ha. cbv zeta.
    apply available_shift in Ha. replace (Z.of_nat (S n) - 1)%Z with (Z.of_nat n) by lia. rewrite IH by (try exact Ha; lia). rewrite reduces_S. reflexivity.
Qed.
Theorem transform_reduce_ok n w t first firsts : available size_of n (first :: firsts) ->
  transform_reduce size_of top rop w first (shift n first) t firsts = Some (reduces top rop (first :: firsts) n w t).
Proof.
  intros H. apply reduce_loop_ok; [|exact H]. apply Forall_cons_iff in H as (H & _). pose proof (avail_fuel size_of first n H). lia.
Qed.
Theorem transform_reduce_n_ok n w t first firsts : available size_of n (first :: firsts) ->
  transform_reduce_n size_of top rop w first (Z.of_nat n) t firsts = Some (reduces top rop (first :: firsts) n w t).
Proof.
  intros H. apply reduce_n_loop_ok; [|exact H]. apply Forall_cons_iff in H as (H & _). pose proof (avail_fuel size_of first n H). lia.
Qed.
Theorem transform_reduce_n_negative n w t first firsts : (n < 0)%Z -> transform_reduce_n size_of top rop w first n t firsts = None.
Proof.
  unfold transform_reduce_n. generalize (fuel size_of first) as k. intros k. revert n w t first firsts.
  induction k as [|k IH]; intros n w t first firsts Hn; cbn [reduce_n_loop]; destruct (n =? 0)%Z eqn:E; try lia; [reflexivity|].
  unfold reduce_body. destruct (all (deref size_of) (first :: firsts)); [|reflexivity]. destruct (top w l) as (w1 & b). destruct (rop w1 t b) as (w2 & t2).
  destruct (next size_of first); [|reflexivity]. destruct (all (next size_of) firsts); [|reflexivity]. apply IH. lia.
Qed.
End Red.

(** ** Functions of values *)
Section Values.
Context {A B : Type}.
Definition vals (m : elements A) (l : list iter) : list A := map (fun it => m (fst it) (snd it)) l.
Lemma stores_values (f : list A -> A) its d n m : Forall (reads_first d n) its ->
  forall r i, stores (pure_op f) put its d n m r i =
    if (r =? fst d)%N && (snd d <=? i)%N && (i <? snd d + N.of_nat n)%N then f (vals m (args its (N.to_nat (i - snd d)))) else m r i.
Proof.
  intros Hf.
  assert (Gen : forall k, (k <= n)%nat -> forall r i, fold_left (fun w j => put (fst (pure_op f w (args its j))) (shift j d) (snd (pure_op f w (args its j)))) (seq 0 k) m r i =
    if (r =? fst d)%N && (snd d <=? i)%N && (i <? snd d + N.of_nat k)%N then f (vals m (args its (N.to_nat (i - snd d)))) else m r i).
  { induction k as [|k IH]; intros Hk r i.
    - cbn [seq fold_left]. destruct ((r =? fst d)%N), (N.leb_spec (snd d) i), (N.ltb_spec i (snd d + N.of_nat 0)); cbn [andb]; try reflexivity; lia.
    - rewrite seq_S, fold_left_app. cbn [fold_left Nat.add]. set (m' := fold_left _ (seq 0 k) m) in *. cbn [pure_op fst snd]. unfold put, shift at 1 2. cbn [fst snd].
      destruct (N.eqb_spec r (fst d)) as [Er|Er]; cbn [andb].
      + destruct (N.eqb_spec i (snd d + N.of_nat k)) as [Ei|Ei].
        * destruct (N.leb_spec (snd d) i); [|lia]. destruct (N.ltb_spec i (snd d + N.of_nat (S k))); [|lia]. cbn [andb]. f_equal.
          replace (N.to_nat (i - snd d)) with k by lia. unfold vals, args. rewrite !map_map. apply map_ext_in. intros it Hit.
          rewrite Forall_forall in Hf. specialize (Hf it Hit). unfold shift. cbn [fst snd]. rewrite (IH ltac:(lia)).
          destruct (N.eqb_spec (fst it) (fst d)) as [E1|E1]; [|reflexivity]. cbn [andb].
          destruct (N.leb_spec (snd d) (snd it + N.of_nat k)); [|reflexivity]. cbn [andb].
          destruct (N.ltb_spec (snd it + N.of_nat k) (snd d + N.of_nat k)); [|reflexivity].
          destruct Hf as [Hf|[Hf|Hf]]; [contradiction|lia|lia].
        * rewrite (IH ltac:(lia)). destruct (N.eqb_spec r (fst d)); [|contradiction]. cbn [andb].
          destruct (N.leb_spec (snd d) i); [|reflexivity]. cbn [andb].
          destruct (N.ltb_spec i (snd d + N.of_nat k)), (N.ltb_spec i (snd d + N.of_nat (S k))); try reflexivity; lia.
      + rewrite (IH ltac:(lia)). destruct (N.eqb_spec r (fst d)); [contradiction|]. reflexivity. }
  intros r i. unfold stores. apply Gen. lia.
Qed.
Lemma reduces_values {T} (f : list A -> B) (g : T -> B -> T) its n m t :
  reduces (pure_op f) (fun m t b => (m, g t b)) its n m t = (m, fold_left g (map (fun i => f (vals m (args its i))) (seq 0 n)) t).
Proof.
  unfold reduces. generalize (seq 0 n) as l. intros l. revert t. induction l as [|i l IH]; intros t; cbn [map fold_left]; [reflexivity|].
  cbn [pure_op fst snd]. rewrite IH. reflexivity.
Qed.
End Values.
