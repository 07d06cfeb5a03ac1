(** C38 tuple list operations, C39 filter/chunk_by/unique, C40 sort/gather_by/sets,
    C41 cartesian_product, C42 comparison, C50 tuples in step, C51 lookup by type. *)
From Verif Require Import Base BaseLemmas TupleModel TupleSpec TupleProofs TupleProofs2 TupleProofs3 TupleWitness.
From Coq Require Import Permutation.

(** ** C38 *)
Theorem C38_tuple_cat : forall E (ts : list (list E)), tuple_cat ts = Some (concat ts).
Proof. intros E. exact tuple_cat_ok. Qed.
Print Assumptions C38_tuple_cat.
Theorem C38_apply : forall E R (f : list E -> R) ts, apply f ts = Some (f (concat ts)).
Proof. intros E R. exact apply_ok. Qed.
Print Assumptions C38_apply.
Theorem C38_cons_snoc_tail : forall E (e : E) t,
  tuple_cons e t = Some (e :: t) /\ tuple_snoc t e = Some (t ++ [e]) /\ tail (e :: t) = Some t /\ tail (@nil E) = Some [].
Proof. intros E e t. split; [apply cons_ok|]. split; [apply snoc_ok|]. split; [apply (tail_ok (e :: t))|reflexivity]. Qed.
Print Assumptions C38_cons_snoc_tail.
Theorem C38_folds : forall W V (op : W -> V -> V -> W * V) w t init,
  fold_left op w t init = Some (List.fold_left (fun s x => op (fst s) (snd s) x) t (w, init)) /\
  fold_right op w t init = Some (List.fold_right (fun x s => op (fst s) x (snd s)) (w, init) t).
Proof. intros W V op w t init. split; [apply fold_left_ok|apply fold_right_ok]. Qed.
Print Assumptions C38_folds.
(** FINDING: docs/tuple.adoc:112-113 has (0 + (1 + (2 + 3))) for fold_right, with the initial value at the left; it is at the
    right. With the function that gives back its left operand: *)
Theorem C38_fold_right_documented_refuted : forall V (init x : V) t, init <> x ->
  fold_right (fun (w : unit) a _ => (w, a)) tt (x :: t) init = Some (tt, x) /\
  List.fold_right (fun a _ => a) (last (x :: t) init) (removelast (init :: x :: t)) = init.
Proof. intros V init x t _. split; [rewrite fold_right_ok; cbn; now destruct (List.fold_right _ _ t) as [[] y]|reflexivity]. Qed.
Print Assumptions C38_fold_right_documented_refuted.
(** join of no elements: the initial value if there is one, otherwise it does not compile. *)
Theorem C38_join : forall W V (op : W -> V -> V -> W * V) w x t init,
  join op w (x :: t) = Some (List.fold_left (fun s y => op (fst s) (snd s) y) t (w, x)) /\
  join_init op w (x :: t) init = Some (List.fold_left (fun s y => op (fst s) (snd s) y) t (w, x)) /\
  join op w [] = None /\ join_init op w [] init = Some (w, init).
Proof. intros W V op w x t init. split; [apply join_ok|]. split; [apply join_ok|]. split; reflexivity. Qed.
Print Assumptions C38_join.
Example C38_cat_example : tuple_cat [[1; 2]; []; [3]; [4; 5]] = Some [1; 2; 3; 4; 5].
Proof. reflexivity. Qed.
Example C38_fold_example : fold_right (fun w x y => (w ++ [x], x - y)) [] [10; 4] 1 = Some ([4; 10], 7).
Proof. reflexivity. Qed.

(** ** C39 *)
Theorem C39_filter : forall E T (ty : E -> T) pred t, filter ty pred t = Some (List.filter (fun e => pred (ty e)) t).
Proof. intros E T ty pred t. exact (filter_ok ty pred t). Qed.
Print Assumptions C39_filter.
Theorem C39_chunk_by : forall E T (ty : E -> T) same (proj : T -> T) t, decides same ->
  exists cs, chunk_by ty same proj t = Some cs /\ chunking (fun e => proj (ty e)) t cs.
Proof. intros E T ty same proj t H. exact (chunk_by_ok ty same H proj t). Qed.
Print Assumptions C39_chunk_by.
(** The description of the chunks leaves no freedom. *)
Theorem C39_chunks_unique : forall E K (key : E -> K) t cs ds, chunking key t cs -> chunking key t ds -> cs = ds.
Proof. intros E K key t cs ds. exact (chunking_unique key cs t ds). Qed.
Print Assumptions C39_chunks_unique.
Theorem C39_unique : forall E T (ty : E -> T) same t, decides same ->
  exists cs r, chunking ty t cs /\ unique ty same t = Some r /\ Forall2 (fun c e => nth_error c 0 = Some e) cs r.
Proof. intros E T ty same t H. exact (unique_ok ty same H t). Qed.
Print Assumptions C39_unique.
(** Elements are (type, value) pairs. *)
Lemma nat_decides : decides Nat.eqb.
Proof. intros x y. apply Nat.eqb_eq. Qed.
Example C39_chunk_example :
  chunk_by (@fst nat nat) Nat.eqb (fun x => x) [(1, 10); (1, 11); (2, 12); (1, 13)] = Some [[(1, 10); (1, 11)]; [(2, 12)]; [(1, 13)]] /\
  unique (@fst nat nat) Nat.eqb [(1, 10); (1, 11); (2, 12); (1, 13)] = Some [(1, 10); (2, 12); (1, 13)] /\
  filter (@fst nat nat) (Nat.eqb 1) [(1, 10); (1, 11); (2, 12); (1, 13)] = Some [(1, 10); (1, 11); (1, 13)].
Proof. split; [|split]; reflexivity. Qed.

(** ** C40 *)
Theorem C40_sort : forall E T (ty : E -> T) (proj : T -> T) name std_sort t, sorts std_sort ->
  exists s, sort ty proj name std_sort t = Some s /\ Permutation t s /\ ordered (fun e => name (proj (ty e))) s.
Proof. intros E T ty proj name std_sort t H. exact (sort_correct ty proj name std_sort H t). Qed.
Print Assumptions C40_sort.
Theorem C40_gather_by : forall E T (ty : E -> T) same (proj : T -> T) name std_sort t,
  sorts std_sort -> decides same -> injective name ->
  exists cs, gather_by ty same proj name std_sort t = Some cs /\ grouping (fun e => proj (ty e)) t cs /\
  (forall i j c d x y, i < j -> nth_error cs i = Some c -> nth_error cs j = Some d -> In x c -> In y d ->
     name_lt (name (proj (ty x))) (name (proj (ty y)))).
Proof. intros E T ty same proj name std_sort t H1 H2 H3. apply gather_by_ok; assumption. Qed.
Print Assumptions C40_gather_by.
Theorem C40_to_sorted_set : forall E T (ty : E -> T) same name std_sort t,
  sorts std_sort -> decides same -> injective name ->
  exists s, to_sorted_set ty same name std_sort t = Some s /\ strictly_ordered (fun e => name (ty e)) s /\
            (forall e, In e s -> In e t) /\ (forall e, In e t -> exists e', In e' s /\ ty e' = ty e).
Proof. intros E T ty same name std_sort t H1 H2 H3. apply to_sorted_set_ok; assumption. Qed.
Print Assumptions C40_to_sorted_set.
Theorem C40_to_unsorted_set : forall E T (ty : E -> T) same t, decides same ->
  to_unsorted_set ty same t = Some (first_of_type same ty t).
Proof. intros E T ty same t H. apply to_unsorted_set_ok; assumption. Qed.
Print Assumptions C40_to_unsorted_set.
(** Two different types with the same name (two lambdas in one function, two local classes):
    a group is split, and a "set" has two elements of one type. *)
Theorem C40_names_refuted : forall E T (ty : E -> T) same name (a b : E),
  decides same -> ty a <> ty b -> name (ty a) = name (ty b) ->
  exists std_sort, sorts std_sort /\
    gather_by ty same (fun x => x) name std_sort [a; b; a] = Some [[a]; [b]; [a]] /\
    ~ grouping ty [a; b; a] [[a]; [b]; [a]] /\
    to_sorted_set ty same name std_sort [a; b; a] = Some [a; b; a].
Proof.
  intros E T ty same name a b D Hne Hn. exists insertion_sort. split; [exact insertion_sorts|].
  assert (Hs : sorted_indices ty (fun x => x) name insertion_sort [a; b; a] = Some [0; 1; 2]).
  { unfold sorted_indices, pack, tuple_size. cbn [length seq mapo get nth_error]. cbn [insertion_sort List.fold_right insert fst]. rewrite Hn.
    assert (L : forall n, name_ltb n n = false).
    { intros n. destruct (name_ltb n n) eqn:K; [|reflexivity]. apply name_ltb_ok in K. destruct (name_lt_irrefl n K). }
    unfold insertion_sort. cbn [List.fold_right insert fst]. rewrite !L. cbn [insert fst]. rewrite !L. reflexivity. }
  assert (Ef : same (ty a) (ty b) = false) by (destruct (same (ty a) (ty b)) eqn:K; [apply D in K; contradiction|reflexivity]).
  assert (Ef' : same (ty b) (ty a) = false) by (destruct (same (ty b) (ty a)) eqn:K; [apply D in K; congruence|reflexivity]).
  split; [|split].
  - unfold gather_by. cbn [tuple_size length]. rewrite Hs. unfold test_pair, pack. cbn [Nat.sub seq mapo nth_error Nat.add get]. rewrite Ef, Ef'. reflexivity.
  - intros [_ _ _ G]. specialize (G 0 2 [a] [a] a a eq_refl eq_refl (or_introl eq_refl) (or_introl eq_refl) eq_refl). discriminate.
  - unfold to_sorted_set, sort. rewrite Hs. unfold pack, tuple_size. cbn [length seq mapo nth_error get]. unfold unique, chunk_by, neighbour_tests, pack, test_pair. cbn [tuple_size length Nat.sub seq mapo nth_error Nat.add get]. rewrite Ef, Ef'. reflexivity.
Qed.
Print Assumptions C40_names_refuted.
Lemma digits_injective : injective (fun n : nat => repeat 1%N n).
Proof. intros x y H. apply (f_equal (@length N)) in H. rewrite !repeat_length in H. exact H. Qed.
Example C40_example :
  gather_by (@fst nat nat) Nat.eqb (fun x => x) (fun n => repeat 1%N n) insertion_sort [(2, 10); (1, 11); (2, 12)] = Some [[(1, 11)]; [(2, 10); (2, 12)]] /\
  to_sorted_set (@fst nat nat) Nat.eqb (fun n => repeat 1%N n) insertion_sort [(2, 10); (1, 11); (2, 12)] = Some [(1, 11); (2, 10)] /\
  to_unsorted_set (@fst nat nat) Nat.eqb [(2, 10); (1, 11); (2, 12)] = Some [(2, 10); (1, 11)] /\
  sorts insertion_sort.
Proof. split; [reflexivity|]. split; [reflexivity|]. split; [reflexivity|exact insertion_sorts]. Qed.

(** ** C41 *)
Theorem C41_cartesian_product : forall E (ts : list (list E)), exists r,
  cartesian_product ts = Some r /\ length r = product (map (@length E) ts) /\
  (* every choice is there, at its rank *)
  (forall is, choice ts is -> exists c, nth_error r (rank (map (@length E) ts) is) = Some c /\ picks ts is c) /\
  (* nothing else is *)
  (forall k, k < length r -> exists is, choice ts is /\ rank (map (@length E) ts) is = k).
Proof.
  intros E ts. exists (prod_list ts). split; [apply cartesian_list|]. split; [apply prod_length|]. split; [intros is; apply prod_nth|].
  rewrite prod_length. intros k. apply rank_onto.
Qed.
Print Assumptions C41_cartesian_product.
(** The rank is the place in lexicographic order. *)
Theorem C41_lexicographic : forall E (ts : list (list E)) is js, choice ts is -> choice ts js ->
  (before is js <-> rank (map (@length E) ts) is < rank (map (@length E) ts) js).
Proof. intros E ts is js H1 H2. apply rank_order; assumption. Qed.
Print Assumptions C41_lexicographic.
Example C41_example : cartesian_product [[1; 2]; [3; 4; 5]] = Some [[1; 3]; [1; 4]; [1; 5]; [2; 3]; [2; 4]; [2; 5]] /\
  cartesian_product (@nil (list nat)) = Some [[]] /\ choice [[1; 2]; [3; 4; 5]] [1; 2].
Proof. split; [reflexivity|]. split; [reflexivity|]. repeat constructor. Qed.

(** ** C42 *)
Theorem C42_equality : forall E E' (eqv : E -> E' -> bool) l r, length l = length r ->
  exists b, tuple_eq eqv l r = Some b /\ (b = true <-> Forall2 (fun x y => eqv x y = true) l r).
Proof. intros E E'. exact tuple_eq_ok. Qed.
Print Assumptions C42_equality.
Theorem C42_ordering : forall E E' (cmp : E -> E' -> option comparison) l r, length l = length r ->
  exists c, tuple_cmp cmp l r = Some c /\ lexicographic cmp l r c.
Proof. intros E E'. exact tuple_cmp_ok. Qed.
Print Assumptions C42_ordering.
Theorem C42_ordering_unique : forall E E' (cmp : E -> E' -> option comparison) l r c d,
  lexicographic cmp l r c -> lexicographic cmp l r d -> c = d.
Proof. intros E E'. exact lexicographic_fun. Qed.
Print Assumptions C42_ordering_unique.
(** These operators are not for tuples of different sizes. Comparing such tuples may still find another
    operator: see C130. *)
Theorem C42_sizes : forall E E' (cmp : E -> E' -> option comparison) (eqv : E -> E' -> bool) l r, length l <> length r ->
  tuple_eq eqv l r = None /\ tuple_cmp cmp l r = None.
Proof. intros E E'. exact tuple_sizes. Qed.
Print Assumptions C42_sizes.
Theorem C42_one_of : forall E E' (eqv : E -> E' -> bool) t y, exists b,
  one_of_eq eqv t y = Some b /\ (b = true <-> exists x, In x t /\ eqv x y = true).
Proof. intros E E'. exact one_of_ok. Qed.
Print Assumptions C42_one_of.
Example C42_example : tuple_cmp (fun x y => Some (Nat.compare x y)) [1; 2; 9] [1; 3; 0] = Some (Some Lt) /\
  tuple_eq Nat.eqb [1; 2] [1; 2] = Some true /\ one_of_eq Nat.eqb [1; 2] 2 = Some true /\ one_of_eq Nat.eqb [1; 2] 3 = Some false.
Proof. repeat split. Qed.

(** ** C50 *)
Theorem C50_transform : forall W E R (op : W -> list E -> W * R) w ts, exists rows w' rs,
  is_rows ts rows /\ transform op w ts = Some (w', rs) /\ calls op w rows w' rs.
Proof. intros W E R. exact transform_ok. Qed.
Print Assumptions C50_transform.
Theorem C50_for_each : forall W E R (op : W -> list E -> W * R) w ts, exists rows w' rs,
  is_rows ts rows /\ for_each op w ts = Some w' /\ calls op w rows w' rs.
Proof. intros W E R. exact for_each_ok. Qed.
Print Assumptions C50_for_each.
Theorem C50_enumerate : forall W E (op : W -> nat -> list E -> W) w ts, exists rows w' us,
  is_rows ts rows /\ enumerate op w ts = Some w' /\
  calls (fun w ir => (op w (fst ir) (snd ir), tt)) w (combine (seq 0 (length rows)) rows) w' us.
Proof. intros W E. exact enumerate_ok. Qed.
Print Assumptions C50_enumerate.
Theorem C50_all_any_none : forall W E (f : W -> list E -> W * bool) w ts, exists rows, is_rows ts rows /\
  (exists w' b, all_of f w ts = Some (w', b) /\ until false f w rows w' (negb b)) /\
  (exists w' b, any_of f w ts = Some (w', b) /\ until true f w rows w' b) /\
  (exists w' b, none_of f w ts = Some (w', b) /\ until true f w rows w' (negb b)).
Proof.
  intros W E f w ts. destruct (all_of_ok f w ts) as [r1 [w1 [b1 [H1 [H2 H3]]]]]. destruct (any_of_ok f w ts) as [r2 [w2 [b2 [G1 [G2 G3]]]]]. destruct (none_of_ok f w ts) as [r3 [w3 [b3 [K1 [K2 K3]]]]].
  pose proof (is_rows_unique _ _ _ G1 H1) as E1. pose proof (is_rows_unique _ _ _ K1 H1) as E2. subst r2 r3.
  exists r1. split; [exact H1|]. split; [eauto|]. split; eauto.
Qed.
Print Assumptions C50_all_any_none.
(** There is one way to read the tuples in rows. *)
Theorem C50_rows_unique : forall E (ts : list (list E)) r1 r2, is_rows ts r1 -> is_rows ts r2 -> r1 = r2.
Proof. intros E. exact is_rows_unique. Qed.
Print Assumptions C50_rows_unique.
Example C50_example : transform (fun w r => (w ++ [r], List.fold_left Nat.add r 0)) [] [[1; 2; 3]; [10; 20]] = Some ([[1; 10]; [2; 20]], [11; 22]) /\
  any_of (fun w r => (w ++ [r], match r with x :: _ => 1 <? x | [] => false end)) [] [[1; 2; 3]] = Some ([[1]; [2]], true).
Proof. split; reflexivity. Qed.

(** ** C51 *)
(** An element answers to its own type and to the types its index functions give. *)
Theorem C51_get_by_type : forall E T (ty : E -> T) same keys t k e, decides same ->
  (get_by ty same keys t k = Some e <->
   exists l r, t = l ++ e :: r /\ In k (ty e :: keys e) /\ (forall x, In x (l ++ r) -> ~ In k (ty x :: keys x))).
Proof.
  intros E T ty same keys t k e D. rewrite get_by_ok.
  assert (A : forall x, answers ty same keys k x = true <-> In k (ty x :: keys x)).
  { intros x. unfold answers. rewrite existsb_exists. split; [intros [y [H1 H2]]; apply D in H2; subst y; exact H1|intros H; exists k; split; [exact H|apply D; reflexivity]]. }
  split; intros [l [r [H1 [H2 H3]]]]; exists l, r; (split; [exact H1|]; split; [apply A; exact H2|]); intros x Hx.
  - intros K. apply A in K. rewrite H3 in K by exact Hx. discriminate.
  - destruct (answers ty same keys k x) eqn:K; [|reflexivity]. apply A in K. destruct (H3 x Hx K).
Qed.
Print Assumptions C51_get_by_type.
Theorem C51_contains_type : forall E T (ty : E -> T) same keys t k, decides same ->
  (contains_type ty same keys t k = true <-> exists e, In e t /\ In k (ty e :: keys e)).
Proof.
  intros E T ty same keys t k D. rewrite contains_ok, existsb_exists.
  split; intros [e [H1 H2]]; exists e; (split; [exact H1|]); unfold answers in *.
  - apply existsb_exists in H2. destruct H2 as [y [H2 H3]]. apply D in H3. subst y. exact H2.
  - apply existsb_exists. exists k. split; [exact H2|apply D; reflexivity].
Qed.
Print Assumptions C51_contains_type.
Example C51_example : get_by (@fst nat nat) Nat.eqb (fun e => [snd e]) [(1, 10); (2, 20)] 20 = Some (2, 20) /\
  get_by (@fst nat nat) Nat.eqb (fun _ => []) [(1, 10); (2, 20); (1, 30)] 1 = None /\
  contains_type (@fst nat nat) Nat.eqb (fun e => [snd e]) [(1, 10); (2, 20)] 20 = true.
Proof. repeat split. Qed.
