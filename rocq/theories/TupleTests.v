(** The assertions of /repo/test/tuple.cpp, indexed_tuple.cpp and tuple_algorithms.cpp evaluated
    in the models: they check the models against the behaviour the repository's own tests record.
    They are tests, not the property theorems. *)
From Verif Require Import Base TupleModel MoveModel.
Import ListNotations.

(** Types by number, in the order of the names that the tests' types have ("bool" < "double" <
    "int"); a value with its type. *)
Definition tbool := 1. Definition tdouble := 2. Definition tint := 3. Definition tlong := 4. Definition tfloat := 5.
Definition el := (nat * nat)%type.
Definition ints (l : list nat) : list el := map (pair tint) l.
Definition name_of (t : nat) : list N := [N.of_nat t].
(** std::sort on an array of (name, index): here by insertion (stable). *)
Definition below (x y : list N * nat) : bool := match fst x, fst y with [a], [b] => N.leb a b | _, _ => true end.
Fixpoint insert (x : list N * nat) (l : list (list N * nat)) : list (list N * nat) :=
  match l with [] => [x] | y :: r => if below x y then x :: l else y :: insert x r end.
Definition sorting (l : list (list N * nat)) : list (list N * nat) := List.fold_right insert [] l.
Definition id {X} (x : X) : X := x.

(** ** tuple.cpp *)
(** tuple.cpp:74-108, 125-149, 471-477. *)
Example test_get :
  let t := [(tint, 5); (tbool, 1); (tlong, 10)] in
  map (get t) [0; 1; 2] = map Some t /\ get t 3 = None /\
  map (get_by fst Nat.eqb (fun _ => []) t) [tint; tbool; tlong] = map Some t /\
  get_by fst Nat.eqb (fun _ => []) t tdouble = None.
Proof. repeat split; reflexivity. Qed.
(** tuple.cpp:256-309; fail/tuple_equality_mismatch.cpp. *)
Example test_equal :
  tuple_eq Nat.eqb [5; 10] [5; 10] = Some true /\ tuple_eq Nat.eqb [5; 10] [5; 11] = Some false /\
  tuple_eq Nat.eqb [1] [1; 2] = None.
Proof. repeat split; reflexivity. Qed.
(** tuple.cpp:311-389; fail/tuple_spaceship_mismatch.cpp. *)
Example test_order :
  let c := tuple_cmp (fun x y => Some (Nat.compare x y)) in
  c [5; 10] [5; 10] = Some (Some Eq) /\ c [5; 10] [6; 9] = Some (Some Lt) /\ c [5; 10] [6; 10] = Some (Some Lt) /\
  c [5; 10] [5; 11] = Some (Some Lt) /\ c [5; 10] [5; 9] = Some (Some Gt) /\ c [5; 10] [4; 10] = Some (Some Gt) /\
  c [5; 10] [4; 11] = Some (Some Gt) /\ c [5; 6] [5; 7] = Some (Some Lt) /\ c [1] [1; 2] = None.
Proof. repeat split; reflexivity. Qed.
(** tuple.cpp:461-469. *)
Example test_one_of :
  one_of_eq Nat.eqb [1; 2; 3] 1 = Some true /\ one_of_eq Nat.eqb [1; 2; 3] 4 = Some false /\
  let among l x := match one_of_eq Nat.eqb l x with Some b => b | None => false end in
  one_of_eq (fun x l => among l x) [1; 2; 3] [3; 4; 5] = Some true /\
  one_of_eq (fun x l => among l x) [1; 2; 3] [4; 5; 6] = Some false.
Proof. repeat split; reflexivity. Qed.
(** tuple.cpp:479-492. *)
Example test_tail : tail [1; 2; 3] = Some [2; 3] /\ tail [42; 17] = Some [17] /\ tail (@nil nat) = Some [].
Proof. repeat split; reflexivity. Qed.
(** tuple.cpp:398-410: copying and moving a tuple, one element. *)
Example test_copy_move :
  make_tuple_m [Value 1] (elements Lvalue [(0, tt)]) = Some ([Value 1], [Value 1]) /\
  make_tuple_m [Value 1] (elements Rvalue [(0, tt)]) = Some ([Gone], [Value 1]).
Proof. split; reflexivity. Qed.

(** ** indexed_tuple.cpp: [keys] are what the index functions give. *)
(** indexed_tuple.cpp:42-65, 80-98. *)
Example test_indexed :
  let X := 100 in let Y := 101 in let M := 102 in let N := 103 in
  let t := [(10, 42); (11, 17)] in
  let key e := if fst e =? 10 then [X] else [Y] in
  let keys e := if fst e =? 10 then [M; X] else [N; Y] in
  get_by fst Nat.eqb key t X = Some (10, 42) /\ get_by fst Nat.eqb key t Y = Some (11, 17) /\
  map (get_by fst Nat.eqb keys t) [M; X; N; Y] = map Some [(10, 42); (10, 42); (11, 17); (11, 17)].
Proof. repeat split; reflexivity. Qed.

(** ** tuple_algorithms.cpp *)
Definition sum (l : list nat) := List.fold_left Nat.add l 0.
Definition pure {R} (f : list nat -> R) (w : unit) (l : list nat) := (w, f l).
(** tuple_algorithms.cpp:45-107. *)
Example test_transform :
  transform (pure (fun _ => 1)) tt [[]] = Some (tt, []) /\
  transform (pure (fun l => sum l + 1)) tt [[1; 2; 3]] = Some (tt, [2; 3; 4]) /\
  transform (pure (fun l => negb (sum l =? 0))) tt [[1; 0; 3]] = Some (tt, [true; false; true]) /\
  transform (pure (fun _ => 1)) tt [[]; []] = Some (tt, []) /\
  transform (pure sum) tt [[1; 2; 3]; [1; 2; 3]] = Some (tt, [2; 4; 6]) /\
  transform (pure sum) tt [[1; 2; 3]; [1; 2]] = Some (tt, [2; 4]) /\
  (exists u, tail [1; 2; 3] = Some u /\ transform (pure sum) tt [[1; 2; 3]; u] = Some (tt, [3; 5])).
Proof. repeat split; try reflexivity. eexists; split; reflexivity. Qed.
(** tuple_algorithms.cpp:126-233. *)
Example test_apply :
  apply sum [[]] = Some 0 /\ apply sum [[1; 2; 3]] = Some 6 /\ apply id [[1; 2; 3]] = Some [1; 2; 3] /\
  apply sum [[1; 2; 3; 4]] = Some 10 /\ apply sum [] = Some 0 /\ apply sum [[1; 2; 3]; [4; 5; 6]] = Some 21 /\
  apply id [[1; 2; 3]; [4; 5; 6]] = Some [1; 2; 3; 4; 5; 6] /\
  apply sum [[1; 2; 3; 4]; [1; 2; 3; 4; 5]] = Some 25 /\ apply sum [[1; 2]; [3; 4]; [5; 6]] = Some 21.
Proof. repeat split; reflexivity. Qed.
Definition plus (w : unit) (x y : nat) := (w, x + y).
(** tuple_algorithms.cpp:235-254. *)
Example test_join :
  join plus tt [1; 2; 3] = Some (tt, 6) /\ join plus tt [42] = Some (tt, 42) /\ join plus tt [1] = Some (tt, 1) /\
  join_init plus tt [] 42 = Some (tt, 42) /\ join_init plus tt [1] 42 = Some (tt, 1) /\
  join_init plus tt [1; 2; 3] 42 = Some (tt, 6).
Proof. repeat split; reflexivity. Qed.
(** tuple_algorithms.cpp:256-325: the sum, and how often the function has been called. *)
Definition summing (w : nat) (l : list nat) := (w + sum l, tt).
Definition counting (w : nat) (l : list nat) := (w + 1, tt).
Example test_for_each :
  for_each summing 0 [[]; []] = Some 0 /\ for_each summing 0 [[1; 2; 3]; [1; 2; 3]] = Some 12 /\
  for_each summing 0 [[1]; [2]] = Some 3 /\ for_each counting 0 [[1; 2; 3]] = Some 3 /\
  for_each summing 0 [[1; 2; 3]; [1; 2]] = Some 6.
Proof. repeat split; reflexivity. Qed.
(** tuple_algorithms.cpp:327-378: the first argument is changed through a reference. *)
Definition decrement (w : nat) (l : list (category * cell nat)) : nat * unit * list (cell nat) :=
  match l with
  | [(_, Value x); (_, Value y)] => (w + x + y, tt, [Value (x - 1); Value y])
  | _ => (w, tt, map snd l)
  end.
Example test_unrolled :
  let three := [(0, tt); (1, tt); (2, tt)] in
  for_each (call decrement) (0, [Value 1; Value 2; Value 3; Value 1; Value 2; Value 3])
    [elements Lvalue three; elements Lvalue [(3, tt); (4, tt); (5, tt)]]
  = Some (12, [Value 0; Value 1; Value 2; Value 1; Value 2; Value 3]) /\
  for_each (call decrement) (0, [Value 1; Value 2; Value 3; Value 0; Value 1; Value 2])
    [elements Lvalue three; elements Rvalue [(3, tt); (4, tt); (5, tt)]]
  = Some (9, [Value 0; Value 1; Value 2; Value 0; Value 1; Value 2]).
Proof. split; reflexivity. Qed.
(** tuple_algorithms.cpp:380-407. *)
Example test_cat :
  tuple_cat (@nil (list nat)) = Some [] /\ tuple_cat [@nil nat; []] = Some [] /\ tuple_cat [[1; 2]; []] = Some [1; 2] /\
  tuple_cat [[]; [1; 2]] = Some [1; 2] /\ tuple_cat [[1; 2]; [3; 4]] = Some [1; 2; 3; 4] /\
  tuple_cat [[1; 2]; [3; 4]; [5; 6]] = Some [1; 2; 3; 4; 5; 6] /\ tuple_cat [[1; 2]; []; [3; 4]] = Some [1; 2; 3; 4].
Proof. repeat split; reflexivity. Qed.
(** tuple_algorithms.cpp:453-530: minus on integers; the number of calls. *)
Definition minus (w : nat) (x y : Z) := (w + 1, (x - y)%Z).
Definition adding (w : nat) (x y : Z) := (w + 1, (x + y)%Z).
Example test_folds :
  fold_left minus 0 [1; 2; 3]%Z 0%Z = Some (3, (((0 - 1) - 2) - 3)%Z) /\ fold_left adding 0 [1; 2; 3]%Z 0%Z = Some (3, 6%Z) /\
  fold_right minus 0 [1; 2; 3]%Z 4%Z = Some (3, (1 - (2 - (3 - 4)))%Z) /\ fold_right adding 0 [1; 2; 3]%Z 0%Z = Some (3, 6%Z).
Proof. repeat split; reflexivity. Qed.
(** tuple_algorithms.cpp:532-552: std::integral_constant, whose value is in the type. *)
Example test_filter : filter id Nat.even [1; 2; 3; 4] = Some [2; 4].
Proof. reflexivity. Qed.
(** tuple_algorithms.cpp:554-581: what has been moved from. *)
Example test_moves :
  tuple_cat_m [Value 1; Value 2] [elements Lvalue [(0, tt)]; elements Lvalue [(1, tt)]] = Some ([Value 1; Value 2], [Value 1; Value 2]) /\
  tuple_cat_m [Value 1; Value 2] [elements Rvalue [(0, tt)]; elements Rvalue [(1, tt)]] = Some ([Gone; Gone], [Value 1; Value 2]) /\
  filter_m (fun _ => true) [Value 1] (elements Lvalue [(0, tt)]) = Some ([Value 1], [Value 1]) /\
  filter_m (fun _ => true) [Value 1] (elements Rvalue [(0, tt)]) = Some ([Gone], [Value 1]).
Proof. repeat split; reflexivity. Qed.
(** tuple_algorithms.cpp:583-633. *)
Definition answer (o : option (unit * bool)) : bool := match o with Some (_, b) => b | None => false end.
Example test_predicates :
  answer (all_of (pure (fun l => 0 <? sum l)) tt [[1; 2; 3]]) = true /\
  answer (all_of (pure (fun l => Nat.even (sum l))) tt [[1; 2; 3]; [1; 2; 3]]) = true /\
  answer (all_of (pure (fun l => Nat.even (sum l))) tt [[1; 3; 5]; [1; 3]]) = true /\
  answer (any_of (pure (fun l => Nat.even (sum l))) tt [[1; 2; 3]]) = true /\
  answer (any_of (pure (fun l => Nat.even (sum l))) tt [[1; 2; 3]; [1; 2; 3]]) = true /\
  answer (any_of (pure (fun l => Nat.even (sum l))) tt [[1; 3; 5]; [1; 3]]) = true /\
  answer (none_of (pure (fun l => Nat.even (sum l))) tt [[1; 3; 5]]) = true /\
  answer (none_of (pure (fun l => Nat.odd (sum l))) tt [[1; 3; 5]; [1; 3; 5]]) = true /\
  answer (none_of (pure (fun l => Nat.odd (sum l))) tt [[1; 3; 5]; [1; 3]]) = true.
Proof. repeat split; reflexivity. Qed.
(** tuple_algorithms.cpp:635-652. *)
Example test_contains_type :
  let intref := 6 in let X := 100 in let Y := 101 in
  let t := [(tint, 0); (tbool, 0); (intref, 0)] in
  map (contains_type fst Nat.eqb (fun _ => []) t) [tint; tbool; intref; tfloat] = [true; true; true; false] /\
  map (contains_type fst Nat.eqb (fun e => if fst e =? 10 then [X] else [Y]) [(10, 0); (11, 0)]) [10; X; tfloat] = [true; true; false].
Proof. split; reflexivity. Qed.
(** tuple_algorithms.cpp:654-688. *)
Example test_sort :
  sort fst id name_of sorting (@nil el) = Some [] /\
  sort fst id name_of sorting [(tint, 1); (tdouble, 1); (tbool, 1)] = Some [(tbool, 1); (tdouble, 1); (tint, 1)] /\
  sort_m id name_of sorting [Value 1; Value 2] (elements Rvalue [(0, 7); (1, tdouble)]) = Some ([Gone; Gone], [Value 2; Value 1]).
Proof. repeat split; reflexivity. Qed.
(** tuple_algorithms.cpp:690-754. *)
Definition tests_of (ts : list nat) : option (list bool) := neighbour_tests (fun t : nat => t) Nat.eqb id ts.
Definition chunks_of (ts : list nat) := match tests_of ts with Some b => create_chunks b | None => None end.
Example test_chunk :
  let chunk := chunk_by fst Nat.eqb id in
  chunk (@nil el) = Some [] /\ chunk [(tint, 1)] = Some [[(tint, 1)]] /\
  map (fun ts => option_map count_chunks (tests_of ts))
    [[tint; tint]; [tint; tfloat]; [tint; tint; tfloat]; [tint; tfloat; tfloat]] = map Some [1; 2; 2; 2] /\
  chunks_of [tint; tint] = Some [Chunk 0 2] /\ chunks_of [tint; tint; tfloat] = Some [Chunk 0 2; Chunk 2 1] /\
  chunks_of [tint; tint; tfloat; tint; tint; tfloat] = Some [Chunk 0 2; Chunk 2 1; Chunk 3 2; Chunk 5 1] /\
  chunk (ints [1; 2; 3] ++ [(tdouble, 1); (tdouble, 2); (tbool, 1)]) = Some [ints [1; 2; 3]; [(tdouble, 1); (tdouble, 2)]; [(tbool, 1)]] /\
  chunk_by_m (fun n => seq 0 n) Nat.eqb id [Value 1] (elements Rvalue [(0, 7)]) = Some ([Gone], [[Value 1]]).
Proof. repeat split; reflexivity. Qed.
(** tuple_algorithms.cpp:756-818. *)
Example test_cartesian :
  cartesian_product (@nil (list nat)) = Some [[]] /\ cartesian_product [[1; 2; 3]] = Some [[1]; [2]; [3]] /\
  cartesian_product [[1]; [2]] = Some [[1; 2]] /\
  cartesian_product [[1; 2]; [97; 98]; [11; 22]]
  = Some [[1; 97; 11]; [1; 97; 22]; [1; 98; 11]; [1; 98; 22]; [2; 97; 11]; [2; 97; 22]; [2; 98; 11]; [2; 98; 22]].
Proof. repeat split; reflexivity. Qed.
(** tuple_algorithms.cpp:820-850. *)
Example test_unique :
  unique fst Nat.eqb [(tint, 1); (tdouble, 1); (tdouble, 2); (tbool, 1); (tbool, 0)] = Some [(tint, 1); (tdouble, 1); (tbool, 1)] /\
  unique fst Nat.eqb (ints [1; 2]) = Some (ints [1]) /\
  option_map snd (unique_m (fun n => seq 0 n) Nat.eqb [Value 1; Value 2] (elements Rvalue [(0, 7); (1, 7)])) = Some [Value 1].
Proof. repeat split; reflexivity. Qed.
(** tuple_algorithms.cpp:852-916. *)
Example test_sets :
  let t := [(tint, 1); (tdouble, 1); (tbool, 1); (tdouble, 2); (tbool, 0)] in
  to_sorted_set fst Nat.eqb name_of sorting t = Some [(tbool, 1); (tdouble, 1); (tint, 1)] /\
  to_unsorted_set fst Nat.eqb t = Some [(tint, 1); (tdouble, 1); (tbool, 1)] /\
  let refs := [(tint, 1); (tint, 2); (tdouble, 3); (tdouble, 4)] in
  to_sorted_set fst Nat.eqb name_of sorting refs = Some [(tdouble, 3); (tint, 1)] /\
  to_unsorted_set fst Nat.eqb refs = Some [(tint, 1); (tdouble, 3)] /\
  let m := [Value 1; Value 1; Value 1; Value 2; Value 0] in
  let move_only := 7 in
  let r := elements Rvalue [(0, tint); (1, move_only); (2, tbool); (3, move_only); (4, tbool)] in
  option_map snd (to_sorted_set_m (fun n => seq 0 n) Nat.eqb name_of sorting m r) = Some [Value 1; Value 1; Value 1] /\
  option_map snd (to_unsorted_set_m Nat.eqb m r) = Some [Value 1; Value 1; Value 1].
Proof. repeat split; reflexivity. Qed.
(** tuple_algorithms.cpp:918-934. *)
Example test_enumerate : enumerate (fun w i l => w + i + sum l) 0 [[1; 2; 3]; [1; 2; 3]] = Some ((0 + 1 + 2) + (2 + 4 + 6)).
Proof. reflexivity. Qed.
(** tuple_algorithms.cpp:936-1007. *)
Example test_gather :
  let gather := gather_by fst Nat.eqb id name_of sorting in
  gather (@nil el) = Some [] /\ gather [(tint, 1)] = Some [[(tint, 1)]] /\
  gather [(tint, 1); (tdouble, 1); (tint, 2); (tdouble, 1); (tint, 3); (tbool, 1)]
  = Some [[(tbool, 1)]; [(tdouble, 1); (tdouble, 1)]; ints [1; 2; 3]] /\
  gather (ints [1; 2]) = Some [ints [1; 2]] /\
  (* named_int<X> has type 10 * X, and the projection gives X *)
  gather_by fst Nat.eqb (fun t => t / 10) name_of sorting [(30, 3); (20, 11); (10, 0); (20, 12)]
  = Some [[(10, 0)]; [(20, 11); (20, 12)]; [(30, 3)]].
Proof. repeat split; reflexivity. Qed.
(** tuple_algorithms.cpp:1009-1069. *)
Example test_cons_snoc :
  tuple_cons 1 [] = Some [1] /\ tuple_cons 5 [10] = Some [5; 10] /\ tuple_snoc [] 1 = Some [1] /\ tuple_snoc [10] 5 = Some [10; 5] /\
  tuple_cons_m [Value 5; Value 10] (Ref Rvalue 0 tt) (elements Rvalue [(1, tt)]) = Some ([Gone; Gone], [Value 5; Value 10]) /\
  tuple_snoc_m [Value 10; Value 5] (elements Rvalue [(0, tt)]) (Ref Rvalue 1 tt) = Some ([Gone; Gone], [Value 10; Value 5]).
Proof. repeat split; reflexivity. Qed.
