(** Model of include/stdx/tuple.hpp and include/stdx/tuple_algorithms.hpp.

    A tuple is the list of its elements.  Indices are compile-time constants; [None] is a
    program that does not compile (an index out of bounds, an ambiguous or missing type).
    Copies, moves and references are not distinguished: an element is what the user sees
    through it.  Functions given by the user work on a world [W], so the order of the calls is
    observable.  Sizes are those of parameter packs, so [std::size_t] does not wrap. *)
From Verif Require Import Base.
Open Scope ub_scope.

(** A pack expansion [f(Is)...] over std::make_index_sequence<n>: every index must be valid. *)
Fixpoint mapo {X Y} (f : X -> option Y) (l : list X) : option (list Y) :=
  match l with [] => Some [] | x :: r => y <- f x;; ys <- mapo f r;; Some (y :: ys) end.
Definition pack {Y} (n : nat) (f : nat -> option Y) : option (list Y) := mapo f (seq 0 n).
(** A pack expansion of calls in a braced initializer or a comma fold: left to right. *)
Fixpoint effects {W X Y} (f : W -> X -> W * Y) (w : W) (l : list X) : W * list Y :=
  match l with
  | [] => (w, [])
  | x :: r => let (w1, y) := f w x in let (w2, ys) := effects f w1 r in (w2, y :: ys)
  end.

(** operator[] and get<I>: tuple.hpp:226-270, 422-426. *)
Definition get {E} (t : list E) (i : nat) : option E := nth_error t i.
(** tuple_size_v: type_traits.hpp:326-329. *)
Definition tuple_size {E} (t : list E) : nat := length t.
(** a[i] and a[i] = v on a std::array during constant evaluation. *)
Definition arr_put {X} (a : list X) (i : nat) (v : X) : option (list X) :=
  if i <? length a then Some (set_nth i v a) else None.

Section Folds.
Context {W V : Type}.
Variable op : W -> V -> V -> W * V.
(** fold_helper's operator+ (tuple.hpp:118-135): calls op(lhs, rhs). *)
Definition helper_plus (s : W * V) (x : V) : W * V := op (fst s) (snd s) x.
Definition helper_plus_r (x : V) (s : W * V) : W * V := op (fst s) x (snd s).
(** [(init + ... + pack)] and [(pack + ... + init)]. *)
Fixpoint fold_expr_l (s : W * V) (l : list V) : W * V :=
  match l with [] => s | x :: r => fold_expr_l (helper_plus s x) r end.
Fixpoint fold_expr_r (s : W * V) (l : list V) : W * V :=
  match l with [] => s | x :: r => helper_plus_r x (fold_expr_r s r) end.
(** tuple.hpp:198-210. *)
Definition fold_left (w : W) (t : list V) (init : V) : option (W * V) :=
  vs <- pack (tuple_size t) (get t);; Some (fold_expr_l (w, init) vs).
(** tuple.hpp:212-224. *)
Definition fold_right (w : W) (t : list V) (init : V) : option (W * V) :=
  vs <- pack (tuple_size t) (get t);; Some (fold_expr_r (w, init) vs).
(** tuple.hpp:304-317: the unary left fold [( ... + join_helper)]; 0 elements do not compile. *)
Definition join (w : W) (t : list V) : option (W * V) :=
  vs <- pack (tuple_size t) (get t);;
  match vs with [] => None | x :: r => Some (fold_expr_l (w, x) r) end.
(** tuple.hpp:319-334. *)
Definition join_init (w : W) (t : list V) (init : V) : option (W * V) :=
  if tuple_size t =? 0 then Some (w, init) else join w t.
End Folds.

(** tuple.hpp:292-302: member apply. *)
Definition apply1 {E R} (f : list E -> R) (t : list E) : option R :=
  vs <- pack (tuple_size t) (get t);; Some (f vs).

(** tuple.hpp:340-364. *)
Definition tail {E} (t : list E) : option (list E) :=
  if tuple_size t =? 0 then Some t else pack (tuple_size t - 1) (fun j => get t (j + 1)).

(** index_pair: tuple.hpp:165-168. *)
Record index_pair := IndexPair { outer : nat; inner : nat }.
(** tuple_algorithms.hpp:20-27: from position [p]; returns the array and the new position. *)
Fixpoint fill_inner (a : list index_pair) (p : nat) (is : list nat) : option (list index_pair * nat) :=
  match is with
  | [] => Some (a, p)
  | i :: r => old <- nth_error a p;; a' <- arr_put a p (IndexPair (outer old) i);; fill_inner a' (S p) r
  end.
(** tuple_algorithms.hpp:29-37. *)
Fixpoint fill_outer (a : list index_pair) (p n : nat) (is : list nat) : option (list index_pair * nat) :=
  match is with
  | [] => Some (a, p)
  | _ :: r => old <- nth_error a p;; a' <- arr_put a p (IndexPair n (inner old));; fill_outer a' (S p) n r
  end.
Fixpoint fill_inners (a : list index_pair) (p : nat) (sizes : list nat) : option (list index_pair) :=
  match sizes with
  | [] => Some a
  | s :: r => x <- fill_inner a p (seq 0 s);; fill_inners (fst x) (snd x) r
  end.
Fixpoint fill_outers (a : list index_pair) (q n : nat) (sizes : list nat) : option (list index_pair) :=
  match sizes with
  | [] => Some a
  | s :: r => x <- fill_outer a q n (seq 0 s);; fill_outers (fst x) (snd x) (S n) r
  end.
(** tuple_algorithms.hpp:42-55 and 71-84. *)
Definition element_indices (sizes : list nat) : option (list index_pair) :=
  let total := List.fold_left Nat.add sizes 0 in
  a <- fill_inners (repeat (IndexPair 0 0) total) 0 sizes;; fill_outers a 0 0 sizes.
(** tuple_algorithms.hpp:57-62 and 86-96. *)
Definition gather_all {E} (ts : list (list E)) : option (list E) :=
  let sizes := map tuple_size ts in
  idx <- element_indices sizes;;
  pack (List.fold_left Nat.add sizes 0) (fun i => p <- nth_error idx i;; t <- get ts (outer p);; get t (inner p)).

(** tuple_algorithms.hpp:40-63: apply over any number of tuples. *)
Definition apply {E R} (f : list E -> R) (ts : list (list E)) : option R :=
  vs <- gather_all ts;; Some (f vs).
(** tuple_algorithms.hpp:65-98. *)
Definition tuple_cat {E} (ts : list (list E)) : option (list E) :=
  match ts with [] => Some [] | [t] => Some t | _ => gather_all ts end.
(** tuple_algorithms.hpp:100-134. *)
Definition tuple_cons {E} (e : E) (t : list E) : option (list E) :=
  vs <- pack (tuple_size t) (get t);; Some (e :: vs).
Definition tuple_snoc {E} (t : list E) (e : E) : option (list E) :=
  vs <- pack (tuple_size t) (get t);; Some (vs ++ [e]).

(** ** Several tuples in step *)
(** tuple_algorithms.hpp:174-178. *)
Definition zip_length {E} (ts : list (list E)) : nat :=
  match map tuple_size ts with [] => 0 | s :: r => List.fold_left Nat.min r s end.
(** tuple_algorithms.hpp:168-172: the arguments of the call at index [i]. *)
Definition args_at {E} (ts : list (list E)) (i : nat) : option (list E) := mapo (fun t => get t i) ts.

Section Zip.
Context {W E R : Type}.
Variable op : W -> list E -> W * R.
(** tuple_algorithms.hpp:181-200; the calls are in a braced initializer.  tuple.hpp:502-514 is
    the same for one tuple. *)
Definition transform (w : W) (ts : list (list E)) : option (W * list R) :=
  rows <- pack (zip_length ts) (args_at ts);; Some (effects op w rows).
(** tuple_algorithms.hpp:202-225, tuple.hpp:516-522. *)
Definition for_each (w : W) (ts : list (list E)) : option W :=
  rows <- pack (zip_length ts) (args_at ts);; Some (fst (effects op w rows)).
End Zip.
(** tuple_algorithms.hpp:227-256: the function also gets the index. *)
Definition enumerate {W E} (op : W -> nat -> list E -> W) (w : W) (ts : list (list E)) : option W :=
  rows <- pack (zip_length ts) (fun i => r <- args_at ts i;; Some (i, r));;
  Some (fst (effects (fun w ir => (op w (fst ir) (snd ir), tt)) w rows)).

Section Predicates.
Context {W E : Type}.
Variable f : W -> list E -> W * bool.
(** [(... and f(row))] and [(... or f(row))]: left to right, stopping early. *)
Fixpoint and_fold (w : W) (acc : bool) (rows : list (list E)) : W * bool :=
  match rows with
  | [] => (w, acc)
  | r :: rest => if acc then let (w1, b) := f w r in and_fold w1 b rest else and_fold w acc rest
  end.
Fixpoint or_fold (w : W) (acc : bool) (rows : list (list E)) : W * bool :=
  match rows with
  | [] => (w, acc)
  | r :: rest => if acc then or_fold w acc rest else let (w1, b) := f w r in or_fold w1 b rest
  end.
(** tuple_algorithms.hpp:258-278. *)
Definition all_of (w : W) (ts : list (list E)) : option (W * bool) :=
  rows <- pack (zip_length ts) (args_at ts);; Some (and_fold w true rows).
(** tuple_algorithms.hpp:280-300. *)
Definition any_of (w : W) (ts : list (list E)) : option (W * bool) :=
  rows <- pack (zip_length ts) (args_at ts);; Some (or_fold w false rows).
(** tuple_algorithms.hpp:302-315. *)
Definition none_of (w : W) (ts : list (list E)) : option (W * bool) :=
  x <- any_of w ts;; Some (fst x, negb (snd x)).
End Predicates.

(** ** Algorithms that look at types *)
Section Typed.
Context {E T : Type}.
Variable ty : E -> T.                        (* the type of an element *)
Variable same : T -> T -> bool.              (* std::is_same *)

(** tuple_algorithms.hpp:136-166. *)
Section Filter.
Variable pred : T -> bool.
Definition num_matches (t : list E) : nat :=
  List.fold_left (fun n e => n + (if pred (ty e) then 1 else 0)) t 0.
Fixpoint copy_indices (a : list nat) (it : nat) (i : nat) (t : list E) : option (list nat) :=
  match t with
  | [] => Some a
  | e :: r => if pred (ty e) then a' <- arr_put a it i;; copy_indices a' (S it) (S i) r
              else copy_indices a it (S i) r
  end.
Definition filter (t : list E) : option (list E) :=
  idx <- copy_indices (repeat 0 (num_matches t)) 0 0 t;;
  pack (num_matches t) (fun j => i <- nth_error idx j;; get t i).
End Filter.

(** get by type or by an index function: tuple.hpp:77-95, 160-163, 272-290.  An element
    answers to its own type and to the types its index functions give ([keys]); one overload
    must match (the catch-all of 272-280 does not compile). *)
Section GetByType.
Variable keys : E -> list T.
Definition answers (k : T) (e : E) : bool := existsb (same k) (ty e :: keys e).
Definition get_by (t : list E) (k : T) : option E :=
  match List.filter (answers k) t with [e] => Some e | _ => None end.
(** tuple_algorithms.hpp:317-326, 344-346. *)
Definition contains_type (t : list E) (k : T) : bool :=
  existsb (fun e => existsb (same k) (keys e)) t || existsb (fun e => same k (ty e)) t.
End GetByType.

(** test_pair_t: tuple_algorithms.hpp:360-365; [proj] is the type function Proj. *)
Variable proj : T -> T.
Definition test_pair (t : list E) (i j : nat) : option bool :=
  x <- get t i;; y <- get t j;; Some (same (proj (ty x)) (proj (ty y))).

(** struct chunk: tuple_algorithms.hpp:379-384. *)
Record chunk := Chunk { offset : nat; size : nat }.
(** ++cs[index].size *)
Definition bump (cs : list chunk) (k : nat) : option (list chunk) :=
  c <- nth_error cs k;; arr_put cs k (Chunk (offset c) (S (size c))).
(** cs[index].offset = o *)
Definition set_offset (cs : list chunk) (k o : nat) : option (list chunk) :=
  c <- nth_error cs k;; arr_put cs k (Chunk o (size c)).
(** tuple_algorithms.hpp:393-403, 520-525: position [i], the current chunk [k], the remaining
    tests. *)
Fixpoint mark (cs : list chunk) (k i : nat) (tests : list bool) : option (list chunk) :=
  match tests with
  | [] => Some cs
  | b :: r =>
      if b then cs1 <- bump cs k;; mark cs1 k (S i) r
      else cs1 <- set_offset cs (S k) (i + 1);; cs2 <- bump cs1 (S k);; mark cs2 (S k) (S i) r
  end.
(** The tests between neighbours. *)
Definition neighbour_tests (t : list E) : option (list bool) :=
  pack (tuple_size t - 1) (fun i => test_pair t i (i + 1)).
(** tuple_algorithms.hpp:367-377. *)
Definition count_chunks (tests : list bool) : nat :=
  List.fold_left (fun n (b : bool) => n + (if b then 0 else 1)) tests 1.
(** tuple_algorithms.hpp:386-405. *)
Definition create_chunks (tests : list bool) : option (list chunk) :=
  cs <- bump (repeat (Chunk 0 0) (count_chunks tests)) 0;; mark cs 0 0 tests.
(** tuple_algorithms.hpp:408-428. *)
Definition chunk_by (t : list E) : option (list (list E)) :=
  match tuple_size t with
  | 0 => Some []
  | 1 => Some [t]
  | _ =>
      tests <- neighbour_tests t;; cs <- create_chunks tests;;
      pack (length cs) (fun i => c <- nth_error cs i;; pack (size c) (fun j => get t (offset c + j)))
  end.

(** std::sort on (name, index) pairs: some function of the array; see the specification for
    what the standard promises. *)
Variable name : T -> list N.                 (* type_as_string *)
Variable std_sort : list (list N * nat) -> list (list N * nat).
(** tuple_algorithms.hpp:328-341. *)
Definition sorted_indices (t : list E) : option (list nat) :=
  a <- pack (tuple_size t) (fun i => e <- get t i;; Some (name (proj (ty e)), i));;
  let b := std_sort a in
  pack (tuple_size t) (fun i => p <- nth_error b i;; Some (snd p)).
(** tuple_algorithms.hpp:348-357. *)
Definition sort (t : list E) : option (list E) :=
  idx <- sorted_indices t;;
  pack (tuple_size t) (fun i => j <- nth_error idx i;; get t j).
(** tuple_algorithms.hpp:496-539. *)
Definition gather_by (t : list E) : option (list (list E)) :=
  match tuple_size t with
  | 0 => Some []
  | 1 => Some [t]
  | _ =>
      idx <- sorted_indices t;;
      tests <- pack (tuple_size t - 1) (fun i => x <- nth_error idx i;; y <- nth_error idx (i + 1);; test_pair t x y);;
      let chunk_count := count_occ Bool.bool_dec tests false + 1 in
      cs0 <- bump (repeat (Chunk 0 0) chunk_count) 0;; cs <- mark cs0 0 0 tests;;
      pack (length cs) (fun i => c <- nth_error cs i;;
        pack (size c) (fun j => x <- nth_error idx (offset c + j);; get t x))
  end.
End Typed.

Section Sets.
Context {E T : Type}.
Variable ty : E -> T.
Variable same : T -> T -> bool.
(** chunk (tuple_algorithms.hpp:430-432) is chunk_by with Proj = type_identity_t. *)
(** tuple_algorithms.hpp:476-481. *)
Definition unique (t : list E) : option (list E) :=
  cs <- chunk_by ty same (fun x => x) t;; mapo (fun c => get c 0) cs.
(** tuple_algorithms.hpp:483-485. *)
Definition to_sorted_set (name : T -> list N) (std_sort : list (list N * nat) -> list (list N * nat)) (t : list E) : option (list E) :=
  s <- sort ty (fun x => x) name std_sort t;; unique s.
(** mp_unique: the list of types, each the first time it occurs. *)
Definition mp_unique (l : list T) : list T :=
  List.fold_left (fun acc x => if existsb (same x) acc then acc else acc ++ [x]) l [].
(** mp_find: the index of the first occurrence, or the size. *)
Fixpoint mp_find (l : list T) (x : T) : nat :=
  match l with [] => 0 | y :: r => if same y x then 0 else S (mp_find r x) end.
(** tuple_algorithms.hpp:487-494. *)
Definition to_unsorted_set (t : list E) : option (list E) :=
  let ts := map ty t in
  let u := mp_unique ts in
  pack (length u) (fun i => x <- nth_error u i;; get t (mp_find ts x)).
End Sets.

(** tuple_algorithms.hpp:434-474: both versions; they differ in copying or referring to the
    elements. *)
Fixpoint cartesian_product {E} (ts : list (list E)) : option (list (list E)) :=
  match ts with
  | [] => Some [[]]
  | first :: rest =>
      c <- cartesian_product rest;;
      let prepend e := x <- apply1 (fun subs => mapo (fun s => tuple_cat [[e]; s]) subs) c;; x in
      r <- apply1 (fun elems => ps <- mapo prepend elems;; tuple_cat ps) first;; r
  end.

(** ** Comparison *)
Section Compare.
Context {E E' : Type}.
Variable eqv : E -> E' -> bool.                       (* == on elements *)
Variable cmp : E -> E' -> option comparison.          (* <=> on elements; [None]: unordered *)
(** tuple.hpp:366-391: the pack of the right operand has the same indices; [None]: the operator is not
    viable (overload resolution is in CompareModel). *)
Definition tuple_eq (l : list E) (r : list E') : option bool :=
  if tuple_size l =? tuple_size r then
    bs <- pack (tuple_size l) (fun i => x <- get l i;; y <- get r i;; Some (eqv x y));;
    Some (List.fold_left andb bs true)
  else None.
(** tuple.hpp:404-413: [(compare_at<Is>() or ...)] is a right fold but [or] evaluates its left
    operand first; the result variable holds the last comparison made. *)
Definition nonzero (c : option comparison) : bool := match c with Some Eq => false | _ => true end.
Fixpoint compare_from (result : option comparison) (rows : list (E * E')) : option comparison :=
  match rows with
  | [] => result
  | (x, y) :: r => let result' := cmp x y in if nonzero result' then result' else compare_from result' r
  end.
(** tuple.hpp:393-415. *)
Definition tuple_cmp (l : list E) (r : list E') : option (option comparison) :=
  if tuple_size l =? tuple_size r then
    if tuple_size l =? 0 then Some (Some Eq)
    else
      x0 <- get l 0;; y0 <- get r 0;;
      rows <- pack (tuple_size l) (fun i => x <- get l i;; y <- get r i;; Some (x, y));;
      Some (compare_from (cmp x0 y0) rows)
  else None.
(** one_of: tuple.hpp:524-532. *)
Definition one_of_eq (t : list E) (rhs : E') : option bool :=
  apply1 (fun args => List.fold_right orb false (map (fun a => eqv a rhs) args)) t.
End Compare.
