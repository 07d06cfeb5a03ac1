(** Copies and moves in include/stdx/tuple.hpp, tuple_algorithms.hpp, call_by_need.hpp and
    for_each_n_args.hpp.

    TupleModel, CallByNeedModel and ArgsModel hold for elements of any kind.  Here the elements are
    the expressions [get<I>(std::forward<T>(t))]: references to objects in a store, with the value
    category that get gives them (the types are those of C66).  What a tuple algorithm makes of such
    expressions are the initializers of the new tuple, or the arguments of a call. *)
From Verif Require Import Base TupleModel CallByNeedModel ArgsModel.
Open Scope ub_scope.

(** The contents of an object: a value, or whatever a move has left behind. *)
Inductive cell (V : Type) := Value (v : V) | Gone.
Arguments Value {V} _.
Arguments Gone {V}.
Definition store (V : Type) := list (cell V).
Definition look {V} (m : store V) (l : nat) : cell V := nth l m Gone.

(** A const rvalue is copied like a const lvalue. *)
Inductive category := ConstLvalue | Lvalue | Rvalue.
Record ref (T : Type) := Ref { cat : category; loc : nat; of_type : T }.
Arguments Ref {T} _ _ _.
Arguments cat {T} _.
Arguments loc {T} _.
Arguments of_type {T} _.

(** std::forward<T>(t)[index<I>] for all I: tuple.hpp:226-270.  A tuple is where its elements are,
    with their types. *)
Definition elements {T} (c : category) (t : list (nat * T)) : list (ref T) := map (fun e => Ref c (fst e) (snd e)) t.

Section Moves.
Context {V T : Type}.
Notation store := (store V).

(** Initializing a new object from an expression: a move for an rvalue, a copy otherwise.  (For types
    whose move constructor copies, nothing is [Gone].) *)
Definition initialize (m : store) (r : ref T) : store * cell V :=
  match cat r with
  | Rvalue => (set_nth (loc r) Gone m, look m (loc r))
  | _ => (m, look m (loc r))
  end.
(** A braced initializer: left to right. *)
Definition build (m : store) (rs : list (ref T)) : store * list (cell V) := effects initialize m rs.

(** Arguments of a function call are evaluated in an unspecified order: [order n] is the one for [n]
    arguments. *)
Section Unordered.
Variable order : nat -> list nat.
Fixpoint assoc {Y} (k : nat) (l : list (nat * Y)) : option Y :=
  match l with [] => None | (i, y) :: r => if i =? k then Some y else assoc k r end.
Definition unordered {X Y} (f : store -> X -> store * Y) (m : store) (xs : list X) : option (store * list Y) :=
  let is := order (length xs) in
  args <- mapo (nth_error xs) is;;
  let (m', ys) := effects f m args in
  zs <- mapo (fun i => assoc i (combine is ys)) (seq 0 (length xs));; Some (m', zs).

(** ** Algorithms that make new tuples *)
(** tuple_algorithms.hpp:65-98.  (For one tuple, [return (ts, ...)] moves an rvalue parameter.) *)
Definition tuple_cat_m (m : store) (ts : list (list (ref T))) : option (store * list (cell V)) :=
  rs <- tuple_cat ts;; Some (build m rs).
(** tuple_algorithms.hpp:100-134. *)
Definition tuple_cons_m (m : store) (e : ref T) (t : list (ref T)) : option (store * list (cell V)) :=
  rs <- tuple_cons e t;; Some (build m rs).
Definition tuple_snoc_m (m : store) (t : list (ref T)) (e : ref T) : option (store * list (cell V)) :=
  rs <- tuple_snoc t e;; Some (build m rs).
(** tuple.hpp:340-364. *)
Definition tail_m (m : store) (t : list (ref T)) : option (store * list (cell V)) :=
  rs <- tail t;; Some (build m rs).
(** make_tuple, apply_indices: tuple.hpp:473-475, 483-491. *)
Definition make_tuple_m (m : store) (t : list (ref T)) : option (store * list (cell V)) :=
  rs <- pack (tuple_size t) (get t);; Some (build m rs).
(** tuple_algorithms.hpp:136-166. *)
Definition filter_m (pred : T -> bool) (m : store) (t : list (ref T)) : option (store * list (cell V)) :=
  rs <- filter of_type pred t;; Some (build m rs).
(** tuple_algorithms.hpp:348-357. *)
Definition sort_m (proj : T -> T) (name : T -> list N) (std_sort : list (list N * nat) -> list (list N * nat)) (m : store) (t : list (ref T)) : option (store * list (cell V)) :=
  rs <- sort of_type proj name std_sort t;; Some (build m rs).
(** tuple_algorithms.hpp:408-428: each chunk is an argument of make_tuple (which moves it once more,
    out of a temporary). *)
Definition chunk_by_m (same : T -> T -> bool) (proj : T -> T) (m : store) (t : list (ref T)) : option (store * list (list (cell V))) :=
  cs <- chunk_by of_type same proj t;; unordered build m cs.
(** tuple_algorithms.hpp:496-539. *)
Definition gather_by_m (same : T -> T -> bool) (proj : T -> T) (name : T -> list N) (std_sort : list (list N * nat) -> list (list N * nat)) (m : store) (t : list (ref T)) : option (store * list (list (cell V))) :=
  cs <- gather_by of_type same proj name std_sort t;; unordered build m cs.
(** tuple_algorithms.hpp:487-494. *)
Definition to_unsorted_set_m (same : T -> T -> bool) (m : store) (t : list (ref T)) : option (store * list (cell V)) :=
  rs <- to_unsorted_set of_type same t;; Some (build m rs).
(** A temporary tuple: its objects come after the others; they are gone at the end of the
    expression. *)
Definition temporary (m : store) (cells : list (cell V)) (types : list T) : store * list (ref T) :=
  (m ++ cells, elements Rvalue (combine (seq (length m) (length cells)) types)).
Fixpoint temporaries (m : store) (groups : list (list (cell V))) (types : list (list T)) : store * list (list (ref T)) :=
  match groups, types with
  | g :: gs, ts :: tss => let (m1, r) := temporary m g ts in let (m2, rs) := temporaries m1 gs tss in (m2, r :: rs)
  | _, _ => (m, [])
  end.
(** tuple_algorithms.hpp:476-481: the chunks are a temporary, and get<0> of each is an rvalue. *)
Definition unique_m (same : T -> T -> bool) (m : store) (t : list (ref T)) : option (store * list (cell V)) :=
  cs <- chunk_by of_type same (fun x => x) t;;
  x <- unordered build m cs;;
  let (m1, us) := temporaries (fst x) (snd x) (map (map of_type) cs) in
  firsts <- apply1 (fun us => mapo (fun u => get u 0) us) us;; rs <- firsts;;
  let (m2, r) := build m1 rs in Some (firstn (length m) m2, r).
(** tuple_algorithms.hpp:483-485. *)
Definition to_sorted_set_m (same : T -> T -> bool) (name : T -> list N) (std_sort : list (list N * nat) -> list (list N * nat)) (m : store) (t : list (ref T)) : option (store * list (cell V)) :=
  s <- sort of_type (fun x => x) name std_sort t;;
  let (m1, cells) := build m s in
  let (m2, s') := temporary m1 cells (map of_type s) in
  y <- unique_m same m2 s';; Some (firstn (length m) (fst y), snd y).

(** tuple_algorithms.hpp:434-453.  The product of the other tuples is a const object, of which the
    elements are copied; each [tuple_cat(make_tuple(std::forward<E>(e)), subs)] is an argument of
    make_tuple, and each [prepend(...)] one of tuple_cat. *)
Definition prepend (m : store) (e : ref T) (c : list (list (cell V))) : option (store * list (list (cell V))) :=
  unordered (fun m sub => let (m', x) := initialize m e in (m', x :: sub)) m c.
Fixpoint effects_o {X Y} (f : store -> X -> option (store * Y)) (m : store) (l : list X) : option (store * list Y) :=
  match l with
  | [] => Some (m, [])
  | x :: r => a <- f m x;; b <- effects_o f (fst a) r;; Some (fst b, snd a :: snd b)
  end.
Definition unordered_o {X Y} (f : store -> X -> option (store * Y)) (m : store) (xs : list X) : option (store * list Y) :=
  let is := order (length xs) in
  args <- mapo (nth_error xs) is;;
  x <- effects_o f m args;;
  zs <- mapo (fun i => assoc i (combine is (snd x))) (seq 0 (length xs));; Some (fst x, zs).
Fixpoint cartesian_product_copy_m (m : store) (ts : list (list (ref T))) : option (store * list (list (cell V))) :=
  match ts with
  | [] => Some (m, [[]])
  | first :: rest =>
      c <- cartesian_product_copy_m m rest;;
      rows <- unordered_o (fun m e => prepend m e (snd c)) (fst c) first;;
      all <- tuple_cat (snd rows);; Some (fst rows, all)
  end.
End Unordered.

(** ** Functions given by the user *)
Section Calls.
Context {W R : Type}.
(** A function sees its arguments, and may change them: it answers with a result and with what it
    leaves in each of them. *)
Definition user := W -> list (category * cell V) -> W * R * list (cell V).
Definition seen (m : store) (r : ref T) : category * cell V := (cat r, look m (loc r)).
(** It cannot change a const object. *)
Definition write (m : store) (r : ref T) (x : cell V) : store :=
  match cat r with ConstLvalue => m | _ => set_nth (loc r) x m end.
Definition write_all (m : store) (rs : list (ref T)) (xs : list (cell V)) : store :=
  List.fold_left (fun m rx => write m (fst rx) (snd rx)) (combine rs xs) m.
(** The call f(refs...): transform, for_each, all_of, any_of, none_of and apply of TupleModel and
    for_each_n_args of ArgsModel with this as the function are those algorithms on references. *)
Definition call (f : user) (s : W * store) (rs : list (ref T)) : (W * store) * R :=
  let '(w, r, xs) := f (fst s) (map (seen (snd s)) rs) in ((w, write_all (snd s) rs xs), r).
End Calls.
Arguments user : clear implicits.

(** fold_left and fold_right: the accumulator is a value, the elements are references
    (tuple.hpp:114-138, 198-224). *)
Inductive operand (A : Type) := Acc (a : A) | Elem (r : ref T).
Arguments Acc {A} _.
Arguments Elem {A} _.
Section Folding.
Context {W A : Type}.
Variable op : W -> A -> category * cell V -> W * A * cell V.
Definition fold_op (s : W * store) (x y : operand A) : (W * store) * operand A :=
  match x, y with
  | Acc a, Elem r | Elem r, Acc a =>
      let '(w, a', x') := op (fst s) a (seen (snd s) r) in ((w, write (snd s) r x'), Acc a')
  | _, _ => (s, x)
  end.
Definition fold_left_m (s : W * store) (t : list (ref T)) (init : A) : option ((W * store) * operand A) :=
  fold_left fold_op s (map Elem t) (Acc init).
Definition fold_right_m (s : W * store) (t : list (ref T)) (init : A) : option ((W * store) * operand A) :=
  fold_right fold_op s (map Elem t) (Acc init).
End Folding.

(** ** call_by_need *)
(** call_by_need.hpp:49-63, 150-177: [get<Base + Is>(std::forward<Args>(args))...] for every function;
    what no function takes is moved or referred to at the end. *)
Section Need.
Context {F W : Type}.
Variable ok : F -> list (category * T) -> bool.
Variable run : F -> user W (option (cell V)).
Definition need_run (s : W * store) (f : F) (xs : list (operand (cell V))) : (W * store) * option (operand (cell V)) :=
  let rs := flat_map (fun x => match x with Elem r => [r] | Acc _ => [] end) xs in
  let (s', r) := call (run f) s rs in (s', match r with Some x => Some (Acc x) | None => None end).
Definition need_ok (f : F) (xs : list (operand (cell V))) : bool :=
  ok f (flat_map (fun x => match x with Elem r => [(cat r, of_type r)] | Acc _ => [] end) xs).
Definition call_by_need_m (fs : list F) (args : list (ref T)) (s : W * store) : option ((W * store) * list (option (operand (cell V)))) :=
  call_by_need need_ok need_run fs (map Elem args) false s.
End Need.
End Moves.
Arguments Acc {T A} _.
Arguments Elem {T A} _.
Arguments user : clear implicits.
