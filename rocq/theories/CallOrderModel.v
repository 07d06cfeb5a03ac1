(** Model of the calls the tuple algorithms of include/stdx/tuple.hpp, tuple_algorithms.hpp and
    type_traits.hpp make: their order, and the operators of the results' own types that the fold
    expressions use.

    Functions work on a world [W].  [None]: does not compile. *)
From Verif Require Import Base TupleModel MoveModel.
Open Scope ub_scope.

(** ** transform with index functions
    tuple_algorithms.hpp:194-198, tuple.hpp:509-513: the calls are arguments of make_indexed_tuple, so
    they are made in any order; [order n]: the one for n arguments. *)
Definition scattered {W X R} (order : nat -> list nat) (f : W -> X -> W * R) (w : W) (xs : list X) : option (W * list R) :=
  let is := order (length xs) in
  args <- mapo (nth_error xs) is;;
  let (w', rs) := effects f w args in
  zs <- mapo (fun i => assoc i (combine is rs)) (seq 0 (length xs));; Some (w', zs).
Definition transform_indexed {W E R} (order : nat -> list nat) (op : W -> list E -> W * R) (w : W) (ts : list (list E)) : option (W * list R) :=
  rows <- pack (zip_length ts) (args_at ts);; scattered order op w rows.

(** ** Fold expressions over calls
    Results are values of some type; [over t u] is the operator for a left operand of type [t] and a
    right one of type [u], if there is one other than the built-in. *)
Section Folds.
Context {W X V T : Type}.
Variable type : V -> T.
Variable f : W -> X -> W * V.
Variable over : T -> T -> option (W -> V -> V -> W * V).
(** (f(xs), ...): tuple_algorithms.hpp:206, 236, tuple.hpp:519, type_traits.hpp:127, 133, 139.  The
    left operand is evaluated first, also if the operator is overloaded [over.match.oper]. *)
Fixpoint comma_fold (w : W) (x : X) (xs : list X) : W * V :=
  match xs with
  | [] => f w x
  | y :: xs =>
      let (w1, a) := f w x in
      let (w2, b) := comma_fold w1 y xs in
      match over (type a) (type b) with
      | Some g => g w2 a b
      | None => (w2, b)
      end
  end.
Definition for_each_calls (w : W) (xs : list X) : W := match xs with [] => w | x :: xs => fst (comma_fold w x xs) end.

(** (... and f(xs)), (... or f(xs)): [result_type x] is the type of f(x), [to_bool] the conversion of a
    result and [of_bool] a bool.  [stop]: false for and, true for or. *)
Variable result_type : X -> T.
Variable to_bool : V -> bool.
Variable of_bool : bool -> V.
Variable stop : bool.
Fixpoint logical_fold (w : W) (acc : V) (xs : list X) : W * V :=
  match xs with
  | [] => (w, acc)
  | x :: xs =>
      match over (type acc) (result_type x) with
      | Some g => let (w1, b) := f w x in let (w2, c) := g w1 acc b in logical_fold w2 c xs
      | None =>
          if Bool.eqb (to_bool acc) stop then logical_fold w (of_bool stop) xs
          else let (w1, b) := f w x in logical_fold w1 (of_bool (to_bool b)) xs
      end
  end.
(** tuple_algorithms.hpp:258-264, 280-286. *)
Definition all_or_any (w : W) (xs : list X) : W * bool :=
  match xs with
  | [] => (w, negb stop)
  | x :: xs => let (w1, a) := f w x in let (w2, b) := logical_fold w1 a xs in (w2, to_bool b)
  end.
End Folds.
Definition tuple_for_each {W E V T} (type : V -> T) (over : T -> T -> option (W -> V -> V -> W * V)) (op : W -> list E -> W * V) (w : W) (ts : list (list E)) : option W :=
  rows <- pack (zip_length ts) (args_at ts);; Some (for_each_calls type op over w rows).
Definition tuple_all_any {W E V T} (type : V -> T) (over : T -> T -> option (W -> V -> V -> W * V)) (result_type : list E -> T) (to_bool : V -> bool) (of_bool : bool -> V)
  (stop : bool) (op : W -> list E -> W * V) (w : W) (ts : list (list E)) : option (W * bool) :=
  rows <- pack (zip_length ts) (args_at ts);; Some (all_or_any type op over result_type to_bool of_bool stop w rows).

(** ** operator<=>
    tuple.hpp:393-415: the first elements are compared to initialize the result, and again by
    compare_at<0>. *)
Section Compare.
Context {W E E' : Type}.
Variable cmp : W -> E -> E' -> W * option comparison.
Fixpoint compare_from (w : W) (result : option comparison) (rows : list (E * E')) : W * option comparison :=
  match rows with
  | [] => (w, result)
  | (x, y) :: r => let (w', c) := cmp w x y in if nonzero c then (w', c) else compare_from w' c r
  end.
Definition tuple_compare (w : W) (l : list E) (r : list E') : option (W * option comparison) :=
  if tuple_size l =? tuple_size r then
    if tuple_size l =? 0 then Some (w, Some Eq)
    else
      x0 <- get l 0;; y0 <- get r 0;;
      rows <- pack (tuple_size l) (fun i => x <- get l i;; y <- get r i;; Some (x, y));;
      let (w', c) := cmp w x0 y0 in Some (compare_from w' c rows)
  else None.
End Compare.
