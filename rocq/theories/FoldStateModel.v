(** Model of what the folds over tuples do with the function object they are given:
    include/stdx/tuple.hpp.

    The function object has contents [S], which a call may change, and works on a world [W] (what it
    refers to or captures by reference).  Copying it gives an object with the same contents; the
    copies are counted.  [None]: does not compile. *)
From Verif Require Import Base.
From Verif Require TupleModel.
Open Scope ub_scope.

Section Folds.
Context {S W V : Type}.
(** A call of an object with the given contents: what it then holds, the world, the result. *)
Variable op : S -> W -> V -> V -> S * W * V.
(** Whether the type of the function object can be copied from an lvalue. *)
Variable copyable : bool.

(** fold_helper and join_helper: tuple.hpp:114-116, 140-145. *)
Record helper := Helper { hop : S; hvalue : V }.
(** What there is while the fold is evaluated. *)
Record state := State { world : W; copies : nat; current : helper }.

(** A copy of an object with contents [s]. *)
Definition copy (s : S) : option S := if copyable then Some s else None.

(** tuple.hpp:119-126, and tuple.hpp:149-155 for join: the members of the braced list are initialized from
    first to last, so [lhs.op] is copied before it is called; [lhs] is a temporary. *)
Definition plus_left (x : state) (rhs : V) : option state :=
  let lhs := current x in
  c <- copy (hop lhs);;
  let '(_, w', v) := op (hop lhs) (world x) (hvalue lhs) rhs in
  Some (State w' (copies x + 1) (Helper c v)).
(** tuple.hpp:128-135. *)
Definition plus_right (lhs : V) (x : state) : option state :=
  let rhs := current x in
  c <- copy (hop rhs);;
  let '(_, w', v) := op (hop rhs) (world x) lhs (hvalue rhs) in
  Some (State w' (copies x + 1) (Helper c v)).

(** [(helper + ... + pack)] and [(pack + ... + helper)]. *)
Fixpoint fold_expr_l (x : state) (l : list V) : option state :=
  match l with [] => Some x | e :: r => y <- plus_left x e;; fold_expr_l y r end.
Fixpoint fold_expr_r (l : list V) (x : state) : option state :=
  match l with [] => Some x | e :: r => y <- fold_expr_r r x;; plus_right e y end.

(** What the caller has afterwards: the world, the result, its function object, and how often it was
    copied. *)
Record outcome := Outcome { o_world : W; o_value : V; o_object : S; o_copies : nat }.
Definition finish (s : S) (x : state) : outcome := Outcome (world x) (hvalue (current x)) s (copies x).

(** tuple.hpp:198-210: [fold_helper{op, init}] with op an lvalue. *)
Definition fold_left (s : S) (w : W) (t : list V) (init : V) : option outcome :=
  vs <- TupleModel.pack (TupleModel.tuple_size t) (TupleModel.get t);;
  c <- copy s;; x <- fold_expr_l (State w 1 (Helper c init)) vs;; Some (finish s x).
(** tuple.hpp:212-224. *)
Definition fold_right (s : S) (w : W) (t : list V) (init : V) : option outcome :=
  vs <- TupleModel.pack (TupleModel.tuple_size t) (TupleModel.get t);;
  c <- copy s;; x <- fold_expr_r vs (State w 1 (Helper c init));; Some (finish s x).
(** tuple.hpp:304-317: every element gets a join_helper with its own copy of op; operator+ calls that
    of its left operand.  When the others are made is not specified, and not observable here. *)
Definition join (s : S) (w : W) (t : list V) : option outcome :=
  vs <- TupleModel.pack (TupleModel.tuple_size t) (TupleModel.get t);;
  match vs with
  | [] => None
  | e :: r => c <- copy s;; x <- fold_expr_l (State w (length vs) (Helper c e)) r;; Some (finish s x)
  end.
(** tuple.hpp:319-334. *)
Definition join_init (s : S) (w : W) (t : list V) (init : V) : option outcome :=
  if TupleModel.tuple_size t =? 0 then Some (Outcome w init s 0) else join s w t.
End Folds.
