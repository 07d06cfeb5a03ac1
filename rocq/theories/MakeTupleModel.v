(** Model of the ways to make a tuple (include/stdx/tuple.hpp): tuple{...}, make_tuple, make_indexed_tuple,
    forward_as_tuple, and the tuple of one run-time argument in ct_format.hpp.
    Simplification: no type converts to any type it is asked for (such a type would be converted to the
    tuple's base class). *)
From Verif Require Import Base.
Open Scope ub_scope.

(** Types without references; [Const] only where it matters, in elements of arrays and targets of pointers. *)
Inductive ty :=
| Object (n : nat)
| Array (of : ty) (const : bool) (n : nat)
| Function (n : nat)
| Pointer (to : ty) (const : bool)
| Tuple (elements : list ty)
| Indexed (index_functions : list nat) (elements : list ty).

(** An argument: the type of the expression and whether it is const and an lvalue. *)
Record argument := { a_type : ty; a_const : bool; a_lvalue : bool }.

(** What an element is initialized from: a copy of an argument, what is moved out of it, its address (the
    decayed array or function), the argument itself (a reference), or part [j] of an argument. *)
Inductive origin := Copy (i : nat) | Move (i : nat) | Address (i : nat) | Reference (i : nat) | CopyPart (i j : nat) | MovePart (i j : nat).
Record element := { e_type : ty; e_from : origin }.

(** std::decay_t; also the type of a parameter passed by value. *)
Definition decay (a : argument) : ty :=
  match a_type a with
  | Array t c _ => Pointer t c
  | Function n => Pointer (Function n) false
  | t => t
  end.
(** Initializing an object of type [t] from argument [i], forwarded; [None]: does not compile. *)
Definition init (t : ty) (i : nat) (a : argument) : option element :=
  match t, a_type a with
  | Pointer _ _, Array _ _ _ => Some {| e_type := t; e_from := Address i |}
  | Pointer _ _, Function _ => Some {| e_type := t; e_from := Address i |}
  | _, Array _ _ _ => None
  | _, Function _ => None
  | _, _ => Some {| e_type := t; e_from := if a_lvalue a || a_const a then Copy i else Move i |}
  end.
Fixpoint init_all (ts : list ty) (i : nat) (args : list argument) : option (list element) :=
  match ts, args with
  | [], [] => Some []
  | t :: ts, a :: args => e <- init t i a;; r <- init_all ts (S i) args;; Some (e :: r)
  | _, _ => None
  end.

(** Class template argument deduction for tuple{args...} [over.match.class.deduct].  The candidates are the
    guide of tuple.hpp:452, [tuple(Ts...) -> tuple<Ts...>], and the copy deduction candidate
    [tuple(tuple<Ts...>) -> tuple<Ts...>]: the types each deduces for Ts, if it is viable. *)
Definition guide (args : list argument) : option (list ty) := Some (map decay args).
Definition copy_candidate (args : list argument) : option (list ty) :=
  match args with [a] => match a_type a with Tuple ts => Some ts | _ => None end | _ => None end.
(** Both take their arguments by value; the copy deduction candidate is the more specialized. *)
Definition deduce (args : list argument) : option (list ty) :=
  match copy_candidate args with Some ts => Some ts | None => guide args end.
(** Initialization of the deduced tuple<ts...>: from an object of the same type it is a copy or a move of
    that; otherwise each element from its argument [dcl.init.list], with the braces of the bases elided. *)
Fixpoint ty_eqb (t u : ty) : bool :=
  let list_eqb := fix go l m := match l, m with [], [] => true | t :: l, u :: m => ty_eqb t u && go l m | _, _ => false end in
  match t, u with
  | Object n, Object m => n =? m
  | Array t c n, Array u d m => ty_eqb t u && Bool.eqb c d && (n =? m)
  | Function n, Function m => n =? m
  | Pointer t c, Pointer u d => ty_eqb t u && Bool.eqb c d
  | Tuple ts, Tuple us => list_eqb ts us
  | Indexed fs ts, Indexed gs us => (if list_eq_dec Nat.eq_dec fs gs then true else false) && list_eqb ts us
  | _, _ => false
  end%nat.
Definition parts (ts : list ty) (a : argument) : list element :=
  map (fun jt => {| e_type := snd jt; e_from := if a_lvalue a || a_const a then CopyPart 0 (fst jt) else MovePart 0 (fst jt) |}) (combine (seq 0 (length ts)) ts).
Definition list_initialize (ts : list ty) (args : list argument) : option (list element) :=
  match args with
  | [a] => if ty_eqb (a_type a) (Tuple ts) then Some (parts ts a) else init_all ts 0 args
  | _ => init_all ts 0 args
  end.
(** tuple.hpp:440-452: [tuple{args...}]. *)
Definition tuple_braces (args : list argument) : option (list element) := ts <- deduce args;; list_initialize ts args.
(** tuple.hpp:473-475: the types are given. *)
Definition make_tuple (args : list argument) : option (list element) := list_initialize (map decay args) args.
(** tuple.hpp:477-481: std::remove_cvref_t; the result is an indexed_tuple, so no argument has the type of
    the result unless it has the same index functions and elements. *)
Definition make_indexed_tuple (fs : list nat) (args : list argument) : option (list element) :=
  let ts := map a_type args in
  match args with
  | [a] => if ty_eqb (a_type a) (Indexed fs ts) then Some (parts ts a) else init_all ts 0 args
  | _ => init_all ts 0 args
  end.
(** tuple.hpp:493-495. *)
Definition forward_as_tuple (args : list argument) : option (list element) :=
  Some (map (fun ia => {| e_type := a_type (snd ia); e_from := Reference (fst ia) |}) (combine (seq 0 (length args)) args)).

(** ct_format.hpp:333-334, 365-369: a run-time argument, taken by value as [arg], becomes the arguments of
    the result by [tuple{std::move(arg)}]. *)
Definition format_arguments (a : argument) : option (list element) :=
  tuple_braces [{| a_type := decay a; a_const := false; a_lvalue := false |}].
