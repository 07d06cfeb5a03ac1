(** Model of cts_t and of the operators that combine it with ct_string
    (include/stdx/ct_string.hpp:139-182).  Everything is a constant expression; a program that does not
    compile is [None]. *)
From Verif Require Import Base CtStringModel.
Open Scope ub_scope.
Open Scope N_scope.

(** A ct_string object, or an object of the type cts_t<s>, which has no state of its own. *)
Inductive operand := Value (s : cts) | Typed (s : cts).

(** ct_string.hpp:139-147: unary + is a friend of cts_t; ct_string has none. *)
Definition unary_plus (o : operand) : option operand := match o with Typed s (* :144 *) => Some (Value s) | Value _ => None end.
(** ct_string.hpp:145: operator(); ct_string has none. *)
Definition call (o : operand) : option operand := match o with Typed s => Some (Value s) | Value _ => None end.
(** ct_string.hpp:38-39, 77-78: ct_string{o}, its size deduced; from a cts_t by +t, from a ct_string a copy. *)
Definition to_string (o : operand) : option operand := match o with Typed _ => unary_plus o | Value s => Some (Value s) end.
(** ct_string.hpp:38-39: ct_string<n>(t) for a given n: initialises a ct_string<n> from the ct_string that
    +t is, which has to have the same size. *)
Definition to_sized (n : N) (o : operand) : option operand :=
  match o with Typed s => if len s =? n then Some (Value s) else None | Value s => if len s =? n then Some (Value s) else None end.
(** ct_string.hpp:172: ct<o>(); the template argument is converted as by ct_string{o}. *)
Definition ct (o : operand) : option operand := match to_string o with Some (Value s) => Some (Typed s) | _ => None end.
(** ct_string.hpp:146, 67: size(), of either. *)
Definition size_of (o : operand) : N := match o with Value s => size s | Typed s => size s end.

(** Binary +.  No operand is converted to deduce N or S, so the operators do not compete. *)
Definition plus (a b : operand) : option operand :=
  match a, b with
  | Value x, Value y (* :123-137 *) => s <- concat x y;; Some (Value s)
  | Typed x, Typed y (* :154-157 *) => s <- concat x y;; Some (Typed s)
  | Value x, Typed _ (* :159-162 *) => r <- unary_plus b;; match r with Value y => s <- concat x y;; Some (Value s) | Typed _ => None end
  | Typed _, Value y (* :164-167 *) => l <- unary_plus a;; match l with Value x => s <- concat x y;; Some (Value s) | Typed _ => None end
  end.
(** Binary ==: ct_string.hpp:80-85 and 149-152; neither takes one of each. *)
Definition equals (a b : operand) : option bool :=
  match a, b with
  | Value x, Value y => Some (equal x y)
  | Typed x, Typed y => Some (equal x y)
  | _, _ => None
  end.
(** cts_t<x> and cts_t<y> are the same type if the template arguments are equivalent: the arrays have the
    same size and the same elements [temp.type]. *)
Fixpoint same_array (x y : list chr) : bool :=
  match x, y with
  | [], [] => true
  | c :: x', d :: y' => (c =? d) && same_array x' y'
  | _, _ => false
  end.
Definition same_type (a b : operand) : bool :=
  match a, b with
  | Value x, Value y => len x =? len y        (* ct_string<N> *)
  | Typed x, Typed y => same_array x y
  | _, _ => false
  end.

(** Expressions over string constants. *)
Inductive expr :=
| Leaf (o : operand)
| Plus (a b : expr)
| Unwrap (a : expr)       (* +a *)
| Called (a : expr)       (* a() *)
| Stringed (a : expr)     (* ct_string{a} *)
| Wrapped (a : expr).     (* ct<a>() *)
Fixpoint eval (e : expr) : option operand :=
  match e with
  | Leaf o => Some o
  | Plus a b => x <- eval a;; y <- eval b;; plus x y
  | Unwrap a => x <- eval a;; unary_plus x
  | Called a => x <- eval a;; call x
  | Stringed a => x <- eval a;; to_string x
  | Wrapped a => x <- eval a;; ct x
  end.
