(** Model of the concepts that stdx defines itself where the standard library has none
    (include/stdx/concepts.hpp:11-87), and of those it has in any case (118-127).

    A program's types are numbers.  What the compiler knows of them is given by [facts]: the type traits
    and the types of the expressions that the concepts ask for ([None]: not well-formed). *)
From Verif Require Import Base.

Definition type := nat.
Inductive comparison_op := Eq | Ne | Lt | Le | Gt | Ge.
Record facts := {
  bool_t : type;
  is_floating_point : type -> bool;
  is_integral : type -> bool;
  is_signed : type -> bool;
  is_unsigned : type -> bool;
  is_same : type -> type -> bool;
  is_convertible : type -> type -> bool;                     (* from, to *)
  casts : type -> type -> bool;                              (* static_cast<To>(std::declval<From>()) *)
  is_base_of : type -> type -> bool;                         (* base, derived *)
  pointers_convert : type -> type -> bool;                   (* from T const volatile * to U const volatile * *)
  remove_reference : type -> type;
  remove_cvref : type -> type;
  const_ref : type -> option type;                           (* T const &, with references collapsed *)
  rvalue_ref : type -> option type;                          (* T && *)
  compare : comparison_op -> type -> type -> option type;    (* of operands of these reference types *)
  negation : type -> option type;                            (* not std::forward<B>(b) *)
  invoke : type -> list type -> option type }.               (* std::invoke, for F && and Args && *)

Section Concepts.
Variable f : facts.

(** concepts.hpp:18-28. *)
Definition floating_point (t : type) : bool := is_floating_point f t.
Definition integral (t : type) : bool := is_integral f t.
Definition signed_integral (t : type) : bool := integral t && is_signed f t.
Definition unsigned_integral (t : type) : bool := integral t && is_unsigned f t.
(** concepts.hpp:30-32. *)
Definition convertible_to (from to : type) : bool := is_convertible f from to && casts f from to.
(** concepts.hpp:34-37. *)
Definition derived_from (t u : type) : bool := is_base_of f u t && pointers_convert f t u.
(** concepts.hpp:39-45. *)
Definition same_as (t u : type) : bool := is_same f t u && is_same f u t.
(** concepts.hpp:48-50, 55-58: { t op t } -> same_as<bool>, for T const &t.  An operand that is a
    reference is named by its lvalue. *)
Definition gives_bool (t : type) (op : comparison_op) : bool :=
  match const_ref f t with
  | Some r => match compare f op r r with Some res => same_as res (bool_t f) | None => false end
  | None => false
  end.
(** concepts.hpp:47-51. *)
Definition equality_comparable (t : type) : bool := gives_bool t Eq && gives_bool t Ne.
(** concepts.hpp:53-60. *)
Definition partially_ordered (t : type) : bool := gives_bool t Lt && gives_bool t Le && gives_bool t Gt && gives_bool t Ge.
(** concepts.hpp:62-64. *)
Definition totally_ordered (t : type) : bool := equality_comparable t && partially_ordered t.
(** concepts.hpp:66-69. *)
Definition is_some {A} (o : option A) : bool := match o with Some _ => true | None => false end.
Definition invocable (g : type) (args : list type) : bool := is_some (invoke f g args).
(** concepts.hpp:71-80. *)
Definition boolean_testable_impl (b : type) : bool := convertible_to b (bool_t f).
Definition boolean_testable (b : type) : bool :=
  boolean_testable_impl b && match rvalue_ref f b with
                             | Some r => match negation f r with Some n => boolean_testable_impl n | None => false end
                             | None => false
                             end.
(** concepts.hpp:82-84. *)
Definition predicate (g : type) (args : list type) : bool :=
  invocable g args && match invoke f g args with Some r => boolean_testable r | None => false end.
(** concepts.hpp:118-120, with the same_as above or the standard's. *)
Definition same_as_unqualified (t u : type) : bool := same_as (remove_cvref f t) (remove_cvref f u).
(** concepts.hpp:122-123: a fold over or; false for no types. *)
Definition same_any (t : type) (us : list type) : bool := fold_left (fun acc u => acc || same_as t u) us false.
(** concepts.hpp:125-126. *)
Definition same_none (t : type) (us : list type) : bool := negb (same_any t us).
End Concepts.
