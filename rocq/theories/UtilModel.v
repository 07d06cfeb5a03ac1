(** Model of the value conversions of include/stdx/utility.hpp, smallest_uint and bit_size of
    include/stdx/bit.hpp, and arity_t of include/stdx/function_traits.hpp. *)
From Verif Require Import Base Ints.
Open Scope ub_scope.
Open Scope Z_scope.

(** ** as_unsigned, as_signed *)
(** The integral types: bool, or an integer type. *)
Inductive integral := IBool | IInt (t : ity).
(** std::make_unsigned_t and std::make_signed_t of an integer type keep the width. *)
Definition make_unsigned (t : ity) : ity := Uint (width t).
Definition make_signed (t : ity) : ity := Sint (width t).
(** utility.hpp:127-131: rejected ([None]) for bool; the result carries its type. *)
Definition as_unsigned (T : integral) (x : Z) : option (ity * Z) :=
  match T with IBool => None | IInt t => Some (make_unsigned t, cast (make_unsigned t) x) end.
(** utility.hpp:133-137. *)
Definition as_signed (T : integral) (x : Z) : option (ity * Z) :=
  match T with IBool => None | IInt t => Some (make_signed t, cast (make_signed t) x) end.

(** ** is_aligned_with *)
(** utility.hpp:237-249 for an integral [v] (a pointer is its address): [pw] is the width of
    std::uintptr_t, [a] is alignof(T). *)
Definition is_aligned_with (pw a v : Z) : bool := Z.land (cast (Uint pw) v) (a - 1) =? 0.

(** ** bit_size, smallest_uint *)
(** bit.hpp:415-417: [sz] is sizeof(T), CHAR_BIT is 8. *)
Definition bit_size (sz : Z) : Z := sz * 8.
(** bit.hpp:419-429: the width of the type chosen for N. *)
Definition smallest_uint (n : Z) : Z :=
  if n <=? 8 then 8 else if n <=? 16 then 16 else if n <=? 32 then 32 else 64.

(** ** forward_like *)
Inductive refk := NoRef | LRef | RRef.
(** A type as far as forward_like looks at it: cv-qualifiers under the reference, and the reference. *)
Record cvref := { is_const : bool; is_volatile : bool; ref : refk }.
(** [T &&] and [U &] by reference collapsing. *)
Definition add_rref (t : cvref) : cvref :=
  {| is_const := is_const t; is_volatile := is_volatile t; ref := match ref t with LRef => LRef | _ => RRef end |}.
Definition add_lref (t : cvref) : cvref := {| is_const := is_const t; is_volatile := is_volatile t; ref := LRef |}.
(** std::as_const(u) on the lvalue [u], and std::move of an lvalue. *)
Definition as_const (t : cvref) : cvref := {| is_const := true; is_volatile := is_volatile t; ref := LRef |}.
Definition std_move (t : cvref) : cvref := {| is_const := is_const t; is_volatile := is_volatile t; ref := RRef |}.
(** utility.hpp:105-122: the type of forward_like<T>(u) for the deduced U. *)
Definition forward_like (T U : cvref) : cvref :=
  match ref (add_rref T) with
  | LRef => if is_const T then as_const U else add_lref U
  | _ => if is_const T then std_move (as_const U) else add_rref U
  end.

(** ** arity *)
(** A callable: a function or function object with one call signature (its parameter list), or a
    generic one; and for each number of arguments, whether std::invoke_result_t accepts that many
    arguments of a type that converts to anything (function_traits.hpp:14-17, 33-35, 119-128). *)
Record callable (A : Type) := { signature : option (list A); accepts : nat -> bool }.
Arguments signature {A}.
Arguments accepts {A}.
(** function_traits.hpp:27, 144-145: not valid for a generic callable. *)
Definition nongeneric_arity {A} (f : callable A) : option nat := option_map (@length A) (signature f).
(** function_traits.hpp:154-171: the recursion from [n]; the compiler gives up ([None]) after
    [depth] nested instantiations. *)
Fixpoint generic_arity {A} (depth : nat) (f : callable A) (n : nat) : option nat :=
  if accepts f n then Some n
  else match depth with O => None | S d => generic_arity d f (n + 1)%nat end.
(** function_traits.hpp:174-177: the default of mp_eval_or is a type argument, so it is
    instantiated even when it is not used. *)
Definition arity {A} (depth : nat) (f : callable A) : option nat :=
  g <- generic_arity depth f 0%nat;;
  match nongeneric_arity f with Some n => Some n | None => Some g end.
