(** std::common_type for rollover_t (include/stdx/rollover.hpp), and rollover_t<bool>. *)
From Verif Require Import Base.
Open Scope Z_scope.

(** An integer type: its sign and its rank [conv.rank]. *)
Record int_type := { is_signed : bool; rank : nat }.
(** std::make_unsigned_t *)
Definition make_unsigned (t : int_type) : int_type := {| is_signed := false; rank := rank t |}.
Definition same (t u : int_type) : bool := Bool.eqb (is_signed t) (is_signed u) && Nat.eqb (rank t) (rank u).

Section Platform.
(** The width of the types of each rank, and the rank of int. *)
Variable width : nat -> Z.
Variable int_rank : nat.
Definition int_ : int_type := {| is_signed := true; rank := int_rank |}.
(** Integral promotion [conv.prom]. *)
Definition promote (t : int_type) : int_type :=
  if Nat.ltb (rank t) int_rank
  then if is_signed t || (width (rank t) <? width int_rank) then int_ else make_unsigned int_
  else t.
(** The usual arithmetic conversions [expr.arith.conv], after promotion. *)
Definition arithmetic (t u : int_type) : int_type :=
  if Bool.eqb (is_signed t) (is_signed u) then (if Nat.leb (rank t) (rank u) then u else t)
  else
    let s := if is_signed t then t else u in
    let n := if is_signed t then u else t in
    if Nat.leb (rank s) (rank n) then n
    else if width (rank n) <? width (rank s) then s
    else make_unsigned s.
(** std::common_type_t of two integer types: the type of [b ? t : u]. *)
Definition common_int (t u : int_type) : int_type := if same t u then t else arithmetic (promote t) (promote u).

(** What std::common_type is asked about. *)
Inductive operand := Plain (t : int_type) | Roll (t : int_type).
(** rollover.hpp:144-153, and the primary template: [b ? t : u] does not compile if one is a rollover_t,
    since its constructors and conversions are explicit (rollover.hpp:16-20, 25). *)
Definition common_type (a b : operand) : option operand :=
  match a, b with
  | Roll t, Roll u => Some (Roll (common_int t u))
  | Roll t, Plain i => Some (Roll (common_int t (make_unsigned i)))
  | Plain _, Roll _ => None
  | Plain t, Plain u => Some (Plain (common_int t u))
  end.
(** rollover.hpp:11-12: types that can be used. *)
Definition usable (a : operand) : bool := match a with Plain _ => true | Roll t => negb (is_signed t) end.
End Platform.

(** rollover_t<bool>, which rollover.hpp:11-12 admits: bool is an unsigned integral type.  An int
    assigned to a bool is 1 unless it is 0. *)
Definition to_bool_value (z : Z) : Z := if z =? 0 then 0 else 1.
(** rollover.hpp:30-32, 46-57. *)
Definition b_neg (a : Z) : Z := to_bool_value (- a).
Definition b_add (a b : Z) : Z := to_bool_value (a + b).
Definition b_sub (a b : Z) : Z := to_bool_value (a - b).
Definition b_mul (a b : Z) : Z := to_bool_value (a * b).
