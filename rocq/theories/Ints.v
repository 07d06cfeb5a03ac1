(** The C++ integer types used by the models: a width in bits and a signedness, with the
    conversion rules the code relies on. *)
From Verif Require Import Base.
Open Scope Z_scope.

Record ity := { signed : bool; width : Z }.
Definition Uint (w : Z) := {| signed := false; width := w |}.
Definition Sint (w : Z) := {| signed := true; width := w |}.

(** std::numeric_limits<T>::min()/max(). *)
Definition tmin (t : ity) : Z := if signed t then - 2 ^ (width t - 1) else 0.
Definition tmax (t : ity) : Z := if signed t then 2 ^ (width t - 1) - 1 else 2 ^ width t - 1.
Definition in_range (t : ity) (x : Z) : Prop := tmin t <= x <= tmax t.
Definition in_rangeb (t : ity) (x : Z) : bool := (tmin t <=? x) && (x <=? tmax t).

(** static_cast<T>(x) / implicit conversion of an integer value: reduction modulo 2^width
    into the range of T (C++20 two's complement). *)
Definition cast (t : ity) (x : Z) : Z :=
  let m := x mod 2 ^ width t in
  if signed t && (2 ^ (width t - 1) <=? m) then m - 2 ^ width t else m.

(** Arithmetic on two operands of an unsigned type of width [w] on a platform whose int has
    [iw] bits, assigned back to that type: narrower operands are promoted to (signed) int,
    in which overflow is undefined ([None]); others are computed modulo 2^w. *)
Definition promoted (w iw exact : Z) : option Z :=
  if w <? iw
  then if in_rangeb (Sint iw) exact then Some (exact mod 2 ^ w) else None
  else Some (exact mod 2 ^ w).
