(** Model of stdx::saturate_cast (include/stdx/numeric.hpp:36-61) for every combination of
    integer and floating-point types (C09's SaturateModel covers integers only).

    Floating point: a format has a size in bits, a precision and a maximum exponent (IEEE
    754 / C's FLT_MANT_DIG and FLT_MAX_EXP). A finite value is m * 2^e; subnormals are
    included. Simplifications: the sign of zero is not represented (a zero is [Fin 0 e]),
    NaN has no payload, conversions use the default rounding mode (to nearest, ties to
    even). A value may have several representations (m, e); the specification compares
    values, not representations. *)
From Verif Require Import Base Ints.
Open Scope ub_scope.
Open Scope Z_scope.

Record fmt := { fsize : Z; prec : Z; emax : Z }.
Definition binary32 := {| fsize := 32; prec := 24; emax := 128 |}.
Definition binary64 := {| fsize := 64; prec := 53; emax := 1024 |}.
(** x87 extended precision, stored in 16 bytes *)
Definition x87 := {| fsize := 128; prec := 64; emax := 16384 |}.
Definition emin (f : fmt) : Z := 3 - emax f - prec f.

Inductive fval := Fin (m e : Z) | Inf (neg : bool) | NaN.

(** The arithmetic types, and their values. *)
Inductive arith := I (t : ity) | F (f : fmt).
Inductive val := VI (z : Z) | VF (x : fval).

Definition sizeof (a : arith) : Z := match a with I t => width t | F f => fsize f end.
(** std::is_signed_v / is_unsigned_v: a floating-point type is signed. *)
Definition is_signed (a : arith) : bool := match a with I t => signed t | F _ => true end.
Definition is_unsigned (a : arith) : bool := match a with I t => negb (signed t) | F _ => false end.

(** numeric_limits<T>::min(): for a floating-point type, the smallest positive normal
    value 2^(2-emax); and max(), (2^prec - 1) * 2^(emax-prec). *)
Definition fmin (f : fmt) : fval := Fin (2 ^ (prec f - 1)) (emin f).
Definition fmax (f : fmt) : fval := Fin (2 ^ prec f - 1) (emax f - prec f).
Definition num_min (a : arith) : val := match a with I t => VI (tmin t) | F f => VF (fmin f) end.
Definition num_max (a : arith) : val := match a with I t => VI (tmax t) | F f => VF (fmax f) end.

(** operator< on floating-point values. *)
Definition flt (x y : fval) : bool :=
  match x, y with
  | NaN, _ | _, NaN => false
  | Inf nx, Inf ny => nx && negb ny
  | Inf nx, Fin _ _ => nx
  | Fin _ _, Inf ny => negb ny
  | Fin m e, Fin n g => m * 2 ^ (e - Z.min e g) <? n * 2 ^ (g - Z.min e g)
  end.

(** operator< on two values of the same type. *)
Definition less (a b : val) : bool :=
  match a, b with VI x, VI y => x <? y | VF x, VF y => flt x y | _, _ => false end.

(** Quotient rounded to nearest, ties to even (0 < b). *)
Definition div_rne (a b : Z) : Z :=
  let q := a / b in
  let r := a mod b in
  if 2 * r <? b then q else if b <? 2 * r then q + 1 else if Z.even q then q else q + 1.

(** Rounding m * 2^e to the format, with overflow to infinity. *)
Definition round (f : fmt) (m e : Z) : fval :=
  if m =? 0 then Fin 0 (emin f) else
  let e' := Z.max (e + (Z.log2 (Z.abs m) + 1) - prec f) (emin f) in
  let m' := if e' <=? e then m * 2 ^ (e - e') else div_rne m (2 ^ (e' - e)) in
  let x := if Z.abs m' =? 2 ^ prec f then Fin (m' / 2) (e' + 1) else Fin m' e' in
  let ax := if Z.abs m' =? 2 ^ prec f then Fin (Z.abs m' / 2) (e' + 1) else Fin (Z.abs m') e' in
  if flt (fmax f) ax then Inf (m <? 0) else x.

(** The integer part of m * 2^e (rounding towards zero). *)
Definition trunc (m e : Z) : Z :=
  if 0 <=? e then m * 2 ^ e else Z.quot m (2 ^ (- e)).

(** static_cast / implicit conversion: [conv.integral], [conv.double], [conv.fpint]. A
    floating-point value whose integer part does not fit the integer type is undefined
    behaviour ([None]), as are infinities and NaN. *)
Definition convert (From To : arith) (v : val) : option val :=
  match To, v with
  | I t, VI z => Some (VI (cast t z))
  | I t, VF (Fin m e) => if in_rangeb t (trunc m e) then Some (VI (trunc m e)) else None
  | I t, VF _ => None
  | F f, VI z => Some (VF (round f z 0))
  | F f, VF (Fin m e) => Some (VF (round f m e))
  | F f, VF x => Some (VF x)
  end.

Definition is_nan (v : val) : bool := match v with VF NaN => true | _ => false end.

(** std::clamp(v, lo, hi): undefined if hi < lo, or (the order must be a strict weak order)
    if a NaN is among the arguments. *)
Definition clamp (v lo hi : val) : option val :=
  if is_nan v || is_nan lo || is_nan hi then None
  else if less hi lo then None
  else Some (if less v lo then lo else if less hi v then hi else v).

(** [from > to_max] (:48) with the usual arithmetic conversions: an integer compared with a
    floating-point value is converted to that type; an unsigned From and a signed integer
    To of the same size compare as unsigned, and to_max is not negative. *)
Definition exceeds_max (From To : arith) (from : val) : bool :=
  match To with
  | I t => less (num_max To) from
  | F f => match convert From To from with Some v => less (num_max To) v | None => false end
  end.

(** [from < 0] (:54). *)
Definition negative (from : val) : bool :=
  match from with VI z => z <? 0 | VF x => flt x (Fin 0 0) end.

(** numeric.hpp:36-61 *)
Definition saturate_cast (From To : arith) (from : val) : option val :=
  if sizeof To <? sizeof From then
    (* :41-44; to_min and to_max are converted to From *)
    lo <- convert To From (num_min To) ;;
    hi <- convert To From (num_max To) ;;
    clamped <- clamp from lo hi ;;
    convert From To clamped
  else if sizeof From =? sizeof To then
    (* :46-58 *)
    if is_unsigned From && is_signed To && exceeds_max From To from then Some (num_max To)
    else if is_signed From && is_unsigned To && negative from then Some (VI 0)
    else convert From To from
  else convert From To from (* :60 *).
