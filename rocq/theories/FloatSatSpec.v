(** What saturate_cast should return for floating-point types: a small specification over
    the rational numbers. *)
From Coq Require Import QArith Qround Qabs Qpower.
From Verif Require Import Base Ints FloatSatModel.
Open Scope Z_scope.

(** The rational number m * 2^e. *)
Definition qval (m e : Z) : Q := (inject_Z m * (2 # 1) ^ e)%Q.

(** A format in which precision and exponent range make sense: IEEE's binary formats, the
    x87 format, bfloat16, ... *)
Definition format (f : fmt) : Prop := 1 < prec f < emax f.

(** m * 2^e is a finite value of the format. *)
Definition finite_value (f : fmt) (m e : Z) : Prop :=
  Z.abs m < 2 ^ prec f /\ emin f <= e <= emax f - prec f.

Definition value (f : fmt) (x : fval) : Prop :=
  match x with Fin m e => finite_value f m e | _ => True end.

(** A rational's integer part. *)
Definition qtrunc (q : Q) : Z := if Qlt_le_dec q 0 then Qceiling q else Qfloor q.

(** The integer of type [t] a floating-point value should saturate to: its integer part if
    that is representable, otherwise the nearer end of the range. *)
Definition saturated (t : ity) (x : fval) : Z :=
  match x with
  | Fin m e => Z.max (tmin t) (Z.min (qtrunc (qval m e)) (tmax t))
  | Inf neg => if neg then tmin t else tmax t
  | NaN => 0
  end.

(** [x] is finite and no finite value of the format is nearer to [q]. *)
Definition nearest_float (f : fmt) (q : Q) (x : fval) : Prop :=
  exists m e, x = Fin m e /\ finite_value f m e /\
    forall n g, finite_value f n g -> (Qabs (q - qval m e) <= Qabs (q - qval n g))%Q.

(** Two floating-point values are the same number (or both NaN). *)
Definition same_number (x y : fval) : Prop :=
  match x, y with
  | Fin m e, Fin n g => (qval m e == qval n g)%Q
  | _, _ => x = y
  end.

(** A floating-point value below zero, or below or above a rational. *)
Definition below (x : fval) (q : Q) : Prop :=
  match x with Fin m e => (qval m e < q)%Q | Inf neg => neg = true | NaN => False end.

(** The value's integer part is not a value of the integer type. *)
Definition overflows (t : ity) (x : fval) : Prop :=
  match x with Fin m e => ~ in_range t (qtrunc (qval m e)) | _ => True end.

(** numeric_limits<T>::min() and max() of a floating-point type, as numbers. *)
Definition qmin (f : fmt) : Q := qval 1 (2 - emax f).
Definition qmax (f : fmt) : Q := (qval 1 (emax f) - qval 1 (emax f - prec f))%Q.

(** Every value of [g] is a value of [f], as C++ requires of successive floating-point
    types. *)
Definition includes (f g : fmt) : Prop := prec g <= prec f /\ emax g <= emax f.

(** [x] is the number [q]. *)
Definition is_number (x : fval) (q : Q) : Prop :=
  match x with Fin m e => (qval m e == q)%Q | _ => False end.
