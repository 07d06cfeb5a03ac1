(** Assignment to a std::optional, by the standard ([optional.assign], [optional.ctor]). *)
From Verif Require Import Base OptAssignModel.

Section Spec.
Context {V : Type}.
(** The candidates of std::optional: from nullopt_t; copy and move assignment, to which nullopt and
    (implicitly) convertible values convert; and the template, "conjunction_v<is_scalar<T>,
    is_same<T, decay_t<U>>> is false".  [None] is an empty optional. *)
Definition std_candidates (t : target V) (x : operand V) : list (candidate (option V)) :=
  let requires_ (same constructible assignable : bool) := constructible && assignable && negb (scalar t && same) in
  [Candidate (match x with Nullopt => Some 0 | _ => None end) false None;
   Candidate (match x with
              | Nullopt | Optional _ => None
              | Braces => if requires_ true true true && from_braces t then Some (if scalar t then 0 else 1) else None
              | Other same constructible assignable _ _ => if requires_ same constructible assignable then Some 0 else None
              end) true (match x with Other _ _ _ _ v => Some v | _ => Some (zero t) end);
   Candidate (match x with Optional _ => Some 0 | Braces | Nullopt => Some 1 | Other _ constructible _ convertible _ => if constructible && convertible then Some 1 else None end) false
     (match x with Optional v => Some v | Other _ _ _ _ v => Some v | _ => None end)].
Definition std_assign (t : target V) (x : operand V) : option (option V) := resolve (std_candidates t x).
Definition std_copy_initialize (x : operand V) : option (option V) :=
  match x with
  | Optional v => Some (Some v) | Braces | Nullopt => Some None
  | Other _ constructible _ convertible v => if constructible && convertible then Some (Some v) else None
  end.
(** The value that stands for an optional. *)
Definition held (t : target V) (o : option V) : V := match o with Some v => v | None => tombstone t end.
(** A value of type T can be used to make and assign a T (T is copyable, or the value is an rvalue of a
    movable T). *)
Definition regular (x : operand V) : Prop :=
  match x with Other true constructible assignable convertible _ => constructible = true /\ assignable = true /\ convertible = true | _ => True end.
End Spec.
