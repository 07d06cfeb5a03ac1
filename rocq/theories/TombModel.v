(** Tombstones that come with the library: include/stdx/optional.hpp:15-58.

    Values of floating-point types are described up to what == sees of the special ones. *)
From Verif Require Import Base.

Inductive floating := Finite (q : Z) | PosInf | NegInf | NaN.
(** == of the type. *)
Definition float_eqb (x y : floating) : bool :=
  match x, y with Finite a, Finite b => (a =? b)%Z | PosInf, PosInf | NegInf, NegInf => true | _, _ => false end.

(** A class template with type arguments only: L<Ts...>. *)
Inductive template := StdPair | StdTuple | StdxTuple.
Inductive ty :=
| Floating
| Pointer
| User (specialized : option Z)            (* another type; the tombstone of its tombstone_traits *)
| Parts (l : template) (ts : list ty).
(** A value: a user type is seen through a number that its == compares. *)
Inductive val := Num (x : floating) | Address (a : N) | Own (z : Z) | Made (vs : list val).
(** ==: of pairs and tuples, part by part. *)
Fixpoint val_eqb (a b : val) : bool :=
  match a, b with
  | Num x, Num y => float_eqb x y
  | Address x, Address y => (x =? y)%N
  | Own x, Own y => (x =? y)%Z
  | Made xs, Made ys =>
      (fix go (xs ys : list val) := match xs, ys with [], [] => true | x :: xs, y :: ys => val_eqb x y && go xs ys | _, _ => false end) xs ys
  | _, _ => false
  end.

(** std::is_constructible_v<L<T, Ts...>, T, Ts...>, with arguments in parentheses.  stdx::tuple is an
    aggregate (tuple.hpp:439-451) whose only part is its base class: initialized in parentheses it takes
    no elements, since braces are not left out there. *)
Definition constructible (l : template) : bool := match l with StdPair | StdTuple => true | StdxTuple => false end.
(** optional.hpp:24-27: the tombstone_traits of the type are specialized. *)
Fixpoint has_tombstone (t : ty) : bool :=
  match t with
  | Floating (* optional.hpp:29-34 *) => true
  | Pointer (* optional.hpp:36-39 *) => true
  | User s => match s with Some _ => true | None => false end
  | Parts l ts (* optional.hpp:41-50: at least one argument *) =>
      match ts with [] => false | _ => constructible l && forallb has_tombstone ts end
  end.
(** tombstone_traits<T>{}().  [None]: does not compile (optional.hpp:15-22). *)
Fixpoint tombstone (t : ty) : option val :=
  match t with
  | Floating (* optional.hpp:29-34 *) => Some (Num PosInf)
  | Pointer (* optional.hpp:36-39 *) => Some (Address 0)
  | User s => match s with Some z => Some (Own z) | None => None end
  | Parts l ts (* optional.hpp:41-50 *) =>
      if has_tombstone (Parts l ts) then
        match (fix go (ts : list ty) := match ts with [] => Some [] | t :: r => match tombstone t, go r with Some v, Some vs => Some (v :: vs) | _, _ => None end end) ts with
        | Some vs => Some (Made vs)
        | None => None
        end
      else None
  end.
(** tombstone_value<V>: a value, or a cx_value that is called: optional.hpp:52-60. *)
Inductive constant := Plain (v : val) | CxValue (call : val).
Definition tombstone_value (c : constant) : val := match c with Plain v => v | CxValue v => v end.
