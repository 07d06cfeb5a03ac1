(** Comparing two tuples: which operator overload resolution selects, and what it computes.
    Models include/stdx/tuple.hpp:56-108 (the friends of [element]), :160-173 (a tuple derives from one
    [element] per position), :366-415 (the friends of [tuple_impl]), :440-467 (the deleted friends of
    [tuple] and [indexed_tuple]). *)
From Coq Require Import List Arith Bool.
From Verif Require Import TupleModel.
Import ListNotations.

(** An element of a tuple: its type T, the types [Fs<std::remove_cvref_t<T>>...] the index functions
    give it (none for [stdx::tuple]), and its value. The class [element<I, T, Fs<T>...>] is a base of
    the tuple (tuple.hpp:160-163, 170-173); two tuples have it in common when index, type and these
    types agree.
    Simplification: types are numbers, and all values live in one type V. *)
Record elem (V : Type) := Elem { ty : nat; keys : list nat; val : V }.
Arguments Elem {V}. Arguments ty {V}. Arguments keys {V}. Arguments val {V}.

(** What the compiler knows of the element types. *)
Record types := Types {
  is_ref : nat -> bool;                    (* std::is_reference_v<T> *)
  eq_with : nat -> nat -> bool;            (* std::equality_comparable_with<T, U> *)
  cmp_with : nat -> nat -> bool;           (* std::three_way_comparable_with<T, U> *)
  member_eq : nat -> bool;                 (* a defaulted == of a class with a member of type T is not deleted for want of == *)
  member_cmp : nat -> bool }.              (* the same for a defaulted <=> *)

Inductive verdict (A : Type) :=
| NoOperator                               (* no viable candidate *)
| Ambiguous                                (* no best viable candidate *)
| Deleted                                  (* the best viable candidate is deleted *)
| Value (a : A).
Arguments NoOperator {A}. Arguments Ambiguous {A}. Arguments Deleted {A}. Arguments Value {A}.

(** The right operand: a tuple, or an object of a type without [common_tuple_comparable]
    (concepts.hpp:142-143). *)
Inductive operand (V : Type) := ATuple (r : list (elem V)) | Other (t : nat) (v : V).
Arguments ATuple {V}. Arguments Other {V}.

Inductive candidate := Whole | Part (i : nat) | DeletedOne.

Definition types_eq (a b : list nat) : bool := if list_eq_dec Nat.eq_dec a b then true else false.

Section Resolve.
Context {V : Type}.

(** The element bases both tuples have: position by position. *)
Fixpoint common (i : nat) (l r : list (elem V)) : list nat :=
  match l, r with
  | x :: l', y :: r' =>
      if (ty x =? ty y) && types_eq (keys x) (keys y) then i :: common (S i) l' r' else common (S i) l' r'
  | _, _ => []
  end.

(** [(... and concept<Ts, Us>)] over packs of equal length. *)
Fixpoint all_with (f : nat -> nat -> bool) (l r : list (elem V)) : bool :=
  match l, r with
  | x :: l', y :: r' => f (ty x) (ty y) && all_with f l' r'
  | _, _ => true
  end.

(** The viable candidates. tuple.hpp:366-370, 393-397: the friend template of [tuple_impl] deduces its
    second parameter only from a [tuple_impl] with the same index sequence, and is constrained.
    tuple.hpp:104-107: the friends of an [element] that is a base of both operands accept them by
    conversion to that base, whatever the other bases are. tuple.hpp:442-450, 457-466: the deleted
    friends are for operands that are no tuples, which no other candidate accepts.
    Simplification: rewritten candidates with the operands exchanged are left out; each of them has
    the same conversions as a candidate in the written order, which is preferred. *)
Definition viable (f : nat -> nat -> bool) (l : list (elem V)) (o : operand V) : list candidate :=
  match o with
  | ATuple r =>
      (if (length l =? length r) && all_with f l r then [Whole] else []) ++ map Part (common 0 l r)
  | Other _ _ => [DeletedOne]
  end.

(** [over.ics.rank]: the conversion to [tuple_impl] is better than the one to [element], a base of
    [tuple_impl]; conversions to different [element]s are not ordered. *)
Definition better (c d : candidate) : bool :=
  match c, d with Whole, Part _ => true | _, _ => false end.

(** The best viable candidate is the one better than every other one. *)
Definition candidate_eqb (c d : candidate) : bool :=
  match c, d with
  | Whole, Whole => true | Part i, Part j => i =? j | DeletedOne, DeletedOne => true | _, _ => false
  end.
Definition best (cs : list candidate) : option candidate :=
  find (fun c => forallb (fun d => candidate_eqb c d || better c d) cs) cs.

Definition resolve (f : nat -> nat -> bool) (l : list (elem V)) (o : operand V) : option (option candidate) :=
  match viable f l o with [] => None | cs => Some (best cs) end.
End Resolve.

Section Compare.
Context {V : Type}.
Variable T : types.
Variable eqv : nat -> nat -> V -> V -> bool.                        (* == on a T and a U *)
Variable cmp : nat -> nat -> V -> V -> option comparison.           (* <=> on a T and a U *)

(** == of two elements, by type. *)
Definition elem_eq (x y : elem V) : bool := eqv (ty x) (ty y) (val x) (val y).
Definition elem_cmp (x y : elem V) : option comparison := cmp (ty x) (ty y) (val x) (val y).

(** [t == o] for a tuple t. tuple.hpp:104-105: the defaulted operator of [element] compares its only
    member; it is deleted when that is a reference or cannot be compared. *)
Definition equal (l : list (elem V)) (o : operand V) : verdict bool :=
  match resolve (eq_with T) l o, o with
  | None, _ => NoOperator
  | Some None, _ => Ambiguous
  | Some (Some DeletedOne), _ => Deleted
  | Some (Some Whole), ATuple r =>
      match tuple_eq elem_eq l r with Some b => Value b | None => NoOperator end
  | Some (Some (Part i)), ATuple r =>
      match nth_error l i, nth_error r i with
      | Some x, Some y =>
          if is_ref T (ty x) || negb (member_eq T (ty x)) then Deleted else Value (elem_eq x y)
      | _, _ => NoOperator
      end
  | Some (Some _), Other _ _ => NoOperator
  end.

(** [t <=> o]; tuple.hpp:106-107 for one element, :393-415 for the whole. *)
Definition three_way (l : list (elem V)) (o : operand V) : verdict (option comparison) :=
  match resolve (cmp_with T) l o, o with
  | None, _ => NoOperator
  | Some None, _ => Ambiguous
  | Some (Some DeletedOne), _ => Deleted
  | Some (Some Whole), ATuple r =>
      match tuple_cmp elem_cmp l r with Some c => Value c | None => NoOperator end
  | Some (Some (Part i)), ATuple r =>
      match nth_error l i, nth_error r i with
      | Some x, Some y =>
          if is_ref T (ty x) || negb (member_cmp T (ty x)) then Deleted else Value (elem_cmp x y)
      | _, _ => NoOperator
      end
  | Some (Some _), Other _ _ => NoOperator
  end.
End Compare.
