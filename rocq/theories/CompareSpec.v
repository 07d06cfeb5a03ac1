(** What comparing tuples should do: as with std::tuple, there is a comparison only between tuples of
    the same size whose elements can be compared pairwise. *)
From Coq Require Import List.
From Verif Require Import CompareModel.
Import ListNotations.

(** Same size, and every pair of elements can be compared. *)
Definition comparable {V} (f : nat -> nat -> bool) (l r : list (elem V)) : Prop :=
  length l = length r /\ forall i x y, nth_error l i = Some x -> nth_error r i = Some y -> f (ty x) (ty y) = true.

(** Position i holds x on the left and y on the right, of the same type (and indexed by the same types). *)
Definition shared {V} (l r : list (elem V)) (i : nat) (x y : elem V) : Prop :=
  nth_error l i = Some x /\ nth_error r i = Some y /\ ty x = ty y /\ keys x = keys y.

(** The only such position. *)
Definition only_shared {V} (l r : list (elem V)) (i : nat) (x y : elem V) : Prop :=
  shared l r i x y /\ forall j x' y', shared l r j x' y' -> j = i.

Definition compiles {A} (v : verdict A) : Prop := exists a, v = Value a.
