(** What a user expects of latched values that depend on each other. *)
From Coq Require Import List Arith.
From Verif Require Import DependModel.
Import ListNotations.

Section Spec.
Context {W V : Type}.
(** The script asks only for the values of objects that satisfy P, whatever the answers. *)
Fixpoint asks_only (P : nat -> Prop) (b : script W V) : Prop :=
  match b with
  | Ret _ => True
  | World f k => forall w, asks_only P (k w)
  | Value j k => P j /\ forall v, asks_only P (k v)
  | HasValue j k => forall x, asks_only P (k x)
  end.
(** There are no cycles: each function asks only for objects of lower rank. *)
Definition acyclic (body : nat -> script W V) : Prop := exists rank : nat -> nat, forall i, asks_only (fun j => rank j < rank i) (body i).

(** Functions that only ask for values: the value of an object is then given by the functions
    alone, as in mathematics. *)
Fixpoint only_values (b : script W V) : Prop :=
  match b with Ret _ => True | Value _ k => forall v, only_values (k v) | _ => False end.
Inductive means (body : nat -> script W V) : script W V -> V -> Prop :=
| m_ret v : means body (Ret v) v
| m_value j k v z : means body (body j) v -> means body (k v) z -> means body (Value j k) z.

Definition fresh (w : W) : state W V := {| memo := fun _ => None; world := w; calls := []; lost := [] |}.
End Spec.

(** The script cannot return before it asks for the value of one of the objects in C. *)
Fixpoint must_ask {W V} (C : nat -> Prop) (b : script W V) : Prop :=
  match b with
  | Ret _ => False
  | World f k => forall w, must_ask C (k w)
  | Value j k => C j \/ forall v, must_ask C (k v)
  | HasValue j k => forall x, must_ask C (k x)
  end.
