(** Classes, inheritance and members, as the language has them. *)
From Coq Require Import List Bool PeanoNat.
From Verif Require Import LinkableModel.
Import ListNotations.

(** A base class is defined before the class. *)
Definition well_formed (E : list class) : Prop :=
  forall c k b, nth_error E c = Some k -> base k = Some b -> b < c.
Inductive inherits (E : list class) : nat -> nat -> Prop :=
| inherits_self c k : nth_error E c = Some k -> inherits E c c
| inherits_base c k b a : nth_error E c = Some k -> base k = Some b -> inherits E b a -> inherits E c a.
(** The member that a name finds in a class: its own, or else that of the base class. *)
Inductive finds (E : list class) : nat -> member_name -> member -> Prop :=
| finds_own c k m x : nth_error E c = Some k -> own k m = Some x -> finds E c m x
| finds_base c k m x b : nth_error E c = Some k -> own k m = None -> base k = Some b -> finds E b m x -> finds E c m x.

(** The member is a pointer to the class itself, and can be assigned to. *)
Definition links_to_itself (E : list class) (c : nat) (m : member_name) : Prop :=
  finds E c m {| mtype := Ptr false c; mconst := false |}.
Definition assignable_pointer (x : member) : Prop := mconst x = false /\ mtype x <> NotPtr.
