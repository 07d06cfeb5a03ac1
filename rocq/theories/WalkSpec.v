(** What a loop over a container is to give. *)
From Verif Require Import Base WalkModel.

(** The elements in order, or in reverse order. *)
Definition expected {A} (k : loop) (l : list A) : list A :=
  match k with Forwards | CForwards => l | Backwards | CBackwards => rev l end.
Definition forwards (k : loop) : bool := match k with Forwards | CForwards => true | _ => false end.
(** The type of iterator: over const elements if the elements or the access are const. *)
Definition expected_type (elements_const : bool) (a : access) : itype :=
  match a with
  | Begin | End => Pointer elements_const
  | CBegin | CEnd => Pointer true
  | RBegin | REnd => Reverse elements_const
  | CRBegin | CREnd => Reverse true
  end.
