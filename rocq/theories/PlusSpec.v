(** Specification for C135: folding a tuple calls the given function, whatever operators its elements have. *)
From Coq Require Import List.
From Verif Require Import PlusModel.
Import ListNotations.

(** An operator of somebody else does not name the helper classes. *)
Definition apart (g : operator) : Prop :=
  forall h, h = fold_helper \/ h = join_helper ->
  ~ In (left_param g) [Value h; ConstRef h; Ref h; RvalueRef h] /\ ~ In (right_param g) [Value h; ConstRef h; Ref h; RvalueRef h].
(** The parameter takes an object of any class, not by reference to const. *)
Definition takes_all (p : param) : Prop := p = AnyValue \/ p = AnyForward.
(** The parameter takes this element as it is, and says more about it than T&&. *)
Definition takes_this (p : param) (a : arg) : Prop :=
  p = Value (class a) \/
  rvalue a = true /\ const a = false /\ p = RvalueRef (class a) \/
  rvalue a = false /\ const a = true /\ (p = ConstRef (class a) \/ p = AnyConstRef) \/
  rvalue a = false /\ const a = false /\ p = Ref (class a).
(** An operator with a parameter for any class is a template. *)
Definition well_formed (g : operator) : Prop :=
  In (left_param g) [AnyValue; AnyConstRef; AnyForward] \/ In (right_param g) [AnyValue; AnyConstRef; AnyForward] -> template g = true.
(** Operators that make the sum of a helper and an element, in this order or the other, ambiguous. *)
Definition clash_left (g : operator) (a : arg) : Prop := takes_all (left_param g) /\ takes_this (right_param g) a.
Definition clash_right (g : operator) (a : arg) : Prop := takes_this (left_param g) a /\ takes_all (right_param g).
