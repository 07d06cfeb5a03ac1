(** Events, for functions and operators that record being called. *)
From Verif Require Import Base AlgThrowSpec.

Inductive event (X : Type) := Call (x : X) | Operator.
Arguments Call {X}. Arguments Operator {X}.
(** The rows of the tuples: the elements at 0, those at 1, ... *)
Definition rows {E} (ts : list (list E)) (n : nat) : list (list E) := map (row ts) (seq 0 n).
(** Calls on [l], from first to last. *)
Definition in_order {W X R} (f : W -> X -> W * R) (l : list X) (w : W) : W := fold_left (fun w x => fst (f w x)) l w.
