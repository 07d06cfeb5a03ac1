(** What a user expects of apply and join. *)
From Verif Require Import Base MoveModel MoveSpec ApplyJoinModel.

Section Spec.
Context {V T W : Type}.
(** All the elements given to apply, in order. *)
Definition all_elements (ts : list (source T)) : list (ref T) :=
  flat_map (fun s => match s with StdxTuple t => t | StdTuple t => t end) ts.
(** apply is given one tuple of this library. *)
Definition one_tuple (ts : list (source T)) : Prop := exists t, ts = [StdxTuple t].
(** The call f(elements...): its result, and what it leaves behind. *)
Definition called_once (f : callable V T W) (w : W) (m : store V) (rs : list (ref T)) (w' : W) (r : result V T) (m' : store V) : Prop :=
  exists xs, f rs w (map (seen m) rs) = (w', r, xs) /\ updated m [rs] [xs] m'.
(** ((x0 op x1) op x2) op ... *)
Inductive joins (op : operation V W) : W -> cell V -> list (cell V) -> W -> cell V -> Prop :=
| joins_none w a : joins op w a [] w a
| joins_more w a x xs w1 b w2 c : op w (Rvalue, a) (Rvalue, x) = (w1, b) -> joins op w1 b xs w2 c -> joins op w a (x :: xs) w2 c.
(** Every element can initialize an object: it is an rvalue, or its type can be copied. *)
Definition obtainable (copies : T -> bool) (rs : list (ref T)) : Prop :=
  forall r, In r rs -> cat r = Rvalue \/ copies (of_type r) = true.
(** The operation does not tell lvalues from rvalues. *)
Definition category_blind (op : operation V W) : Prop := forall w a b c d x y, op w (a, x) (b, y) = op w (c, x) (d, y).
(** The same operation for fold_left, which leaves the elements as they are. *)
Definition leaving (op : operation V W) : W -> cell V -> category * cell V -> W * cell V * cell V :=
  fun w a e => (fst (op w (Rvalue, a) e), snd (op w (Rvalue, a) e), snd e).
End Spec.
(** An operation that notes how its second operand is given to it, and returns the first. *)
Definition noting {V} : operation V (list category) := fun w a e => (w ++ [fst e], snd a).
