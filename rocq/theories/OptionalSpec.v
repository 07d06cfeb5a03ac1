(** What a user expects: std::optional, i.e. Coq's [option]. *)
From Verif Require Import Base OptionalModel.

Section Spec.
Context {T : Type}.
Variable ts : T.
Variable veq vlt vle : T -> T -> bool.

(** The value is not the tombstone. *)
Definition real (v : T) : Prop := veq v ts = false.
(** The object [o] stands for the optional [a]. *)
Definition stands_for (o : option T) (a : option T) : Prop :=
  match a with Some v => o = Some v /\ real v | None => exists t, o = Some t /\ veq t ts = true end.
(** std::optional's mutators. *)
Definition std_step (p : op T) (a : option T) : option T :=
  match p with AssignNullopt | Reset => None | Assign v => Some v | Emplace m => m end.
Definition std_history (ps : list (op T)) (a : option T) : option T := List.fold_left (fun a p => std_step p a) ps a.
(** Values given are not the tombstone, and constructors do not throw. *)
Definition proper (p : op T) : Prop :=
  match p with AssignNullopt | Reset => True | Assign v => real v | Emplace m => exists v, m = Some v /\ real v end.

(** std::optional's comparisons. *)
Definition std_equal (a b : option T) : bool := match a, b with Some x, Some y => veq x y | None, None => true | _, _ => false end.
Definition std_less (a b : option T) : bool := match a, b with Some x, Some y => vlt x y | None, Some _ => true | _, None => false end.
Definition std_less_equal (a b : option T) : bool := match a, b with Some x, Some y => vle x y | None, _ => true | Some _, None => false end.
Definition std_transform {W U} (w : W) (a : option T) (f : W -> T -> W * U) : W * option U :=
  match a with Some v => let (w1, u) := f w v in (w1, Some u) | None => (w, None) end.
Definition std_and_then {W U} (w : W) (a : option T) (f : W -> T -> W * option U) : W * option U :=
  match a with Some v => f w v | None => (w, None) end.
Definition std_or_else {W} (w : W) (a : option T) (f : W -> W * option T) : W * option T :=
  match a with Some _ => (w, a) | None => f w end.
(** All of them, or none. *)
Fixpoint sequence (l : list (option T)) : option (list T) :=
  match l with [] => Some [] | Some x :: r => match sequence r with Some xs => Some (x :: xs) | None => None end | None :: _ => None end.
End Spec.
