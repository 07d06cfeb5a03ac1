(** What a user expects of an overload object. *)
From Verif Require Import Base OverloadModel.

(** The function has a parameter of the argument's own type that can take it. *)
Definition takes_exactly (f : function) (a : arg) : Prop :=
  match parameter f with
  | Value c | ConstRef c => c = type a
  | Ref c => c = type a /\ const a = false /\ rvalue a = false
  | RvalueRef c => c = type a /\ const a = false /\ rvalue a = true
  | _ => False
  end.
(** The function is for another type. *)
Definition for_another (f : function) (a : arg) : Prop :=
  match parameter f with Value c | ConstRef c | Ref c | RvalueRef c => c <> type a | _ => False end.
Definition for_all (f : function) : Prop := match parameter f with AnyValue | AnyConstRef | AnyForward => True | _ => False end.
(** The function takes T const&, which an object that is not const, or an rvalue, fits less well than auto&&. *)
Definition by_const_ref (f : function) : Prop := exists c, parameter f = ConstRef c.
Definition const_lvalue (a : arg) : Prop := const a = true /\ rvalue a = false.
(** Either the object is const and [f] can be called on it, or the functions are all mutable, or none is. *)
Definition no_mixture (fs : list function) (const_object : bool) (f : function) : Prop :=
  (const_object = true /\ mutable_ f = false) \/ (const_object = false /\ forall g, In g fs -> mutable_ g = mutable_ f).

(** What one function would do with the calls meant for it, alone. *)
Section Alone.
Context {S V R : Type}.
Fixpoint alone (run : S -> V -> S * R) (keeps : bool) (s : S) (vs : list V) : S * list R :=
  match vs with
  | [] => (s, [])
  | v :: r => let (s1, x) := run s v in let (s2, xs) := alone run keeps (if keeps then s1 else s) r in (s2, x :: xs)
  end.
End Alone.
(** The type that a function is for, if it takes objects of it by value or by reference to const. *)
Definition type_for (f : function) : option nat := match parameter f with Value c | ConstRef c => Some c | _ => None end.
(** Those of the calls made, with their results, whose argument has type [c]. *)
Definition of_type {V R} (c : nat) (l : list (arg * V)) (rs : list R) : list (V * R) :=
  map (fun x => (snd (fst x), snd x)) (filter (fun x => Nat.eqb (type (fst (fst x))) c) (combine l rs)).
(** Which implicit conversion is the closer one: promotions (short to int), then other conversions of the language, then the user's. *)
Definition closer (r s : rank) : Prop :=
  match r with Promotion => s = Conversion \/ s = UserDefined | Conversion => s = UserDefined | UserDefined => False end.
