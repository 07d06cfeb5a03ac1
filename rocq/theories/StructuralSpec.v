(** Types that are easy to make. *)
From Verif Require Import Base StructuralModel.

Section Spec.
Variable classes : nat -> class.
(** A constructor that can be called with [n] arguments. *)
Definition takes_count (n : nat) (k : constructor) : Prop := length (parameters k) <= n + defaults k /\ n <= length (parameters k).
(** The language's rule [temp.param]. *)
Inductive structural : type -> Prop :=
| structural_scalar s : structural (Scalar s)
| structural_ref t : structural (LRef t)
| structural_class c : language_structural (classes c) = true -> structural (Class c).
(** Copy and move constructors take the class itself. *)
Definition copies (c : nat) (k : constructor) : Prop := parameters k = [Takes (Class c)] /\ defaults k = 0.
(** The value made without arguments, or from such values: a scalar; a class with one default
    constructor; a class whose one constructor, apart from copying, takes all its parameters by value, at
    most ten of them, from such values.  [h]: how deep. *)
Inductive made : nat -> type -> value -> Prop :=
| made_scalar h s : made (S h) (Scalar s) (Zero s)
| made_default h c before k after v :
    constructors (classes c) = before ++ k :: after -> takes_count 0 k -> Forall (fun k' => ~ takes_count 0 k') (before ++ after) ->
    run k [] = Some v -> made (S h) (Class c) v
| made_from h c before k after ts vs v :
    constructors (classes c) = before ++ k :: after -> Forall (copies c) (before ++ after) ->
    parameters k = map Takes ts -> defaults k = 0 -> length ts <= 10 -> ~ In (Class c) ts ->
    all_made h ts vs -> run k vs = Some v -> made (S h) (Class c) v
with all_made : nat -> list type -> list value -> Prop :=
| all_made_nil h : all_made h [] []
| all_made_cons h t ts v vs : made h t v -> all_made h ts vs -> all_made h (t :: ts) (v :: vs).
End Spec.
