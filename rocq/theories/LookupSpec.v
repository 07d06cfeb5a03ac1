(** Which types have to do with namespace std, and the documented results. *)
From Verif Require Import Base LookupModel.

(** A class or enumeration of std, a pointer or reference to such a type, or a class with a template
    argument that is one. *)
Inductive from_std : ty -> Prop :=
| class_of_std args : from_std (Class Std args)
| enum_of_std u : from_std (Enum Std u)
| pointer_to_std t : from_std t -> from_std (Pointer t)
| reference_to_std t : from_std t -> from_std (Ref t)
| argument_of_std n args a : In a args -> from_std a -> from_std (Class n args).

(** All ways to take one type from each list, in lexicographic order. *)
Fixpoint combinations (ts : list (list ty)) : list (list ty) :=
  match ts with [] => [[]] | t :: r => flat_map (fun e => map (cons e) (combinations r)) t end.
(** A stdx::tuple of stdx::tuples. *)
Definition tuple_of_tuples (l : list (list ty)) : ty := Class Stdx (map (Class Stdx) l).
(** Element types without reference, and as references. *)
Definition value_type (t : ty) : ty := match t with Ref u => u | _ => t end.
Definition reference_type (t : ty) : ty := Ref (value_type t).
(** The elements of the tuples that have no empty tuple behind them. *)
Fixpoint used (ts : list (list ty)) : list ty :=
  match ts with
  | [] => []
  | t :: r => (if existsb (fun u => match u with [] => true | _ => false end) r then [] else t) ++ used r
  end.
