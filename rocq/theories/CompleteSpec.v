(** When a type is complete. *)
From Verif Require Import Base CompleteModel.

(** [basic.types.general]: a class from its definition on; an array of known bound of a complete type; not
    void.  Functions and references are neither; what a reference refers to can be. *)
Inductive complete_at (before : list event) : type -> Prop :=
| c_object k : complete_at before (Object k)
| c_pointer t : complete_at before (Pointer t)
| c_class c : In (Define c) before -> complete_at before (Class c)
| c_array t n : complete_at before t -> complete_at before (Array t (Some n)).
Definition is_object (t : type) : Prop := match t with Ref _ | Function => False | _ => True end.
(** The questions in order, each with the text before it. *)
Fixpoint questions (before events : list event) : list (list event * type) :=
  match events with
  | [] => []
  | Ask t :: r => (before, t) :: questions (before ++ [Ask t]) r
  | e :: r => questions (before ++ [e]) r
  end.
(** The text before the first question about [t], which is the one that comes after [before] or an earlier one. *)
Definition first_asked (before : list event) (t : type) (first : list event) : Prop :=
  ~ In (Ask t) first /\ (before = first \/ exists between, before = first ++ Ask t :: between).
(** The classes that matter to a type. *)
Fixpoint about (t : type) : option nat := match t with Class c => Some c | Ref t | Array t _ => about t | _ => None end.
(** Nothing is asked of a class, or of what is made from it, before its definition and again after. *)
Definition asked_in_time (events : list event) : Prop :=
  forall a b t c, events = a ++ Ask t :: b -> about t = Some c -> In (Define c) b -> ~ In (Ask t) b.
(** No arrays of functions, references or void, and no references to references. *)
Fixpoint formed (t : type) : Prop :=
  match t with
  | Array u _ => is_object u /\ u <> Void /\ formed u
  | Ref u => (match u with Ref _ | Void => False | _ => True end) /\ formed u
  | Pointer u => (match u with Ref _ => False | _ => True end) /\ formed u
  | _ => True
  end.
