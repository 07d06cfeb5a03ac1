(** Specification for C133: const objects. *)
From Coq Require Import List.
From Verif Require Import Base ConstModel.
Import ListNotations.

(** Types whose objects refer to nothing that may be changed: no T& in a tuple and no span of T that is
    not const. Intrusive lists are included. *)
Fixpoint shares_nothing (t : ty) : Prop :=
  match t with
  | Plain => True
  | Vector t | Queue t | CxSet t | Optional t | Latched t | Cached t | Lists t => shares_nothing t
  | CxMap k v | Entry k v | CxMultimap k v => shares_nothing k /\ shares_nothing v
  | Tuple ts => (fix all l := match l with [] => True | t :: l' => shares_nothing t /\ all l' end) ts
  | Reference c t | Span c t => c = true /\ shares_nothing t
  end.
(** Types without intrusive lists anywhere. *)
Fixpoint no_lists (t : ty) : Prop :=
  match t with
  | Plain => True
  | Lists _ => False
  | Vector t | Queue t | CxSet t | Optional t | Latched t | Cached t | Reference _ t | Span _ t => no_lists t
  | CxMap k v | Entry k v | CxMultimap k v => no_lists k /\ no_lists v
  | Tuple ts => (fix all l := match l with [] => True | t :: l' => no_lists t /\ all l' end) ts
  end.
(** Chains that do not ask for a byterator over a type that is not const. *)
Definition honest_bytes (l : list access) : Prop := ~ In (Bytes (Some false)) l.
(** Nor, if there may be a list on the way, for the front or back of something. *)
Definition only_loops (l : list access) : Prop := ~ In Front l /\ ~ In Back l.

(** No pointer in the object, however deep, is to a part of object number r. *)
Inductive not_into (r : nat) : obj -> Prop :=
| leaf_not_into v : not_into r (Leaf v)
| pointer_not_into r' path : r' <> r -> not_into r (Pointer (Place r' path))
| parts_not_into l : Forall (not_into r) l -> not_into r (Parts l).
