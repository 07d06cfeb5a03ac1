(** What it means that an argument of a container's member function has a certain value. *)
From Verif Require Import Base CxVectorModel CxQueueModel CxSetModel CxMapModel CxMultimapModel AliasModel.

(** An object elsewhere, or an element of the list [l], by its position. *)
Definition has {A} (l : list A) (a : arg N A) (x : A) : Prop :=
  match a with Elsewhere y => y = x | Element p => nth_error l (N.to_nat p) = Some x end.
(** An object elsewhere, or a value of a multimap with the entries [l]: by the positions of its entry and in it. *)
Definition has_in {K V} (l : list (K * cset V)) (b : arg (N * N) V) (x : V) : Prop :=
  match b with
  | Elsewhere y => y = x
  | Element (i, j) => exists k s vs, nth_error l (N.to_nat i) = Some (k, s) /\ s_items s = Some vs /\ nth_error vs (N.to_nat j) = Some x
  end.
