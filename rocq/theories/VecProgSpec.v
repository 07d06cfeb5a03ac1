(** What a user expects of resize_and_overwrite: the callback works on the elements of the list and [cap - size] elements
    of which nothing is known until they are written. *)
From Verif Require Import Base CxVectorModel CxVectorSpec VecProgModel.

(** Element [i], if it is known. *)
Definition cells (A : Type) := N -> option A.
Definition cells_of {A} (l : list A) : cells A := fun i => nth_error l (N.to_nat i).
Definition put {A} (c : cells A) (i : N) (x : A) : cells A := fun j => if (j =? i)%N then Some x else c j.
(** The first [n] elements, if they are all known. *)
Fixpoint first_cells {A} (c : cells A) (n : nat) : option (list A) :=
  match n with
  | O => Some []
  | S k => match first_cells c k, c (N.of_nat k) with Some l, Some x => Some (l ++ [x]) | _, _ => None end
  end.

(** [None]: an access outside [0, cap), or a read of an element that is not known. *)
Fixpoint expected {A} (cap : N) (c : cells A) (f : callback A) : option (cells A * option N) :=
  match f with
  | Return n => Some (c, Some n)
  | Throw => Some (c, None)
  | Read i next => match c i with Some x => expected cap c (next x) | None => None end
  | Write i x next => if (i <? cap)%N then expected cap (put c i x) next else None
  end.

(** A callback that returns sets the size; one that throws leaves it, but not what it has written. *)
Definition vplist_step {A} (cap : N) (l : list A) (op : vp_op A) : option (list A * vp_out A) :=
  match op with
  | Plain op => option_map (fun '(l', o) => (l', PlainOut o)) (vlist_step cap l op)
  | Overwrite f =>
      match expected cap (cells_of l) (f cap) with
      | Some (c, Some n) => option_map (fun l' => (l', Finished true)) (first_cells c (N.to_nat n))
      | Some (c, None) => option_map (fun l' => (l', Finished false)) (first_cells c (length l))
      | None => None
      end
  end.
