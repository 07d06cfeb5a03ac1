(** What a user expects of cx_vector: a plain list of at most [cap] elements.  [None]
    marks a violated precondition. *)
From Verif Require Import Base CxVectorModel.

(** After the assignments [ws]: the last one to element [i], or what the list had there. *)
Definition overwritten {A} (l : list A) (ws : list (N * A)) (i : nat) : option A :=
  match find (fun w => (fst w =? N.of_nat i)%N) (rev ws) with Some w => Some (snd w) | None => nth_error l i end.
Fixpoint all_there {A} (l : list (option A)) : option (list A) :=
  match l with
  | [] => Some []
  | Some x :: r => option_map (cons x) (all_there r)
  | None :: _ => None
  end.

Definition vlist_step {A} (cap : N) (l : list A) (op : v_op A) : option (list A * v_out A) :=
  match op with
  | VPush x => if (len l <? cap)%N then Some (l ++ [x], VVal x) else None
  | VPop => match rev l with x :: r => Some (rev r, VVal x) | [] => None end
  | VClear => Some ([], VUnit)
  | VGet i => if (i <? len l)%N
              then option_map (fun x => (l, VVal x)) (nth_error l (N.to_nat i)) else None
  | VSet i x => if (i <? len l)%N then Some (set_nth (N.to_nat i) x l, VUnit) else None
  | VFront => match l with x :: _ => Some (l, VVal x) | [] => None end
  | VBack => match rev l with x :: _ => Some (l, VVal x) | [] => None end
  | VSize => Some (l, VNum (len l))
  | VEmpty => Some (l, VBool (match l with [] => true | _ => false end))
  | VFull => Some (l, VBool (len l =? cap)%N)
  | VItems => Some (l, VList l)
  | VRevItems => Some (l, VList (rev l))
  | VOverwrite ws n =>
      (* assignments within the capacity; the first n elements, each assigned or there before *)
      if forallb (fun w => fst w <? cap)%N ws
      then option_map (fun l' => (l', VUnit)) (all_there (map (overwritten l ws) (seq 0 (N.to_nat n))))
      else None
  end.
