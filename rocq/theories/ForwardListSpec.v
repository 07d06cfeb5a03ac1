(** intrusive_forward_list as a sequence of distinct nodes; [floose] gives the next pointer
    of every node outside the sequence. *)
From Verif Require Import Base IntrusiveListModel IntrusiveListSpec ForwardListModel.

Record fspec := { fseq : list N; floose : N -> ptr }.

(** The node after [n] in [l] ([Some None] at the end, [None] if [n] is not in [l]). *)
Fixpoint after (l : list N) (n : N) : option ptr :=
  match l with
  | [] => None
  | x :: r => if N.eqb x n then Some (hd_error r) else after r n
  end.
Definition flink (s : fspec) (n : N) : ptr :=
  match after (fseq s) n with Some p => p | None => floose s n end.

Definition f_release (pol : policy) (s : fspec) (out : N -> bool) : N -> ptr :=
  fun n => if out n then match pol with Checked => None | Unchecked => flink s n end
           else floose s n.

(** A node to be pushed is not in the list and, with the checked policy, its next is null. *)
Definition f_insertable (pol : policy) (nodes : N) (s : fspec) (n : N) : bool :=
  (n <? nodes)%N && negb (mem n (fseq s)) &&
  match pol with Checked => is_null (floose s n) | Unchecked => true end.

Definition fseq_step (pol : policy) (nodes : N) (s : fspec) (op : f_op)
  : option (fspec * f_out) :=
  let with_seq l := {| fseq := l; floose := floose s |} in
  match op with
  | FPushFront n => if f_insertable pol nodes s n then Some (with_seq (n :: fseq s), FUnit) else None
  | FPushBack n => if f_insertable pol nodes s n then Some (with_seq (fseq s ++ [n]), FUnit) else None
  | FPopFront =>
      match fseq s with
      | n :: r => Some ({| fseq := r; floose := f_release pol s (N.eqb n) |}, FNode n)
      | [] => None
      end
  | FClear => Some ({| fseq := []; floose := f_release pol s (fun n => mem n (fseq s)) |}, FUnit)
  | FEmpty => Some (s, FBool (match fseq s with [] => true | _ => false end))
  | FFront => match fseq s with n :: _ => Some (s, FNode n) | [] => None end
  | FBack => match rev (fseq s) with n :: _ => Some (s, FNode n) | [] => None end
  | FItems => Some (s, FList (fseq s))
  | FNext n => if (n <? nodes)%N then Some (s, FPtr (flink s n)) else None
  end.

Definition f_spec_init (h : list ptr) : fspec :=
  {| fseq := []; floose := fun n => match rd h n with Some p => p | None => None end |}.
