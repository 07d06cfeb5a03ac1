(** What a user expects of nodes that are copied and assigned: the forward list is not affected. *)
From Verif Require Import Base IntrusiveListModel IntrusiveListSpec ForwardListModel ForwardListSpec NodeValueFwdModel.
Open Scope N_scope.

(** The link of a node outside the sequence is set. *)
Definition set_floose (m : fspec) (n : N) (p : ptr) : fspec := {| fseq := fseq m; floose := fun k => if k =? n then p else floose m k |}.

(** [snd st] is the number of nodes in existence.  A copy is in no list, but has the link of its original; a node in
    the list is assigned to only from itself. *)
Definition fvalue_step (pol : policy) (st : fspec * N) (op : fn_op) : option ((fspec * N) * f_out) :=
  let '(m, k) := st in
  match op with
  | FOn op => match fseq_step pol k m op with Some (m', o) => Some ((m', k), o) | None => None end
  | FNewNode => Some ((set_floose m k None, k + 1), FNode k)
  | FCopyNode a => if a <? k then Some ((set_floose m k (flink m a), k + 1), FNode k) else None
  | FAssignNode d a =>
      if (d <? k) && (a <? k) && ((d =? a) || negb (mem d (fseq m)))
      then Some ((if d =? a then m else set_floose m d (flink m a), k), FUnit) else None
  end.

(** The same for the checked policy if only nodes outside the list, and the last one in it, are copied: a plain list
    of nodes. *)
Definition fplain_step (k : N) (l : list N) (op : f_op) : option (list N * f_out) :=
  let fresh n := (n <? k) && negb (mem n l) in
  match op with
  | FPushFront n => if fresh n then Some (n :: l, FUnit) else None
  | FPushBack n => if fresh n then Some (l ++ [n], FUnit) else None
  | FPopFront => match l with n :: r => Some (r, FNode n) | [] => None end
  | FClear => Some ([], FUnit)
  | FEmpty => Some (l, FBool (match l with [] => true | _ => false end))
  | FFront => match l with n :: _ => Some (l, FNode n) | [] => None end
  | FBack => match rev l with n :: _ => Some (l, FNode n) | [] => None end
  | FItems => Some (l, FList l)
  | FNext n => None
  end.
(** Node [a] is in the list, and others come after it. *)
Definition followed (l : list N) (a : N) : bool := mem a (removelast l).
Definition ffree_step (st : list N * N) (op : fn_op) : option ((list N * N) * f_out) :=
  let '(l, k) := st in
  match op with
  | FOn op => match fplain_step k l op with Some (l', o) => Some ((l', k), o) | None => None end
  | FNewNode => Some ((l, k + 1), FNode k)
  | FCopyNode a => if (a <? k) && negb (followed l a) then Some ((l, k + 1), FNode k) else None
  | FAssignNode d a =>
      if (d <? k) && (a <? k) && ((d =? a) || (negb (mem d l) && negb (followed l a))) then Some ((l, k), FUnit) else None
  end.
