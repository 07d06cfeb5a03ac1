(** What a user expects of nodes that are copied and assigned: the list is not affected. *)
From Verif Require Import Base IntrusiveListModel IntrusiveListSpec NodeValueModel.
Open Scope N_scope.

(** The links of a node outside the sequence are set. *)
Definition set_loose (m : lspec) (n : N) (nd : node) : lspec := {| seq := seq m; loose := fun k => if k =? n then nd else loose m k |}.

(** [snd st] is the number of nodes in existence.  A copy is in no list, but has the links of its original; a
    node in the list is assigned to only from itself. *)
Definition value_step (pol : policy) (st : lspec * N) (op : n_op) : option ((lspec * N) * l_out) :=
  let '(m, k) := st in
  match op with
  | On op => match seq_step pol k m op with Some (m', o) => Some ((m', k), o) | None => None end
  | NewNode => Some ((set_loose m k null_node, k + 1), LNode k)
  | CopyNode a => if a <? k then Some ((set_loose m k (links m a), k + 1), LNode k) else None
  | AssignNode d a =>
      if (d <? k) && (a <? k) && ((d =? a) || negb (mem d (seq m)))
      then Some ((if d =? a then m else set_loose m d (links m a), k), LUnit) else None
  end.

(** The same for the checked policy if only nodes outside the list are copied: a plain list of nodes. *)
Definition free_step (st : list N * N) (op : n_op) : option ((list N * N) * l_out) :=
  let '(l, k) := st in
  match op with
  | On op => match plain_step k l op with Some (l', o) => Some ((l', k), o) | None => None end
  | NewNode => Some ((l, k + 1), LNode k)
  | CopyNode a => if (a <? k) && negb (mem a l) then Some ((l, k + 1), LNode k) else None
  | AssignNode d a =>
      if (d <? k) && (a <? k) && ((d =? a) || (negb (mem d l) && negb (mem a l))) then Some ((l, k), LUnit) else None
  end.
