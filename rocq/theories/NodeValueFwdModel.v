(** intrusive_forward_list whose nodes are copied and assigned, as NodeValueModel for intrusive_list: a node has a
    public next pointer (list_common.hpp:15-21 asks for no more), which its implicit copy and move operations copy. *)
From Verif Require Import Base IntrusiveListModel ForwardListModel.
Open Scope N_scope.

(** Operations on the list (ForwardListModel), a new node with a null link, a new node that is a copy of [a], and
    [d = a;]. *)
Inductive fn_op := FOn (op : f_op) | FNewNode | FCopyNode (a : N) | FAssignNode (d a : N).

Definition with_nexts (s : flist) (h : list ptr) : flist := {| fhead := fhead s; ftail := ftail s; nexts := h |}.

(** A new node gets the next number.  The payload is not modelled: nodes are told apart by their addresses. *)
Definition fn_step (pol : policy) (hd : handler) (s : flist) (op : fn_op) : outcome l_panic flist f_out :=
  match op with
  | FOn op => f_step pol hd s op
  | FNewNode => Done (with_nexts s (nexts s ++ [None])) (FNode (len (nexts s))) []
  | FCopyNode a => ret (x <- get_next (nexts s) (Some a);; Some (with_nexts s (nexts s ++ [x]), FNode (len (nexts s))))
  | FAssignNode d a => ret (x <- get_next (nexts s) (Some a);; h <- wr (nexts s) d x;; Some (with_nexts s h, FUnit))
  end.
