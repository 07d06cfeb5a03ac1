(** intrusive_list whose nodes are copied and assigned.  A node is an ordinary object with public links
    (list_common.hpp:15-28 asks for no more), so its implicit copy and move operations copy the links. *)
From Verif Require Import Base IntrusiveListModel.
Open Scope N_scope.

(** Operations on the list (IntrusiveListModel), a new node with null links, a new node that is a copy of [a]
    ([node_t c = a;] or [node_t c = std::move(a);]: pointers are copied in both), and [d = a;]. *)
Inductive n_op := On (op : l_op) | NewNode | CopyNode (a : N) | AssignNode (d a : N).

Definition with_heap (s : ilist) (h : list node) : ilist := {| head := head s; tail := tail s; heap := h |}.

(** A new node gets the next number.  Assignment also replaces the payload, which is not modelled: nodes are
    told apart by their addresses. *)
Definition n_step (pol : policy) (hd : handler) (s : ilist) (op : n_op) : outcome l_panic ilist l_out :=
  match op with
  | On op => l_step pol hd s op
  | NewNode => Done (with_heap s (heap s ++ [{| prev := None; next := None |}])) (LNode (len (heap s))) []
  | CopyNode a => ret (nd <- get (heap s) (Some a);; Some (with_heap s (heap s ++ [nd]), LNode (len (heap s))))
  | AssignNode d a => ret (nd <- get (heap s) (Some a);; h <- wr (heap s) d nd;; Some (with_heap s h, LUnit))
  end.
