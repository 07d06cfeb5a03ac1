(** What a user expects of intrusive_list: a sequence [seq] of distinct nodes.  The links
    of a node in the sequence are its neighbours; [loose] gives the links of every node
    that is not in the sequence. *)
From Verif Require Import Base IntrusiveListModel.

Record lspec := { seq : list N; loose : N -> node }.
Definition null_node := {| prev := None; next := None |}.

Definition mem (n : N) (l : list N) : bool := existsb (N.eqb n) l.
Definition last_or (p : ptr) (l : list N) : ptr := fold_left (fun _ x => Some x) l p.

(** The neighbours of [n] in [l], where [before] precedes [l]. *)
Fixpoint nbrs (before : ptr) (l : list N) (n : N) : option node :=
  match l with
  | [] => None
  | x :: r => if N.eqb x n then Some {| prev := before; next := hd_error r |}
              else nbrs (Some x) r n
  end.
Definition links (s : lspec) (n : N) : node :=
  match nbrs None (seq s) n with Some nd => nd | None => loose s n end.

Fixpoint insert_before (p n : N) (l : list N) : list N :=
  match l with
  | [] => []
  | x :: r => if N.eqb x p then n :: x :: r else x :: insert_before p n r
  end.
Fixpoint without (n : N) (l : list N) : list N :=
  match l with
  | [] => []
  | x :: r => if N.eqb x n then r else x :: without n r
  end.

(** Nodes leaving the list: null links with the checked policy, otherwise they keep the
    links they had. *)
Definition release (pol : policy) (s : lspec) (out : N -> bool) : N -> node :=
  fun n => if out n then match pol with Checked => null_node | Unchecked => links s n end
           else loose s n.

Definition unlinked (nd : node) : bool := is_null (prev nd) && is_null (next nd).

(** [nodes] is the number of nodes in existence. A node to be inserted must not be in the
    list; with the checked policy its links must be null. *)
Definition insertable (pol : policy) (nodes : N) (s : lspec) (n : N) : bool :=
  (n <? nodes)%N && negb (mem n (seq s)) &&
  match pol with Checked => unlinked (loose s n) | Unchecked => true end.

Definition seq_step (pol : policy) (nodes : N) (s : lspec) (op : l_op)
  : option (lspec * l_out) :=
  let with_seq l := {| seq := l; loose := loose s |} in
  match op with
  | LPushFront n => if insertable pol nodes s n then Some (with_seq (n :: seq s), LUnit) else None
  | LPushBack n => if insertable pol nodes s n then Some (with_seq (seq s ++ [n]), LUnit) else None
  | LInsert None n =>
      (* insertion at end(): the code relies on the node's next being null, see C11 *)
      if insertable pol nodes s n &&
         (match seq s with [] => true | _ => is_null (next (loose s n)) end)
      then Some (with_seq (seq s ++ [n]), LUnit) else None
  | LInsert (Some p) n =>
      if insertable pol nodes s n && mem p (seq s)
      then Some (with_seq (insert_before p n (seq s)), LUnit) else None
  | LPopFront =>
      match seq s with
      | n :: r => Some ({| seq := r; loose := release pol s (N.eqb n) |}, LNode n)
      | [] => None
      end
  | LPopBack =>
      match rev (seq s) with
      | n :: r => Some ({| seq := rev r; loose := release pol s (N.eqb n) |}, LNode n)
      | [] => None
      end
  | LRemove n =>
      if mem n (seq s)
      then Some ({| seq := without n (seq s); loose := release pol s (N.eqb n) |}, LUnit)
      else None
  | LClear => Some ({| seq := []; loose := release pol s (fun n => mem n (seq s)) |}, LUnit)
  | LEmpty => Some (s, LBool (match seq s with [] => true | _ => false end))
  | LFront => match seq s with n :: _ => Some (s, LNode n) | [] => None end
  | LBack => match rev (seq s) with n :: _ => Some (s, LNode n) | [] => None end
  | LItems => Some (s, LList (seq s))
  | LRItems => Some (s, LList (rev (seq s)))
  | LLinks n => if (n <? nodes)%N then Some (s, LPair (prev (links s n)) (next (links s n))) else None
  end.

(** The empty list over a memory [h]: every node is loose. *)
Definition l_spec_init (h : list node) : lspec :=
  {| seq := []; loose := fun n => match rd h n with Some nd => nd | None => null_node end |}.

(** The same for the checked policy when the nodes start with null links, as a plain list
    of node identities and nothing else: a node may be inserted whenever it is not in the
    list, and the links of a node outside the list are null. *)
Definition plain_step (nodes : N) (l : list N) (op : l_op) : option (list N * l_out) :=
  let ok n := (n <? nodes)%N && negb (mem n l) in
  match op with
  | LPushFront n => if ok n then Some (n :: l, LUnit) else None
  | LPushBack n => if ok n then Some (l ++ [n], LUnit) else None
  | LInsert None n => if ok n then Some (l ++ [n], LUnit) else None
  | LInsert (Some p) n => if ok n && mem p l then Some (insert_before p n l, LUnit) else None
  | LPopFront => match l with n :: r => Some (r, LNode n) | [] => None end
  | LPopBack => match rev l with n :: r => Some (rev r, LNode n) | [] => None end
  | LRemove n => if mem n l then Some (without n l, LUnit) else None
  | LClear => Some ([], LUnit)
  | LEmpty => Some (l, LBool (match l with [] => true | _ => false end))
  | LFront => match l with n :: _ => Some (l, LNode n) | [] => None end
  | LBack => match rev l with n :: _ => Some (l, LNode n) | [] => None end
  | LItems => Some (l, LList l)
  | LRItems => Some (l, LList (rev l))
  | LLinks n =>
      if (n <? nodes)%N
      then Some (l, match nbrs None l n with
                    | Some nd => LPair (prev nd) (next nd)
                    | None => LPair None None
                    end)
      else None
  end.
