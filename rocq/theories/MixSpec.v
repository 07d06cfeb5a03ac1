(** What a user expects of lists of both kinds over the same nodes: each is a list of its own. *)
From Verif Require Import Base IntrusiveListModel IntrusiveListSpec ForwardListModel ForwardListSpec PoolModel PoolSpec MixModel.
Open Scope N_scope.

(** A plain list ([plain_step], IntrusiveListSpec.v) with the operations of the forward list; its
    nodes have no predecessor. *)
Definition plain_forward (nodes : N) (l : list N) (op : l_op) : option (list N * l_out) :=
  match op with
  | LInsert _ _ | LPopBack | LRemove _ | LRItems => None
  | LLinks n => if n <? nodes then Some (l, LPair None (match after l n with Some p => p | None => None end)) else None
  | _ => plain_step nodes l op
  end.
Definition plain_of (k : kind) := match k with Double => plain_step | Single => plain_forward end.

(** A node is put into a list while it is in none, and its links are asked for through the list
    it is in, if any. *)
Definition mix_lists (kinds : list kind) (nodes : N) (ls : list (list N)) (op : N * l_op) : option (list (list N) * l_out) :=
  let '(i, o) := op in
  match rd kinds i, rd ls i with
  | Some k, Some l =>
      if match o with
         | LPushFront n | LPushBack n | LInsert _ n => free ls n
         | LLinks n => mem n l || free ls n
         | _ => true
         end
      then match plain_of k nodes l o with
           | Some (l', x) => match wr ls i l' with Some ls' => Some (ls', x) | None => None end
           | None => None
           end
      else None
  | _, _ => None
  end.

(** The lists, all with the checked policy. *)
Definition all_checked (kinds : list kind) : list (kind * policy) := map (fun k => (k, Checked)) kinds.

(** The check notices that [n] is in the list [l]: it has a neighbour the list keeps a pointer to. *)
Definition noticed (k : kind) (l : list N) (n : N) : Prop :=
  match k with
  | Double => In n l /\ l <> [n]
  | Single => exists before x after, l = before ++ n :: x :: after
  end.
