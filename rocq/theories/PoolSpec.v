(** What a user expects of several lists over the same nodes: each is a list of its own, and
    a node that is in none of them can be put into any. *)
From Verif Require Import Base IntrusiveListModel IntrusiveListSpec PoolModel.
Open Scope N_scope.

(** The node is in none of the lists. *)
Definition free (ls : list (list N)) (n : N) : bool := forallb (fun l => negb (mem n l)) ls.
(** [plain_step] (IntrusiveListSpec.v) is one plain list.  The links of a node are asked for
    through the list it is in, if any. *)
Definition lists_step (nodes : N) (ls : list (list N)) (op : p_op) : option (list (list N) * l_out) :=
  match op with
  | On i o =>
      match rd ls i with
      | None => None
      | Some l =>
          if match o with
             | LPushFront n | LPushBack n | LInsert _ n => free ls n
             | LLinks n => mem n l || free ls n
             | _ => true
             end
          then match plain_step nodes l o with
               | Some (l', x) => match wr ls i l' with Some ls' => Some (ls', x) | None => None end
               | None => None
               end
          else None
      end
  | Assign _ _ => None (* see C92_assign_refuted *)
  | Swap i j => (* each gets the other's nodes *)
      match rd ls i, rd ls j with
      | Some li, Some lj =>
          match wr ls i lj with
          | Some ls1 => match wr ls1 j li with Some ls2 => Some (ls2, LUnit) | None => None end
          | None => None
          end
      | _, _ => None
      end
  | Fresh i => match rd ls i with Some [] => Some (ls, LUnit) | _ => None end (* see C92_destroyed_refuted *)
  end.
