(** Property C139: the work of the calls of <stdx/intrusive_list.hpp> and <stdx/intrusive_forward_list.hpp>.
    [t_step] and [ft_step] are a call with the record of its accesses to nodes. *)
From Verif Require Import Base IntrusiveListModel IntrusiveListSpec IntrusiveListProps ForwardListModel ForwardListSpec.
From Verif Require Import TouchModel TouchSpec TouchProofs TouchProofs2.
Open Scope N_scope.

(** The recorded calls are the calls of C10 to C13. *)
Theorem C139_list_calls : forall pol hd s op, fst (t_step pol hd s op) = l_step pol hd s op.
Proof. exact t_step_same. Qed.
Print Assumptions C139_list_calls.
Theorem C139_forward_calls : forall pol hd s op, fst (ft_step pol hd s op) = f_step pol hd s op.
Proof. exact ft_step_same. Qed.
Print Assumptions C139_forward_calls.

(** Constant time: in every state, of every size, a call other than clear() and the walks makes at most nine
    accesses to nodes, on a forward list at most three. *)
Theorem C139_list_constant_time :
  forall pol hd s op, long op = false -> (length (snd (t_step pol hd s op)) <= 9)%nat.
Proof. exact t_step_bounded. Qed.
Print Assumptions C139_list_constant_time.
Theorem C139_forward_constant_time :
  forall pol hd s op, f_long op = false -> (length (snd (ft_step pol hd s op)) <= 3)%nat.
Proof. exact ft_step_bounded. Qed.
Print Assumptions C139_forward_constant_time.

(** After any history: clear() and the walks visit each node of the list once, in order (clear() with the unchecked
    policy none); the other calls touch the node given and the neighbours of the place only. *)
Theorem C139_list_touches :
  forall pol hd h ops m outs op m' o,
  spec_run (seq_step pol (len h)) (l_spec_init h) ops = Some (m, outs) -> seq_step pol (len h) m op = Some (m', o) ->
  exists s, run (l_step pol hd) (l_init h) ops = Done s outs [] /\
  if long op then snd (t_step pol hd s op) = sweep pol m op
  else forall a, In a (snd (t_step pol hd s op)) -> In (node_of a) (near m op).
Proof. exact list_accesses. Qed.
Print Assumptions C139_list_touches.
Theorem C139_forward_touches :
  forall pol hd h ops m outs op m' o,
  spec_run (fseq_step pol (len h)) (f_spec_init h) ops = Some (m, outs) -> fseq_step pol (len h) m op = Some (m', o) ->
  exists s, run (f_step pol hd) (f_init h) ops = Done s outs [] /\
  if f_long op then snd (ft_step pol hd s op) = f_sweep pol m op
  else forall a, In a (snd (ft_step pol hd s op)) -> In (node_of a) (f_near m op).
Proof. exact forward_accesses. Qed.
Print Assumptions C139_forward_touches.

(** So no call touches a node that is neither in the list nor given to it: calls on lists without a node in common
    have no access in common. *)
Theorem C139_list_own_nodes :
  forall pol hd h ops m outs op m' o,
  spec_run (seq_step pol (len h)) (l_spec_init h) ops = Some (m, outs) -> seq_step pol (len h) m op = Some (m', o) ->
  exists s, run (l_step pol hd) (l_init h) ops = Done s outs [] /\
  forall a, In a (snd (t_step pol hd s op)) -> In (node_of a) (given op ++ seq m).
Proof. exact list_own. Qed.
Print Assumptions C139_list_own_nodes.
Theorem C139_forward_own_nodes :
  forall pol hd h ops m outs op m' o,
  spec_run (fseq_step pol (len h)) (f_spec_init h) ops = Some (m, outs) -> fseq_step pol (len h) m op = Some (m', o) ->
  exists s, run (f_step pol hd) (f_init h) ops = Done s outs [] /\
  forall a, In a (snd (ft_step pol hd s op)) -> In (node_of a) (f_given op ++ fseq m).
Proof. exact forward_own. Qed.
Print Assumptions C139_forward_own_nodes.

(** A list of four nodes; a fifth is inserted in the middle, one is removed, the list is cleared. *)
Definition four : list l_op := [LPushBack 0; LPushBack 1; LPushBack 2; LPushBack 3].
Example C139_nonvacuous :
  match spec_run (seq_step Checked 5) (l_spec_init (repeat null_node 5)) four,
        run (l_step Checked Returns) (l_init (repeat null_node 5)) four with
  | Some (m, _), Done s _ _ =>
      seq m = [0; 1; 2; 3] /\
      near m (LInsert (Some 2) 4) = [4; 2; 1] /\
      snd (t_step Checked Returns s (LInsert (Some 2) 4)) =
        [Read 4 Prev; Read 4 Next; Write 4 Next; Read 2 Prev; Write 4 Prev; Write 2 Prev; Read 4 Prev; Read 4 Prev; Write 1 Next] /\
      snd (t_step Checked Returns s (LRemove 1)) =
        [Read 1 Next; Read 1 Prev; Write 0 Next; Write 2 Prev; Write 1 Prev; Write 1 Next] /\
      length (snd (t_step Checked Returns s LClear)) = 12%nat
  | _, _ => False
  end.
Proof. repeat split. Qed.
Example C139_forward_nonvacuous :
  match spec_run (fseq_step Checked 4) (f_spec_init (repeat None 4)) [FPushBack 0; FPushBack 1; FPushBack 2],
        run (f_step Checked Returns) (f_init (repeat None 4)) [FPushBack 0; FPushBack 1; FPushBack 2] with
  | Some (m, _), Done s _ _ =>
      fseq m = [0; 1; 2] /\ snd (ft_step Checked Returns s (FPushBack 3)) = [Read 3 Next; Write 2 Next; Write 3 Next] /\
      snd (ft_step Checked Returns s FItems) = [Read 0 Next; Read 1 Next; Read 2 Next]
  | _, _ => False
  end.
Proof. repeat split. Qed.
