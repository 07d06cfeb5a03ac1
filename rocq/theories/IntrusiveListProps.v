(** Properties C10, C11, C12: intrusive_list. *)
From Verif Require Import Base IntrusiveListModel IntrusiveListSpec IntrusiveListProofs.
Open Scope N_scope.

(** C10. For any number k of nodes with null links, any panic handler and any history that
    a plain list of node identities accepts (inserting nodes that are not in the list,
    before a node of the list or at the end, removing nodes of the list, popping when not
    empty), the checked list accepts it without panic, and everything observable -- forward
    and backward traversal, front, back, popped nodes and the links of every node, in the
    list or not -- is what the plain list says. *)
Theorem C10_checked_list_is_plain_list :
  forall (hd : handler) (k : nat) ops l outs,
  spec_run (plain_step (N.of_nat k)) [] ops = Some (l, outs) ->
  exists s, run (l_step Checked hd) (l_init (repeat null_node k)) ops = Done s outs [].
Proof. exact checked_plain. Qed.
Print Assumptions C10_checked_list_is_plain_list.

Example C10_nonvacuous :
  spec_run (plain_step 4) []
    [LPushBack 1; LPushFront 0; LInsert (Some 1) 2; LInsert None 3; LItems; LRItems; LLinks 2;
     LRemove 2; LPopFront; LPopBack; LInsert (Some 1) 0; LItems; LClear; LPushBack 1; LLinks 0; LBack]
  = Some ([1], [LUnit; LUnit; LUnit; LUnit; LList [0; 2; 1; 3]; LList [3; 1; 2; 0];
                LPair (Some 0) (Some 1); LUnit; LNode 0; LNode 3; LUnit; LList [0; 1]; LUnit;
                LUnit; LPair None None; LNode 1]).
Proof. reflexivity. Qed.

(** C10/C11, both policies, whatever the nodes' links are to begin with: every history that
    the sequence specification accepts; [LLinks] outputs include the nodes outside the
    list, so nothing else in memory changes.  Partial for C11: the specification refuses
    insertion at end() of a node whose stale next is not null. *)
Theorem C11_list_any_memory_partial :
  forall (pol : policy) (hd : handler) (h : list node) ops m outs,
  spec_run (seq_step pol (len h)) (l_spec_init h) ops = Some (m, outs) ->
  exists s, run (l_step pol hd) (l_init h) ops = Done s outs [].
Proof. exact intrusive_list_seq. Qed.
Print Assumptions C11_list_any_memory_partial.

Definition stale_memory : list node :=
  [{| prev := Some 7; next := Some 1 |}; {| prev := None; next := Some 0 |};
   {| prev := Some 2; next := None |}].
Example C11_nonvacuous :
  option_map snd (spec_run (seq_step Unchecked 3) (l_spec_init stale_memory)
    [LPushBack 1; LPushFront 0; LInsert None 2; LItems; LPopFront; LLinks 0; LInsert (Some 2) 0; LRItems])
  = Some [LUnit; LUnit; LUnit; LList [0; 1; 2]; LNode 0; LPair None (Some 1); LUnit; LList [2; 0; 1]].
Proof. reflexivity. Qed.

(** C11 is false without that restriction: for every history of the unchecked list and every
    node outside a non-empty list whose stale next is some node x, inserting it at end()
    makes it the last node but leaves its next at x instead of null. *)
Theorem C11_insert_at_end_keeps_stale_next_refuted :
  forall (h : list node) ops m outs n x (hd : handler),
  spec_run (seq_step Unchecked (len h)) (l_spec_init h) ops = Some (m, outs) ->
  n < len h -> ~ In n (seq m) -> seq m <> [] -> next (loose m n) = Some x ->
  exists s s1 p, run (l_step Unchecked hd) (l_init h) ops = Done s outs [] /\
    l_step Unchecked hd s (LInsert None n) = Done s1 LUnit [] /\
    l_step Unchecked hd s1 LBack = Done s1 (LNode n) [] /\
    l_step Unchecked hd s1 (LLinks n) = Done s1 (LPair p (Some x)) [].
Proof. exact unchecked_insert_end_stale. Qed.
Print Assumptions C11_insert_at_end_keeps_stale_next_refuted.

(** A reachable instance, starting from null links: traversal never ends. *)
Example C11_insert_at_end_cycle :
  run (l_step Unchecked Returns) (l_init (repeat null_node 2))
    [LPushBack 0; LPushBack 1; LPopFront; LInsert None 0] = 
    Done {| head := Some 1; tail := Some 0;
            heap := [{| prev := Some 1; next := Some 1 |}; {| prev := None; next := Some 0 |}] |}
         [LUnit; LUnit; LNode 0; LUnit] [] /\
  run (l_step Unchecked Returns) (l_init (repeat null_node 2))
    [LPushBack 0; LPushBack 1; LPopFront; LInsert None 0; LItems] = Undef.
Proof. split; reflexivity. Qed.

(** C12. After any valid history of the checked list, with a panic handler that does not
    return, inserting a node panics (leaving the list untouched) exactly when the node is
    in the list and is not its only node.  Partial: the only node of a list of one is not
    detected. *)
Theorem C12_panics_on_linked_node_partial :
  forall (k : nat) ops l outs n op,
  spec_run (plain_step (N.of_nat k)) [] ops = Some (l, outs) ->
  n < N.of_nat k ->
  op = LPushFront n \/ op = LPushBack n \/ (exists it, op = LInsert it n) ->
  exists s, run (l_step Checked DoesNotReturn) (l_init (repeat null_node k)) ops = Done s outs [] /\
   (l_step Checked DoesNotReturn s op = Stopped s BadListNode <-> In n l /\ l <> [n]).
Proof. exact checked_plain_panics. Qed.
Print Assumptions C12_panics_on_linked_node_partial.

Example C12_nonvacuous :
  spec_run (plain_step 3) [] [LPushBack 1; LPushFront 0] = Some ([0; 1], [LUnit; LUnit]) /\
  In 1 [0; 1] /\ [0; 1] <> [1].
Proof. repeat split; [right; left; reflexivity|discriminate]. Qed.

(** C12 in full is false: pushing the only node of the list again is never detected, and
    iteration over the list then never ends. *)
Theorem C12_sole_node_undetected_refuted :
  forall (hd : handler) (k : nat) ops n outs,
  spec_run (plain_step (N.of_nat k)) [] ops = Some ([n], outs) ->
  exists s s1, run (l_step Checked hd) (l_init (repeat null_node k)) ops = Done s outs [] /\
    l_step Checked hd s (LPushFront n) = Done s1 LUnit [] /\
    l_step Checked hd s1 LItems = Undef.
Proof. exact checked_plain_sole. Qed.
Print Assumptions C12_sole_node_undetected_refuted.

Example C12_refuted_nonvacuous :
  spec_run (plain_step 3) [] [LPushBack 1; LPushFront 0; LPopFront] = Some ([1], [LUnit; LUnit; LNode 0]).
Proof. reflexivity. Qed.

(** A handler that returns does not save the list: the insertion reports the node once and then does what the
    unchecked policy does. *)
Theorem C12_returning_handler :
  forall s op n hd, op = LPushFront n \/ op = LPushBack n \/ (exists it, op = LInsert it n) ->
  l_step Checked DoesNotReturn s op = Stopped s BadListNode ->
  forall s' out ps, l_step Unchecked hd s op = Done s' out ps ->
  l_step Checked Returns s op = Done s' out (BadListNode :: ps).
Proof.
  intros s op n hd Hi H s' out ps.
  assert (W : forall body, with_check Checked DoesNotReturn s n body = Stopped s BadListNode ->
    with_check Unchecked hd s n body = Done s' out ps -> with_check Checked Returns s n body = Done s' out (BadListNode :: ps)).
  { clear. intros body H. unfold with_check in *. destruct (valid_for_push (heap s) (Some n)) as [[|]|]; [|clear H|discriminate].
    - destruct body; discriminate.
    - destruct body; [|discriminate]. now intros [= <- <- <-]. }
  destruct Hi as [-> | [-> | [it ->]]]; cbn [l_step] in *; now apply W.
Qed.
Print Assumptions C12_returning_handler.
Example C12_returning_nonvacuous :
  exists s s1, run (l_step Checked DoesNotReturn) (l_init (repeat null_node 2)) [LPushBack 0; LPushBack 1] = Done s [LUnit; LUnit] [] /\
  l_step Checked DoesNotReturn s (LPushBack 0) = Stopped s BadListNode /\ l_step Checked Returns s (LPushBack 0) = Done s1 LUnit [BadListNode] /\
  l_step Checked Returns s1 LItems = Done s1 (LList [0]) [].
Proof. do 2 eexists. split; [reflexivity|]. split; [reflexivity|]. split; reflexivity. Qed.
