(** Property C13: intrusive_forward_list. *)
From Verif Require Import Base IntrusiveListModel ForwardListModel ForwardListSpec ForwardListProofs.
Open Scope N_scope.

(** C13. For either policy, whatever the nodes' next pointers are to begin with, and every
    history that the sequence specification accepts, the list accepts it without panic and
    every output (traversal, front, back, popped nodes, and the next pointer of every node
    in or out of the list) is the sequence's. *)
Theorem C13_forward_list_is_sequence :
  forall (pol : policy) (hd : handler) (h : list ptr) ops m outs,
  spec_run (fseq_step pol (len h)) (f_spec_init h) ops = Some (m, outs) ->
  exists s, run (f_step pol hd) (f_init h) ops = Done s outs [].
Proof. exact forward_list_seq. Qed.
Print Assumptions C13_forward_list_is_sequence.

Example C13_nonvacuous :
  option_map snd (spec_run (fseq_step Checked 3) (f_spec_init [None; None; None])
    [FPushBack 1; FPushFront 0; FPushBack 2; FItems; FPopFront; FNext 0; FPushBack 0; FItems; FBack; FClear; FNext 2; FEmpty])
  = Some [FUnit; FUnit; FUnit; FList [0; 1; 2]; FNode 0; FPtr None; FUnit; FList [1; 2; 0]; FNode 0; FUnit; FPtr None; FBool true] /\
  option_map snd (spec_run (fseq_step Unchecked 2) (f_spec_init [Some 1; Some 9])
    [FPushBack 1; FPushFront 0; FPopFront; FNext 0; FPushBack 0; FItems])
  = Some [FUnit; FUnit; FNode 0; FPtr (Some 1); FUnit; FList [1; 0]].
Proof. split; reflexivity. Qed.

(** C12 for the forward list: pushing a node of the list again panics exactly when the node
    is not the last one. *)
Theorem C12_forward_list_panics_partial :
  forall (h : list ptr) ops m outs n op,
  spec_run (fseq_step Checked (len h)) (f_spec_init h) ops = Some (m, outs) ->
  In n (fseq m) -> op = FPushFront n \/ op = FPushBack n ->
  exists s, run (f_step Checked DoesNotReturn) (f_init h) ops = Done s outs [] /\
   (f_step Checked DoesNotReturn s op = Stopped s BadListNode <->
    exists l1 x l2, fseq m = l1 ++ n :: x :: l2).
Proof. exact forward_checked_panics. Qed.
Print Assumptions C12_forward_list_panics_partial.

(** ... and pushing the last node to the front again is never detected; iteration over the
    list then never ends. *)
Theorem C12_forward_list_last_node_undetected_refuted :
  forall (h : list ptr) ops m outs l n (hd : handler),
  spec_run (fseq_step Checked (len h)) (f_spec_init h) ops = Some (m, outs) ->
  fseq m = l ++ [n] ->
  exists s s1, run (f_step Checked hd) (f_init h) ops = Done s outs [] /\
    f_step Checked hd s (FPushFront n) = Done s1 FUnit [] /\
    f_step Checked hd s1 FItems = Undef.
Proof. exact forward_tail_undetected. Qed.
Print Assumptions C12_forward_list_last_node_undetected_refuted.

Example C12_forward_nonvacuous :
  option_map (fun p => fseq (fst p)) (spec_run (fseq_step Checked 3) (f_spec_init [None; None; None])
    [FPushBack 1; FPushFront 0; FPushBack 2]) = Some ([0; 1] ++ [2]).
Proof. reflexivity. Qed.

(** A handler that returns does not save the list: the push reports the node once and then does what the
    unchecked policy does. *)
Theorem C12_forward_returning_handler :
  forall s op n hd, op = FPushFront n \/ op = FPushBack n ->
  f_step Checked DoesNotReturn s op = Stopped s BadListNode ->
  forall s' out ps, f_step Unchecked hd s op = Done s' out ps ->
  f_step Checked Returns s op = Done s' out (BadListNode :: ps).
Proof.
  intros s op n hd [-> | ->] H s' out ps; cbn [f_step] in *; unfold f_check in *;
  (destruct (f_valid (nexts s) (Some n)) as [[|]|]; [|clear H|discriminate]).
  1, 3: match type of H with context [match ?b with _ => _ end] => destruct b; discriminate end.
  all: match goal with |- context [match ?b with _ => _ end] => destruct b; [|discriminate] end; now intros [= <- <- <-].
Qed.
Print Assumptions C12_forward_returning_handler.
Example C12_forward_returning_nonvacuous :
  exists s s1, run (f_step Checked DoesNotReturn) (f_init [None; None]) [FPushBack 0; FPushBack 1] = Done s [FUnit; FUnit] [] /\
  f_step Checked DoesNotReturn s (FPushBack 0) = Stopped s BadListNode /\ f_step Checked Returns s (FPushBack 0) = Done s1 FUnit [BadListNode] /\
  f_step Checked Returns s1 FItems = Done s1 (FList [0]) [].
Proof. do 2 eexists. split; [reflexivity|]. split; [reflexivity|]. split; reflexivity. Qed.
