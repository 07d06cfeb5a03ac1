(** Properties C01, C02: cx_queue. *)
From Verif Require Import Base CxQueueModel CxQueueSpec CxQueueProofs.
Open Scope N_scope.

(** C01. For every capacity, policy, panic handler, element type (whatever a moved-from
    element looks like) and every history of operations that a bounded FIFO list accepts,
    the queue accepts it too, without panics, and every output is the FIFO list's. *)
Theorem C01_cx_queue_fifo :
  forall (A : Type) (mv : A -> A) (cap : N) (d : A) pol h ops l outs,
  0 < cap -> cap < size_mod ->
  spec_run (fifo_step cap) [] ops = Some (l, outs) ->
  exists q, run (q_step mv pol h cap) (q_init cap d) ops = Done q outs [].
Proof. exact cx_queue_fifo. Qed.
Print Assumptions C01_cx_queue_fifo.

(** A history that wraps the ring twice meets the hypotheses. *)
Example C01_nonvacuous :
  spec_run (fifo_step 2) [] [Push 1; Push 2; Pop; Push 3; Pop; PushSet 4 5; Back; Full; Pop; Pop; Empty]
  = Some ([], [OVal 1; OVal 2; OVal 1; OVal 3; OVal 2; OUnit; OVal 5; OBool true; OVal 3; OVal 5; OBool true]).
Proof. reflexivity. Qed.

(** C02. After any valid history, with the safe policy and a handler that does not return,
    an operation whose precondition holds completes without panic with the FIFO output, and
    one whose precondition is violated panics with the right message and leaves the queue
    exactly as it was. *)
Theorem C02_cx_queue_panics_exactly :
  forall (A : Type) (mv : A -> A) (cap : N) (d : A) ops l outs op,
  0 < cap -> cap < size_mod ->
  spec_run (fifo_step cap) [] ops = Some (l, outs) ->
  exists q, run (q_step mv Safe DoesNotReturn cap) (q_init cap d) ops = Done q outs [] /\
    match fifo_step cap l op with
    | Some (_, o) => exists q', q_step mv Safe DoesNotReturn cap q op = Done q' o []
    | None => q_step mv Safe DoesNotReturn cap q op = Stopped q (expected_panic op)
    end.
Proof. exact cx_queue_panics_exactly. Qed.
Print Assumptions C02_cx_queue_panics_exactly.

Example C02_nonvacuous :
  spec_run (fifo_step 2) [] [Push 1; Push 2] = Some ([1; 2], [OVal 1; OVal 2]) /\
  fifo_step 2 [1; 2] (Push 3) = None /\ fifo_step 2 [] (@Pop N) = None.
Proof. repeat split. Qed.

(** C02, returning handler (the documented default): after any history that fills the
    queue, a further push panics, then overwrites the oldest element: size() reports
    capacity + 1, full() reports false and front() is the element just pushed. *)
Theorem C02_returning_handler_overflow_corrupts :
  forall (A : Type) (mv : A -> A) (cap : N) (d : A) ops l outs v,
  0 < cap -> cap + 1 < size_mod ->
  spec_run (fifo_step cap) [] ops = Some (l, outs) ->
  len l = cap ->
  exists q, run (q_step mv Safe Returns cap) (q_init cap d) (ops ++ [Push v; Size; Full; Front])
    = Done q (outs ++ [OVal v; ONum (cap + 1); OBool false; OVal v]) [Overflow].
Proof. exact cx_queue_returning_overflow. Qed.
Print Assumptions C02_returning_handler_overflow_corrupts.

Example C02_overflow_nonvacuous :
  spec_run (fifo_step 2) [] [Push 7; Pop; Push 1; Push 2] = Some ([1; 2], [OVal 7; OVal 7; OVal 1; OVal 2])
  /\ len [1; 2] = 2.
Proof. split; reflexivity. Qed.

(** ... and a pop on an empty queue makes size() report 2^64 - 1. *)
Theorem C02_returning_handler_underflow_corrupts :
  forall (A : Type) (mv : A -> A) (cap : N) (d : A) ops outs,
  0 < cap -> cap < size_mod ->
  spec_run (fifo_step cap) [] ops = Some ([], outs) ->
  exists q x, run (q_step mv Safe Returns cap) (q_init cap d) (ops ++ [Pop; Size; Empty])
    = Done q (outs ++ [OVal x; ONum (size_mod - 1); OBool false]) [Underflow].
Proof. exact cx_queue_returning_underflow. Qed.
Print Assumptions C02_returning_handler_underflow_corrupts.

Example C02_underflow_nonvacuous :
  spec_run (fifo_step 3) [] [Push 7; Pop] = Some ([], [OVal 7; OVal 7]).
Proof. reflexivity. Qed.
