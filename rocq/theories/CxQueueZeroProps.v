(** C01 and C02 for a cx_queue of capacity 0. *)
From Verif Require Import Base CxQueueModel CxQueueSpec.
Open Scope N_scope.

Section Zero.
Context {A : Type} (mv : A -> A) (d : A).
(** All states a queue of capacity 0 gets to. *)
Let zero : queue A := q_init 0 d.
Lemma zero_step pol h op o : fifo_step 0 [] op = Some ([], o) -> q_step mv pol h 0 zero op = Done zero o [].
Proof. destruct op; try discriminate; intros [= <-]; reflexivity. Qed.
Lemma zero_spec op l o : fifo_step 0 (@nil A) op = Some (l, o) -> l = [].
Proof. destruct op; try discriminate; now intros [= <- _]. Qed.
Lemma zero_run pol h ops : forall l outs, spec_run (fifo_step 0) [] ops = Some (l, outs) -> l = [] /\ run (q_step mv pol h 0) zero ops = Done zero outs [].
Proof.
  induction ops as [|op ops IH]; intros l outs E; cbn [spec_run run] in *; [injection E as <- <-; auto|].
  destruct (fifo_step 0 [] op) as [[l1 o]|] eqn:E1; [|discriminate]. pose proof (zero_spec _ _ _ E1). subst l1. rewrite (zero_step pol h op o E1).
  destruct (spec_run (fifo_step 0) [] ops) as [[l2 os]|] eqn:E2; [|discriminate]. injection E as <- <-. destruct (IH _ _ eq_refl) as [-> ->]. auto.
Qed.
End Zero.

(** C01 with capacity 0: whatever the policy, the queue is the FIFO list that is always empty and full. *)
Theorem C01_no_capacity : forall (A : Type) (mv : A -> A) (d : A) pol h ops l outs,
  spec_run (fifo_step 0) [] ops = Some (l, outs) ->
  exists q, run (q_step mv pol h 0) (q_init 0 d) ops = Done q outs [].
Proof. intros A mv d pol h ops l outs E. eexists. exact (proj2 (zero_run mv d pol h ops l outs E)). Qed.
Print Assumptions C01_no_capacity.

(** C02 with capacity 0: every push, pop, front and back panics and leaves the queue as it was; with a handler
    that returns, or the policy that does not check, they are undefined. *)
Theorem C02_no_capacity : forall (A : Type) (mv : A -> A) (d : A) ops l outs op pol h,
  spec_run (fifo_step 0) [] ops = Some (l, outs) ->
  exists q, run (q_step mv pol h 0) (q_init 0 d) ops = Done q outs [] /\
    match fifo_step 0 l op with
    | Some (_, o) => exists q', q_step mv pol h 0 q op = Done q' o []
    | None => q_step mv pol h 0 q op = match pol, h with Safe, DoesNotReturn => Stopped q (expected_panic op) | _, _ => Undef end
    end.
Proof.
  intros A mv d ops l outs op pol h E. destruct (zero_run mv d pol h ops l outs E) as [-> R]. exists (q_init 0 d). split; [exact R|].
  destruct op, pol, h; cbn; eauto.
Qed.
Print Assumptions C02_no_capacity.
Example C01_no_capacity_nonvacuous :
  spec_run (fifo_step 0) [] [Size; Full; @Clear N; Empty] = Some ([], [ONum 0; OBool true; OUnit; OBool true]) /\
  fifo_step 0 [] (Push 1) = None /\ fifo_step 0 [] (@Front N) = None.
Proof. repeat split. Qed.
