(** C138: policies of the user's, and panics that throw. *)
From Verif Require Import Base BaseLemmas CxQueueModel CxQueueSpec CxQueueProofs IntrusiveListModel PoolModel MixModel MixSpec MixProofs CaughtModel CaughtSpec CaughtProofs.
Open Scope N_scope.

(** For every policy, with whatever state it keeps, and every history: the policy is told the
    number of elements (and the capacity) at every push, pop, front and back, a call it refuses
    by an exception leaves the queue as it was, and the others are those of a FIFO list, as long
    as the policy does not let a call through that cannot be done. *)
Theorem C138_policy : forall (A W : Type) (mv : A -> A) (cap : N) (d : A) (pol : overflow_policy W) (w : W) ops w' l outs,
  0 < cap -> cap < size_mod ->
  spec_run (fifo_with pol cap) (w, []) ops = Some ((w', l), outs) ->
  exists q, run_caught (policy_step mv pol cap) (w, q_init cap d) ops = Some ((w', q), outs).
Proof. intros A W mv cap d pol w ops w' l outs C1 C2 H. exact (policy_run_ok mv cap pol ops C1 C2 w _ _ _ _ (rep_init mv cap C1 C2 d) H). Qed.
Print Assumptions C138_policy.

(** If the policy refuses a push onto a full queue and a pop, front or back of an empty one, there
    is nothing a program can do wrong: every history goes as above. *)
Theorem C138_safe_policy : forall (A W : Type) (mv : A -> A) (cap : N) (d : A) (pol : overflow_policy W) (w : W) ops,
  0 < cap -> cap < size_mod -> protects pol cap ->
  exists w' l q outs, spec_run (fifo_with pol cap) (w, []) ops = Some ((w', l), outs) /\
    run_caught (policy_step mv pol cap) (w, q_init cap d) ops = Some ((w', q), outs).
Proof.
  intros A W mv cap d pol w ops C1 C2 P. destruct (protects_total cap pol ops P w (@nil A)) as ([w' l] & outs & E); [rewrite len_nil; lia|].
  destruct (C138_policy A W mv cap d pol w ops w' l outs C1 C2 E) as (q & Q). exists w', l, q, outs. split; assumption.
Qed.
Print Assumptions C138_safe_policy.

(** The library's safe policy with a panic handler that throws: every history goes as for a FIFO
    list of which the calls that cannot be done are refused. *)
Theorem C138_panic_throws : forall (A : Type) (mv : A -> A) (cap : N) (d : A) ops,
  0 < cap -> cap < size_mod ->
  exists l q outs, spec_run (fifo_refuse cap) [] ops = Some (l, outs) /\
    run_caught (q_step mv Safe DoesNotReturn cap) (q_init cap d) ops = Some (q, outs).
Proof.
  intros A mv cap d ops C1 C2. destruct (refuse_total cap ops (@nil A)) as (l & outs & E).
  destruct (refuse_ok mv cap ops C1 C2 _ _ _ _ (rep_init mv cap C1 C2 d) E) as (q & Q). exists l, q, outs. split; assumption.
Qed.
Print Assumptions C138_panic_throws.

(** Intrusive lists of both kinds, with a panic handler that throws: a refused push or insertion
    changes no list and no node, and all lists stay plain lists of their own. *)
Theorem C138_lists : forall (kinds : list kind) (k : nat) ops ls outs,
  lists_refuse kinds (N.of_nat k) (repeat [] (length kinds)) ops ls outs ->
  exists s, run_caught (mix_step (all_checked kinds) DoesNotReturn) (mix_init (all_checked kinds) k) ops = Some (s, outs).
Proof.
  intros kinds k ops ls outs H.
  destruct (lists_refuse_ok _ _ _ _ _ _ H (mix_init (all_checked kinds) k)) as (s & E & _); [unfold len; rewrite repeat_length; reflexivity | apply mix_init_ok | eauto].
Qed.
Print Assumptions C138_lists.

(** A policy that counts its refusals and keeps one place free. *)
Definition ex_policy : overflow_policy N :=
  {| on_push := fun w n c => if n + 1 <? c then (w, true) else (w + 1, false); on_pop := fun w n => if n =? 0 then (w + 1, false) else (w, true) |}.
Example C138_nonvacuous :
  protects ex_policy 3 /\
  spec_run (fifo_with ex_policy 3) (0, []) [Push 1; Push 2; Push 3; Size; Pop; Push 4; Back; Pop; Pop; Pop; Empty] =
    Some ((2, []), [Some (OVal 1); Some (OVal 2); None; Some (ONum 2); Some (OVal 1); Some (OVal 4); Some (OVal 4); Some (OVal 2); Some (OVal 4); None; Some (OBool true)]) /\
  spec_run (fifo_refuse 2) [] [Push 1; Push 2; Push 3; Front; Pop; Push 4; Pop; Pop; Pop; Push 5; Front] =
    Some ([5], [Some (OVal 1); Some (OVal 2); None; Some (OVal 1); Some (OVal 1); Some (OVal 4); Some (OVal 2); Some (OVal 4); None; Some (OVal 5); Some (OVal 5)]) /\
  lists_refuse [Double; Single] 4 [[]; []] [(0, LPushBack 1); (0, LPushBack 2); (1, LPushFront 1); (0, LInsert None 2); (0, LItems); (0, LRemove 1); (1, LPushFront 1)]
    [[2]; [1]] [Some LUnit; Some LUnit; None; None; Some (LList [1; 2]); Some LUnit; Some LUnit].
Proof.
  split; [split; reflexivity|]. split; [reflexivity|]. split; [reflexivity|].
  eapply accepted; [reflexivity|]. eapply accepted; [reflexivity|].
  eapply (refused _ _ _ 1 Single _ 1 0 Double [1; 2]); [reflexivity | reflexivity | left; reflexivity | reflexivity | reflexivity | split; [left; reflexivity | discriminate] |].
  eapply (refused _ _ _ 0 Double _ 2 0 Double [1; 2]); [reflexivity | reflexivity | right; right; eauto | reflexivity | reflexivity | split; [right; left; reflexivity | discriminate] |].
  eapply accepted; [reflexivity|]. eapply accepted; [reflexivity|]. eapply accepted; [reflexivity|]. apply done.
Qed.
