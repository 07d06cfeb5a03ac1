(** C93: iterators of an intrusive list that changes, and loops that change it. *)
From Verif Require Import Base BaseLemmas IntrusiveListModel IntrusiveListSpec IntrusiveListProofs CursorModel CursorSpec CursorProofs.
Open Scope N_scope.

(** Checked policy: in any history of operations on a list and on any number of iterators,
    an iterator stays at its element and moves to whatever follows it at that time; once its
    element has been removed, moving it gives the end. *)
Theorem C93_iterators : forall (hd : handler) (k j : nat) ops l at_ outs,
  spec_run (cursor_step (N.of_nat k)) ([], repeat None j) ops = Some ((l, at_), outs) ->
  exists s, run (c_step Checked hd) {| lst := l_init (repeat {| prev := None; next := None |} k); its := repeat None j |} ops = Done s outs [].
Proof.
  intros hd k j ops l at_ outs H. destruct (cursor_run hd _ _ _ _ _ _ _ _ (cursor_init k j) H) as (s & E & _). eauto.
Qed.
Print Assumptions C93_iterators.

(** After any history, a loop that removes the elements satisfying [p] visits every element and
    removes just those, if it advances the iterator before removing, or with the unchecked
    policy. *)
Theorem C93_erase_partial : forall (t : turn) (pol : policy) (hd : handler) h ops m outs (p : N -> bool),
  t = Early \/ pol = Unchecked ->
  spec_run (seq_step pol (len h)) (l_spec_init h) ops = Some (m, outs) ->
  exists s s', run (l_step pol hd) (l_init h) ops = Done s outs [] /\
    for_loop t pol hd (erase p) (length (seq m)) s = Finished (seq m) s' /\
    run (l_step pol hd) s (map LRemove (filter p (seq m))) = Done s' (map (fun _ => LUnit) (filter p (seq m))) [] /\
    l_step pol hd s' LItems = Done s' (LList (filter (fun n => negb (p n)) (seq m))) [].
Proof.
  intros t pol hd h ops m outs p T H. destruct (l_run_ok pol hd _ _ _ _ _ _ (l_init_rep h) H) as (s & E & R).
  destruct (erase_loop t pol hd _ p T (seq m) s m [] R eq_refl) as (s' & m' & L & R' & E' & Rn).
  exists s, s'. split; [exact E|]. split; [|split; [exact Rn|]].
  - unfold for_loop. destruct R as (_ & _ & Hh & _). rewrite Hh. exact L.
  - rewrite (items_ok pol hd _ _ _ R'), E'. reflexivity.
Qed.
Print Assumptions C93_erase_partial.

(** FINDING: with the checked policy (the default), a loop that removes the current element
    and then advances ends at the first removal; what follows is not visited. *)
Theorem C93_erase_refuted : forall (hd : handler) h ops m outs (p : N -> bool) l1 n l2,
  spec_run (seq_step Checked (len h)) (l_spec_init h) ops = Some (m, outs) ->
  seq m = l1 ++ n :: l2 -> (forall x, In x l1 -> p x = false) -> p n = true ->
  exists s s', run (l_step Checked hd) (l_init h) ops = Done s outs [] /\
    for_loop Late Checked hd (erase p) (length (seq m)) s = Finished (l1 ++ [n]) s' /\
    l_step Checked hd s' LItems = Done s' (LList (l1 ++ l2)) [].
Proof.
  intros hd h ops m outs p l1 n l2 H El P0 P1. destruct (l_run_ok Checked hd _ _ _ _ _ _ (l_init_rep h) H) as (s & E & R).
  destruct (erase_late hd _ p n l2 s m l1 [] R El P0 P1) as (s' & m' & L & R' & E').
  exists s, s'. split; [exact E|]. split.
  - unfold for_loop. destruct R as (_ & _ & Hh & _). rewrite Hh, El. exact L.
  - rewrite (items_ok Checked hd _ _ _ R'), E'. reflexivity.
Qed.
Print Assumptions C93_erase_refuted.

(** A loop whose body appends nodes visits those too: it works through the list as through a
    queue, as long as every appended node is new and has null links. *)
Theorem C93_append : forall (pol : policy) (hd : handler) h ops m outs (kids : N -> list N) all,
  spec_run (seq_step pol (len h)) (l_spec_init h) ops = Some (m, outs) ->
  queue kids (seq m) all -> NoDup all ->
  (forall k, In k all -> In k (seq m) \/ (k < len h /\ loose m k = {| prev := None; next := None |})) ->
  exists s s', run (l_step pol hd) (l_init h) ops = Done s outs [] /\
    for_loop Late pol hd (append kids) (length all) s = Finished all s' /\
    l_step pol hd s' LItems = Done s' (LList all) [].
Proof.
  intros pol hd h ops m outs kids all H Q Hn Hk. destruct (l_run_ok pol hd _ _ _ _ _ _ (l_init_rep h) H) as (s & E & R).
  destruct (append_loop pol hd _ kids _ _ Q s m [] R eq_refl Hn) as (s' & m' & L & R' & E').
  { intros k I. destruct (Hk k I) as [F|(F1 & F2)]; [left; exact F | right; split; [exact F1 | rewrite F2; reflexivity]]. }
  exists s, s'. split; [exact E|]. split.
  - unfold for_loop. destruct R as (_ & _ & Hh & _). rewrite Hh. exact L.
  - rewrite (items_ok pol hd _ _ _ R'), E'. reflexivity.
Qed.
Print Assumptions C93_append.

Section Examples.
  Let free4 := repeat {| prev := None; next := None |} 4.
  Let fill := [LPushBack 2; LPushBack 0; LPushBack 3; LPushBack 1].
  Let even n := N.even n.
  (** An iterator at 0 while 2 is removed, 1 inserted before it and 0 itself moved to the end. *)
  Example C93_iterators_example :
    spec_run (cursor_step 4) ([], repeat None 2)
      [Do (LPushBack 2); Do (LPushBack 0); Do (LPushBack 3); Begin 0; PostInc 0; Do (LRemove 2); InsertAt 0 1; Deref 0;
       Begin 1; Inc 1; Equal 0 1; Do (LRemove 0); Do (LPushFront 0); Copy 1 0; Inc 0; Deref 0; Do (LRemove 0); Inc 1; End 0; Equal 0 1; Do LItems] =
    Some (([1; 3], [None; None]),
      [Out LUnit; Out LUnit; Out LUnit; CUnit; CNode 2; Out LUnit; Out LUnit; CNode 0;
       CUnit; CUnit; CBool true; Out LUnit; Out LUnit; CUnit; CUnit; CNode 1; Out LUnit; CUnit; CUnit; CBool true; Out (LList [1; 3])]).
  Proof. reflexivity. Qed.
  Example C93_loops_example :
    option_map (fun r => seq (fst r)) (spec_run (seq_step Checked 4) (l_spec_init free4) fill) = Some [2; 0; 3; 1] /\
    filter (fun n => negb (even n)) [2; 0; 3; 1] = [3; 1] /\
    (exists s, run (l_step Checked Returns) (l_init free4) fill = Done s [LUnit; LUnit; LUnit; LUnit] [] /\
       (exists s', for_loop Late Checked Returns (erase even) 4 s = Finished [2] s') /\
       (exists s', for_loop Early Checked Returns (erase even) 4 s = Finished [2; 0; 3; 1] s')).
  Proof. repeat split; try reflexivity. eexists. split; [vm_compute; reflexivity|]. split; eexists; vm_compute; reflexivity. Qed.
  Example C93_queue_example :
    queue (fun n => if n =? 2 then [0; 3] else if n =? 3 then [1] else []) [2] [2; 0; 3; 1].
  Proof. repeat constructor. Qed.
End Examples.
