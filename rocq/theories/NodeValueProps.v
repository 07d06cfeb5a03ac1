(** C142: nodes of an intrusive_list that are copied and assigned. *)
From Verif Require Import Base IntrusiveListModel IntrusiveListSpec IntrusiveListProofs NodeValueModel NodeValueSpec NodeValueProofs.
Open Scope N_scope.

(** Whatever nodes are copied, and whatever is assigned to nodes outside the list, the list behaves as a sequence of
    nodes; [h] are the first nodes, with any links. *)
Theorem C142_list_unaffected : forall pol hd h ops m k os,
  spec_run (value_step pol) (l_spec_init h, len h) ops = Some ((m, k), os) -> exists s, run (n_step pol hd) (l_init h) ops = Done s os [].
Proof. intros pol hd h ops m k os H. destruct (value_run_ok pol hd ops _ _ _ _ _ _ (l_init_rep h) H) as (s & E & _). eauto. Qed.
Print Assumptions C142_list_unaffected.
(** Node 3 is a copy of node 0, which is in the list; with the unchecked policy it can be put in the list. *)
Definition ex_ops : list n_op :=
  [On (LPushBack 0); On (LPushBack 1); CopyNode 0; AssignNode 2 1; On LItems; On (LLinks 3); On (LPushFront 3); On LItems; On LRItems].
Example C142_list_unaffected_example :
  option_map snd (spec_run (value_step Unchecked) (l_spec_init (repeat null_node 3), 3) ex_ops) =
  Some [LUnit; LUnit; LNode 3; LUnit; LList [0; 1]; LPair None (Some 1); LUnit; LList [3; 0; 1]; LList [1; 0; 3]].
Proof. vm_compute. reflexivity. Qed.

(** With the checked policy, as long as only nodes outside the list are copied and assigned to, every node outside the
    list, copies included, can be put in it. *)
Theorem C142_free_nodes : forall hd k ops l k' os,
  spec_run free_step ([], N.of_nat k) ops = Some ((l, k'), os) -> exists s, run (n_step Checked hd) (l_init (repeat null_node k)) ops = Done s os [].
Proof. exact free_nodes. Qed.
Print Assumptions C142_free_nodes.
Example C142_free_nodes_example :
  spec_run free_step ([], 2) [On (LPushBack 0); CopyNode 1; On (LPushBack 2); On LPopFront; AssignNode 1 0; CopyNode 0; On (LPushFront 3); On LItems] =
  Some (([3; 2], 4), [LUnit; LNode 2; LUnit; LNode 0; LUnit; LNode 3; LUnit; LList [3; 2]]).
Proof. vm_compute. reflexivity. Qed.

(** A copy of a node of the list is in no list, but the checked policy panics when it is put in one, whatever has
    happened to the list and to the original since, unless the copy is assigned to. *)
Theorem C142_copy_refuted : forall h ops1 m1 k1 os1 n ops2 m2 k2 os2 op,
  spec_run (value_step Checked) (l_spec_init h, len h) ops1 = Some ((m1, k1), os1) -> In n (seq m1) -> 2 <= len (seq m1) ->
  spec_run (value_step Checked) (m1, k1) (CopyNode n :: ops2) = Some ((m2, k2), os2) -> (forall a, ~ In (AssignNode k1 a) ops2) -> is_insertion op k1 ->
  ~ In k1 (seq m2) /\ exists s, run (n_step Checked DoesNotReturn) (l_init h) (ops1 ++ CopyNode n :: ops2) = Done s (os1 ++ os2) [] /\
    n_step Checked DoesNotReturn s (On op) = Stopped s BadListNode.
Proof. exact copy_refused. Qed.
Print Assumptions C142_copy_refuted.
Example C142_copy_refuted_example :
  option_map (fun r => (seq (fst (fst r)), snd (fst r))) (spec_run (value_step Checked) (l_spec_init (repeat null_node 2), 2) [On (LPushBack 0); On (LPushBack 1)]) = Some ([0; 1], 2) /\
  option_map (fun r => (seq (fst (fst r)), snd (fst r), snd r))
    (spec_run (value_step Checked) (l_spec_init (repeat null_node 2), 2) [On (LPushBack 0); On (LPushBack 1); CopyNode 0; On LClear]) = Some ([], 3, [LUnit; LUnit; LNode 2; LUnit]).
Proof. vm_compute. split; reflexivity. Qed.

(** Assigning to a node of the list breaks the list.  From a fresh node: forwards the list ends at [n], backwards as well. *)
Theorem C142_assign_fresh_refuted : forall pol hd h ops m k os A n B a,
  spec_run (value_step pol) (l_spec_init h, len h) ops = Some ((m, k), os) -> seq m = A ++ n :: B -> a < k -> ~ In a (seq m) -> loose m a = null_node ->
  exists s s', run (n_step pol hd) (l_init h) ops = Done s os [] /\ n_step pol hd s (AssignNode n a) = Done s' LUnit [] /\
    n_step pol hd s' (On LItems) = Done s' (LList (A ++ [n])) [] /\ n_step pol hd s' (On LRItems) = Done s' (LList (rev B ++ [n])) [].
Proof.
  intros pol hd h ops m k os A n B a H E Ha Hin Hl. destruct (value_run_ok pol hd ops _ _ _ _ _ _ (l_init_rep h) H) as (s & E1 & R).
  destruct (cut pol hd k s m A n B a R E Ha Hin Hl) as (s' & H1 & H2 & H3). exists s, s'. auto.
Qed.
Print Assumptions C142_assign_fresh_refuted.
Example C142_assign_fresh_refuted_example : exists s s',
  run (n_step Checked Returns) (l_init (repeat null_node 4)) [On (LPushBack 0); On (LPushBack 1); On (LPushBack 2)] = Done s [LUnit; LUnit; LUnit] [] /\
  n_step Checked Returns s (AssignNode 0 3) = Done s' LUnit [] /\ n_step Checked Returns s' (On LItems) = Done s' (LList [0]) [].
Proof. do 2 eexists. vm_compute. repeat split; reflexivity. Qed.

(** From a later node of the list: [n] takes its place as well, and a backward traversal does not end. *)
Theorem C142_assign_later_refuted : forall pol hd h ops m k os A n B a C,
  spec_run (value_step pol) (l_spec_init h, len h) ops = Some ((m, k), os) -> seq m = A ++ n :: B ++ a :: C ->
  exists s s', run (n_step pol hd) (l_init h) ops = Done s os [] /\ n_step pol hd s (AssignNode n a) = Done s' LUnit [] /\
    n_step pol hd s' (On LItems) = Done s' (LList (A ++ n :: C)) [] /\ n_step pol hd s' (On LRItems) = Undef.
Proof.
  intros pol hd h ops m k os A n B a C H E. destruct (value_run_ok pol hd ops _ _ _ _ _ _ (l_init_rep h) H) as (s & E1 & R).
  destruct (skip pol hd k s m A n B a C R E) as (s' & H1 & H2 & H3). exists s, s'. auto.
Qed.
Print Assumptions C142_assign_later_refuted.
(** From an earlier node: a forward traversal does not end. *)
Theorem C142_assign_earlier_refuted : forall pol hd h ops m k os A a B n C,
  spec_run (value_step pol) (l_spec_init h, len h) ops = Some ((m, k), os) -> seq m = A ++ a :: B ++ n :: C ->
  exists s s', run (n_step pol hd) (l_init h) ops = Done s os [] /\ n_step pol hd s (AssignNode n a) = Done s' LUnit [] /\
    n_step pol hd s' (On LItems) = Undef /\ n_step pol hd s' (On LRItems) = Done s' (LList (rev C ++ n :: rev A)) [].
Proof.
  intros pol hd h ops m k os A a B n C H E. destruct (value_run_ok pol hd ops _ _ _ _ _ _ (l_init_rep h) H) as (s & E1 & R).
  destruct (loop pol hd k s m A a B n C R E) as (s' & H1 & H2 & H3). exists s, s'. auto.
Qed.
Print Assumptions C142_assign_earlier_refuted.
Example C142_assign_refuted_example : option_map (fun r => seq (fst (fst r)))
  (spec_run (value_step Checked) (l_spec_init (repeat null_node 4), 4) [On (LPushBack 3); On (LPushBack 1); On (LPushBack 0); On (LPushBack 2)]) = Some ([] ++ 3 :: [1] ++ 0 :: [2]).
Proof. vm_compute. reflexivity. Qed.
