(** C142: nodes of an intrusive_forward_list that are copied and assigned. *)
From Verif Require Import Base IntrusiveListModel IntrusiveListSpec ForwardListModel ForwardListSpec ForwardListProofs NodeValueFwdModel NodeValueFwdSpec NodeValueFwdProofs.
Open Scope N_scope.

(** Whatever nodes are copied, and whatever is assigned to nodes outside the list, the list behaves as a sequence of
    nodes; [h] are the links of the first nodes. *)
Theorem C142_forward_list_unaffected : forall pol hd h ops m k os,
  spec_run (fvalue_step pol) (f_spec_init h, len h) ops = Some ((m, k), os) -> exists s, run (fn_step pol hd) (f_init h) ops = Done s os [].
Proof. intros pol hd h ops m k os H. destruct (fvalue_run_ok pol hd ops _ _ _ _ _ _ (f_init_rep h) H) as (s & E & _). eauto. Qed.
Print Assumptions C142_forward_list_unaffected.
Example C142_forward_list_unaffected_example :
  option_map snd (spec_run (fvalue_step Unchecked) (f_spec_init (repeat None 3), 3)
    [FOn (FPushBack 0); FOn (FPushBack 1); FCopyNode 0; FAssignNode 2 0; FOn FItems; FOn (FNext 3); FOn (FPushFront 3); FOn FItems; FOn FPopFront; FOn FBack]) =
  Some [FUnit; FUnit; FNode 3; FUnit; FList [0; 1]; FPtr (Some 1); FUnit; FList [3; 0; 1]; FNode 3; FNode 1].
Proof. vm_compute. reflexivity. Qed.

(** With the checked policy, as long as only nodes outside the list are assigned to, and no node that another follows
    is copied, every node outside the list, copies included, can be put in it. *)
Theorem C142_forward_free_nodes : forall hd k ops l k' os,
  spec_run ffree_step ([], N.of_nat k) ops = Some ((l, k'), os) -> exists s, run (fn_step Checked hd) (f_init (repeat None k)) ops = Done s os [].
Proof. exact ffree_nodes. Qed.
Print Assumptions C142_forward_free_nodes.
Example C142_forward_free_nodes_example :
  spec_run ffree_step ([], 2) [FOn (FPushBack 0); FCopyNode 1; FOn (FPushBack 2); FCopyNode 2; FOn FPopFront; FAssignNode 1 0; FOn (FPushFront 3); FOn (FPushBack 1); FOn FItems] =
  Some (([3; 2; 1], 4), [FUnit; FNode 2; FUnit; FNode 3; FNode 0; FUnit; FUnit; FUnit; FList [3; 2; 1]]).
Proof. vm_compute. reflexivity. Qed.

(** A copy of a node that another follows is in no list, but the checked policy panics when it is put in one, whatever
    has happened to the list and to the original since, unless the copy is assigned to. *)
Theorem C142_forward_copy_refuted : forall h ops1 m1 k1 os1 A n x B ops2 m2 k2 os2 op,
  spec_run (fvalue_step Checked) (f_spec_init h, len h) ops1 = Some ((m1, k1), os1) -> fseq m1 = A ++ n :: x :: B ->
  spec_run (fvalue_step Checked) (m1, k1) (FCopyNode n :: ops2) = Some ((m2, k2), os2) -> (forall a, ~ In (FAssignNode k1 a) ops2) ->
  op = FPushFront k1 \/ op = FPushBack k1 ->
  ~ In k1 (fseq m2) /\ exists s, run (fn_step Checked DoesNotReturn) (f_init h) (ops1 ++ FCopyNode n :: ops2) = Done s (os1 ++ os2) [] /\
    fn_step Checked DoesNotReturn s (FOn op) = Stopped s BadListNode.
Proof. exact fcopy_refused. Qed.
Print Assumptions C142_forward_copy_refuted.
Example C142_forward_copy_refuted_example :
  option_map (fun r => (fseq (fst (fst r)), snd (fst r))) (spec_run (fvalue_step Checked) (f_spec_init (repeat None 2), 2) [FOn (FPushBack 0); FOn (FPushBack 1)]) = Some ([] ++ 0 :: 1 :: [], 2) /\
  option_map (fun r => (fseq (fst (fst r)), snd (fst r), snd r))
    (spec_run (fvalue_step Checked) (f_spec_init (repeat None 2), 2) [FOn (FPushBack 0); FOn (FPushBack 1); FCopyNode 0; FOn FClear]) = Some ([], 3, [FUnit; FUnit; FNode 2; FUnit]).
Proof. vm_compute. split; reflexivity. Qed.

(** Assigning to a node of the list breaks the list.  From a fresh node: the list ends at [n]. *)
Theorem C142_forward_assign_fresh_refuted : forall pol hd h ops m k os A n B a,
  spec_run (fvalue_step pol) (f_spec_init h, len h) ops = Some ((m, k), os) -> fseq m = A ++ n :: B -> a < k -> ~ In a (fseq m) -> floose m a = None ->
  exists s s', run (fn_step pol hd) (f_init h) ops = Done s os [] /\ fn_step pol hd s (FAssignNode n a) = Done s' FUnit [] /\
    fn_step pol hd s' (FOn FItems) = Done s' (FList (A ++ [n])) [].
Proof.
  intros pol hd h ops m k os A n B a H E Ha Hin Hl. destruct (fvalue_run_ok pol hd ops _ _ _ _ _ _ (f_init_rep h) H) as (s & E1 & R).
  destruct (fcut pol hd k s m A n B a R E Ha Hin Hl) as (h' & H1 & _ & H3). exists s, (with_nexts s h'). auto.
Qed.
Print Assumptions C142_forward_assign_fresh_refuted.
(** But back() is still the last node of before, and a node [x] that is put behind it is not found. *)
Theorem C142_forward_push_lost_refuted : forall pol hd h ops m k os A n B b a x,
  spec_run (fvalue_step pol) (f_spec_init h, len h) ops = Some ((m, k), os) -> fseq m = A ++ n :: B ++ [b] ->
  a < k -> ~ In a (fseq m) -> floose m a = None -> x < k -> ~ In x (fseq m) -> floose m x = None ->
  exists s s1 s2, run (fn_step pol hd) (f_init h) ops = Done s os [] /\ fn_step pol hd s (FAssignNode n a) = Done s1 FUnit [] /\
    fn_step pol hd s1 (FOn FBack) = Done s1 (FNode b) [] /\ fn_step pol hd s1 (FOn (FPushBack x)) = Done s2 FUnit [] /\
    fn_step pol hd s2 (FOn FItems) = Done s2 (FList (A ++ [n])) [].
Proof.
  intros pol hd h ops m k os A n B b a x H E Ha Hin Hl Hx Hxi Hxl. destruct (fvalue_run_ok pol hd ops _ _ _ _ _ _ (f_init_rep h) H) as (s & E1 & R).
  destruct (flost pol hd k s m A n B b x a R E Ha Hin Hl Hx Hxi Hxl) as (h' & s2 & H1 & H2 & H3 & H4). exists s, (with_nexts s h'), s2. auto.
Qed.
Print Assumptions C142_forward_push_lost_refuted.
(** From a later node of the list: [n] takes its place as well. *)
Theorem C142_forward_assign_later_refuted : forall pol hd h ops m k os A n B a C,
  spec_run (fvalue_step pol) (f_spec_init h, len h) ops = Some ((m, k), os) -> fseq m = A ++ n :: B ++ a :: C ->
  exists s s', run (fn_step pol hd) (f_init h) ops = Done s os [] /\ fn_step pol hd s (FAssignNode n a) = Done s' FUnit [] /\
    fn_step pol hd s' (FOn FItems) = Done s' (FList (A ++ n :: C)) [].
Proof.
  intros pol hd h ops m k os A n B a C H E. destruct (fvalue_run_ok pol hd ops _ _ _ _ _ _ (f_init_rep h) H) as (s & E1 & R).
  destruct (fskip pol hd k s m A n B a C R E) as (h' & H1 & H2). exists s, (with_nexts s h'). auto.
Qed.
Print Assumptions C142_forward_assign_later_refuted.
(** From an earlier node: a traversal does not end. *)
Theorem C142_forward_assign_earlier_refuted : forall pol hd h ops m k os A a B n C,
  spec_run (fvalue_step pol) (f_spec_init h, len h) ops = Some ((m, k), os) -> fseq m = A ++ a :: B ++ n :: C ->
  exists s s', run (fn_step pol hd) (f_init h) ops = Done s os [] /\ fn_step pol hd s (FAssignNode n a) = Done s' FUnit [] /\
    fn_step pol hd s' (FOn FItems) = Undef.
Proof.
  intros pol hd h ops m k os A a B n C H E. destruct (fvalue_run_ok pol hd ops _ _ _ _ _ _ (f_init_rep h) H) as (s & E1 & R).
  destruct (floop pol hd k s m A a B n C R E) as (h' & H1 & H2). exists s, (with_nexts s h'). auto.
Qed.
Print Assumptions C142_forward_assign_earlier_refuted.
Example C142_forward_assign_example : option_map (fun r => (fseq (fst (fst r)), snd (fst r), floose (fst (fst r)) 4, floose (fst (fst r)) 5))
  (spec_run (fvalue_step Checked) (f_spec_init (repeat None 6), 6) [FOn (FPushBack 3); FOn (FPushBack 1); FOn (FPushBack 0); FOn (FPushBack 2)]) = Some ([] ++ 3 :: [1] ++ 0 :: [2], 6, None, None).
Proof. vm_compute. reflexivity. Qed.
