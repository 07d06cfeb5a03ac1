(** The assertions of /repo/test/intrusive_list.cpp and intrusive_forward_list.cpp evaluated in
    the models: they check the models against the behaviour the repository's own tests record.
    They are tests, not the property theorems.  Nodes are numbered from 1; the handler returns. *)
From Verif Require Import Base CxTests IntrusiveListModel ForwardListModel.
Import ListNotations.
Open Scope N_scope.

Definition fresh : node := {| prev := None; next := None |}.
Definition nodes4 : list node := [fresh; fresh; fresh; fresh].
Definition lst (pol : policy) := replay (l_step pol Returns) (l_init nodes4).
Local Notation L := (lst Checked).

(** intrusive_list.cpp:34-52. *)
Example test_list_one :
  L [LPushBack 1; LPopFront] = map Out [LUnit; LNode 1] /\ L [LPushFront 1; LPopBack] = map Out [LUnit; LNode 1].
Proof. split; reflexivity. Qed.
(** intrusive_list.cpp:54-65. *)
Example test_list_empty :
  L [LEmpty; LPushBack 1; LEmpty; LPopFront; LEmpty]
  = map Out [LBool true; LUnit; LBool false; LNode 1; LBool true].
Proof. reflexivity. Qed.
(** intrusive_list.cpp:67-92. *)
Example test_list_two :
  L [LPushBack 1; LPushBack 2; LPopFront; LPopFront; LEmpty]
  = map Out [LUnit; LUnit; LNode 1; LNode 2; LBool true] /\
  L [LPushBack 1; LPopFront; LEmpty; LPushBack 2; LPopFront; LEmpty]
  = map Out [LUnit; LNode 1; LBool true; LUnit; LNode 2; LBool true].
Proof. split; reflexivity. Qed.
(** intrusive_list.cpp:111-165. *)
Example test_list_remove :
  L [LPushBack 1; LPushBack 2; LPushBack 3; LRemove 2; LPopFront; LPopFront; LEmpty]
  = map Out [LUnit; LUnit; LUnit; LUnit; LNode 1; LNode 3; LBool true] /\
  L [LPushBack 1; LEmpty; LRemove 1; LEmpty] = map Out [LUnit; LBool false; LUnit; LBool true] /\
  L [LPushBack 1; LPushBack 2; LRemove 1; LPopFront; LEmpty]
  = map Out [LUnit; LUnit; LUnit; LNode 2; LBool true] /\
  L [LPushBack 1; LPushBack 2; LRemove 2; LPopFront; LEmpty]
  = map Out [LUnit; LUnit; LUnit; LNode 1; LBool true].
Proof. repeat split. Qed.
(** intrusive_list.cpp:167-269: what the iterators visit. *)
Example test_list_iterate :
  L [LPushBack 1; LPushBack 2; LPushBack 3; LFront; LBack; LItems; LRItems]
  = map Out [LUnit; LUnit; LUnit; LNode 1; LNode 3; LList [1; 2; 3]; LList [3; 2; 1]].
Proof. reflexivity. Qed.
(** intrusive_list.cpp:271-304. *)
Example test_list_clear_readd :
  L [LPushBack 1; LEmpty; LPushBack 2; LClear; LEmpty] = map Out [LUnit; LBool false; LUnit; LUnit; LBool true] /\
  L [LPushBack 2; LPushBack 1; LRemove 2; LPushBack 2; LPopFront; LPopFront; LEmpty]
  = map Out [LUnit; LUnit; LUnit; LUnit; LNode 1; LNode 2; LBool true] /\
  L [LRemove 1; LEmpty] = map Out [LUnit; LBool true].
Proof. repeat split. Qed.
(** intrusive_list.cpp:306-349. *)
Example test_list_clears_pointers :
  L [LPushBack 1; LPushBack 2; LLinks 2; LPopBack; LLinks 2; LPushBack 2; LLinks 1; LPopFront; LLinks 1]
  = map Out [LUnit; LUnit; LPair (Some 1) None; LNode 2; LPair None None; LUnit; LPair None (Some 2); LNode 1;
             LPair None None] /\
  L [LPushBack 1; LPushBack 2; LLinks 2; LRemove 2; LLinks 2]
  = map Out [LUnit; LUnit; LPair (Some 1) None; LUnit; LPair None None] /\
  L [LPushBack 1; LPushBack 2; LLinks 1; LLinks 2; LClear; LLinks 1; LLinks 2]
  = map Out [LUnit; LUnit; LPair None (Some 2); LPair (Some 1) None; LUnit; LPair None None; LPair None None].
Proof. repeat split. Qed.
(** intrusive_list.cpp:364-378: one panic each. *)
Definition bad : list node := [fresh; {| prev := Some 1; next := None |}].
Definition panics_of {P S O} (o : outcome P S O) : list P := match o with Done _ _ ps => ps | _ => [] end.
Example test_list_panic :
  panics_of (l_step Checked Returns (l_init bad) (LPushBack 1)) = [BadListNode] /\
  panics_of (l_step Checked Returns (l_init bad) (LPushFront 1)) = [BadListNode].
Proof. split; reflexivity. Qed.
(** intrusive_list.cpp:380-396. *)
Example test_list_unchecked :
  lst Unchecked [LPushBack 1; LPushBack 2; LLinks 2; LPopBack; LLinks 2; LPushBack 2; LLinks 1; LPopFront; LLinks 1]
  = map Out [LUnit; LUnit; LPair (Some 1) None; LNode 2; LPair (Some 1) None; LUnit; LPair None (Some 2); LNode 1;
             LPair None (Some 2)].
Proof. reflexivity. Qed.
(** intrusive_list.cpp:398-457. *)
Example test_list_insert :
  L [LInsert None 1; LFront; LBack; LLinks 1] = map Out [LUnit; LNode 1; LNode 1; LPair None None] /\
  L [LPushBack 1; LInsert (Some 1) 2; LFront; LBack; LLinks 2; LLinks 1]
  = map Out [LUnit; LUnit; LNode 2; LNode 1; LPair None (Some 1); LPair (Some 2) None] /\
  L [LPushBack 1; LInsert None 2; LFront; LBack; LLinks 2; LLinks 1]
  = map Out [LUnit; LUnit; LNode 1; LNode 2; LPair (Some 1) None; LPair None (Some 2)] /\
  L [LPushBack 1; LPushBack 3; LInsert (Some 3) 2; LFront; LBack; LLinks 1; LLinks 2; LLinks 3]
  = map Out [LUnit; LUnit; LUnit; LNode 1; LNode 3; LPair None (Some 2); LPair (Some 1) (Some 3);
             LPair (Some 2) None].
Proof. repeat split. Qed.
(** intrusive_list.cpp:459-485: the new node, 3, goes before 2. *)
Example test_list_insert_use :
  L [LPushBack 1; LPushBack 2; LInsert (Some 2) 3; LLinks 2; LLinks 3; LItems]
  = map Out [LUnit; LUnit; LUnit; LPair (Some 3) None; LPair (Some 1) (Some 2); LList [1; 3; 2]].
Proof. reflexivity. Qed.

Definition flst (pol : policy) := replay (f_step pol Returns) (f_init [None; None; None; None]).
Local Notation F := (flst Checked).
(** intrusive_forward_list.cpp:27-48. *)
Example test_flist_one :
  F [FEmpty; FPushBack 1; FEmpty; FPopFront; FEmpty]
  = map Out [FBool true; FUnit; FBool false; FNode 1; FBool true].
Proof. reflexivity. Qed.
(** intrusive_forward_list.cpp:50-76. *)
Example test_flist_two :
  F [FPushBack 1; FPushBack 2; FPopFront; FPopFront; FEmpty]
  = map Out [FUnit; FUnit; FNode 1; FNode 2; FBool true] /\
  F [FPushBack 1; FPopFront; FEmpty; FPushBack 2; FPopFront; FEmpty]
  = map Out [FUnit; FNode 1; FBool true; FUnit; FNode 2; FBool true].
Proof. split; reflexivity. Qed.
(** intrusive_forward_list.cpp:96-198. *)
Example test_flist_iterate :
  F [FPushBack 1; FPushBack 2; FPushBack 3; FFront; FBack; FItems]
  = map Out [FUnit; FUnit; FUnit; FNode 1; FNode 3; FList [1; 2; 3]].
Proof. reflexivity. Qed.
(** intrusive_forward_list.cpp:200-236. *)
Example test_flist_clear :
  F [FPushBack 1; FPushBack 2; FNext 1; FClear; FEmpty; FNext 1]
  = map Out [FUnit; FUnit; FPtr (Some 2); FUnit; FBool true; FPtr None] /\
  F [FPushBack 1; FPushBack 2; FNext 1; FPopFront; FNext 1]
  = map Out [FUnit; FUnit; FPtr (Some 2); FNode 1; FPtr None].
Proof. split; reflexivity. Qed.
(** intrusive_forward_list.cpp:252-267. *)
Example test_flist_panic :
  panics_of (f_step Checked Returns (f_init [None; Some 1]) (FPushBack 1)) = [BadListNode] /\
  panics_of (f_step Checked Returns (f_init [None; Some 1]) (FPushFront 1)) = [BadListNode].
Proof. split; reflexivity. Qed.
(** intrusive_forward_list.cpp:269-280. *)
Example test_flist_unchecked :
  flst Unchecked [FPushBack 1; FPushBack 2; FNext 1; FPopFront; FNext 1]
  = map Out [FUnit; FUnit; FPtr (Some 2); FNode 1; FPtr (Some 2)].
Proof. reflexivity. Qed.
