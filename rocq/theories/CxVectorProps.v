(** Property C03: cx_vector. *)
From Verif Require Import Base CxVectorModel CxVectorSpec CxVectorProofs.
Open Scope N_scope.

(** Every history a plain bounded list accepts is accepted with the same outputs. *)
Theorem C03_cx_vector_is_list :
  forall A cap (d : A) ts v ops l outs,
  cap < size_mod -> v_make cap d ts = Some v ->
  spec_run (vlist_step cap) ts ops = Some (l, outs) ->
  exists v', run (v_step cap) v ops = Done v' outs [].
Proof. exact cx_vector_list. Qed.
Print Assumptions C03_cx_vector_is_list.

Example C03_nonvacuous :
  exists v, v_make 3 0 [5; 6] = Some v /\
  spec_run (vlist_step 3) [5; 6]
    [VPush 7; VFull; VPop; VSet 0 9; VRevItems; VOverwrite [(1, 4); (0, 1)] 2; VItems; VOverwrite [(0, 2); (2, 8); (0, 3)] 3; VItems; VClear; VEmpty]
  = Some ([], [VVal 7; VBool true; VVal 7; VUnit; VList [6; 9]; VUnit; VList [1; 4]; VUnit; VList [3; 4; 8]; VUnit; VBool true]).
Proof. eexists; split; reflexivity. Qed.

(** Two vectors reached by any two histories compare equal exactly when the lists they
    hold have the same length and elements that compare equal pairwise, whatever == of the elements is and
    whatever is left over in the unused part of their storage. If == is equality, the lists are equal. *)
Theorem C03_cx_vector_equality :
  forall A (eqb : A -> A -> bool)
    cap (d1 d2 : A) ts1 ts2 v1 v2 ops1 ops2 l1 l2 outs1 outs2 w1 w2,
  cap < size_mod ->
  v_make cap d1 ts1 = Some v1 -> v_make cap d2 ts2 = Some v2 ->
  spec_run (vlist_step cap) ts1 ops1 = Some (l1, outs1) ->
  spec_run (vlist_step cap) ts2 ops2 = Some (l2, outs2) ->
  run (v_step cap) v1 ops1 = Done w1 outs1 [] ->
  run (v_step cap) v2 ops2 = Done w2 outs2 [] ->
  exists b, v_eq eqb w1 w2 = Some b /\ (b = true <-> Forall2 (fun x y => eqb x y = true) l1 l2) /\
    ((forall x y, eqb x y = true <-> x = y) -> (b = true <-> l1 = l2)).
Proof. exact cx_vector_eq. Qed.
Print Assumptions C03_cx_vector_equality.

Example C03_equality_nonvacuous :
  (forall x y, (x =? y) = true <-> x = y) /\
  (exists v1 w1, v_make 2 0 [5] = Some v1 /\ run (v_step 2) v1 [VPush 6; VPop] = Done w1 [VVal 6; VVal 6] []) /\
  (exists v2 w2, v_make 2 9 [] = Some v2 /\ run (v_step 2) v2 [VPush 5] = Done w2 [VVal 5] []) /\
  spec_run (vlist_step 2) [5] [VPush 6; VPop] = Some ([5], [VVal 6; VVal 6]) /\
  spec_run (vlist_step 2) [] [VPush 5] = Some ([5], [VVal 5]).
Proof.
  split; [exact N.eqb_eq|]. split; [|split; [|split]]; try reflexivity;
  do 2 eexists; split; reflexivity.
Qed.

(** push_back on a full vector and pop_back on an empty one are undefined behaviour in
    every reachable state (there is no check in the code). *)
Theorem C03_cx_vector_overflow_is_undefined :
  forall A cap (d : A) ts v ops l outs,
  cap < size_mod -> v_make cap d ts = Some v ->
  spec_run (vlist_step cap) ts ops = Some (l, outs) ->
  (forall x, len l = cap -> run (v_step cap) v (ops ++ [VPush x]) = Undef) /\
  (l = [] -> run (v_step cap) v (ops ++ [VPop]) = Undef).
Proof. exact cx_vector_ub. Qed.
Print Assumptions C03_cx_vector_overflow_is_undefined.

Example C03_overflow_nonvacuous :
  spec_run (vlist_step 2) [5] [VPush 6] = Some ([5; 6], [VVal 6]) /\
  spec_run (vlist_step 2) [5] [VPop] = Some ([], [VVal 5]).
Proof. split; reflexivity. Qed.
