(** Property C131: walking through containers forwards and backwards. *)
From Verif Require Import Base CxVectorModel CxVectorSpec WalkModel WalkSpec WalkProofs.
Open Scope N_scope.

(** cx_vector, const or not, after every history: begin()/end() and cbegin()/cend() compile and give the
    elements in order; std::make_reverse_iterator on end() and begin() gives them in reverse order. *)
Theorem C131_cx_vector_forwards_partial :
  forall A cap (d : A) ts v ops l outs,
  cap < size_mod -> v_make cap d ts = Some v -> spec_run (vlist_step cap) ts ops = Some (l, outs) ->
  exists w, run (v_step cap) v ops = Done w outs [] /\
  (forall oc k, forwards k = true -> walk (v_storage w) (cx_vector_access w oc) k = Some (expected k l)) /\
  (forall oc, walk_made (v_storage w) (cx_vector_access w oc) = Some (rev l)).
Proof. exact cx_vector_walks. Qed.
Print Assumptions C131_cx_vector_forwards_partial.

Example C131_cx_vector_nonvacuous :
  exists v w, v_make 3 0 [5; 6] = Some v /\ run (v_step 3) v [VPush 7; VPop; VPush 8] = Done w [VVal 7; VVal 7; VVal 8] [] /\
  spec_run (vlist_step 3) [5; 6] [VPush 7; VPop; VPush 8] = Some ([5; 6; 8], [VVal 7; VVal 7; VVal 8]) /\
  walk (v_storage w) (cx_vector_access w false) CForwards = Some [5; 6; 8] /\
  walk_made (v_storage w) (cx_vector_access w false) = Some [8; 6; 5].
Proof. do 2 eexists. split; [reflexivity|]. split; [reflexivity|]. repeat split. Qed.

(** Of cx_vector's eight functions, exactly rbegin, rend, crbegin and crend do not compile, for every
    vector, const or not: no loop backwards with them exists. *)
Theorem C131_cx_vector_backwards_refuted :
  forall A (v : vector A) oc,
  (forall a, cx_vector_access v oc a = None <-> In a [RBegin; REnd; CRBegin; CREnd]) /\
  (forall k, forwards k = false -> walk (v_storage v) (cx_vector_access v oc) k = None).
Proof.
  intros A v oc. split; [intros a; apply vector_none|].
  intros k F. destruct k; try discriminate F; unfold walk; cbn [first_of last_of].
  - replace (cx_vector_access v oc RBegin) with (@None iter); [reflexivity|]. symmetry. apply vector_none. cbn. tauto.
  - replace (cx_vector_access v oc CRBegin) with (@None iter); [reflexivity|]. symmetry. apply vector_none. cbn. tauto.
Qed.
Print Assumptions C131_cx_vector_backwards_refuted.

(** span, of const or mutable elements, itself const or not: all four loops compile and give the
    elements of the span, in order or in reverse order, whatever is before and after them. *)
Theorem C131_span :
  forall A (before l after : list A) ec oc k,
  walk (before ++ l ++ after) (span_access (len before) (len l) ec oc) k = Some (expected k l).
Proof. exact span_walks. Qed.
Print Assumptions C131_span.

(** ct_string: all four loops give the characters without the terminator. *)
Theorem C131_ct_string :
  forall (s : list N) oc k, walk (s ++ [0]) (ct_string_access (len s + 1) oc) k = Some (expected k s).
Proof. exact ct_string_walks. Qed.
Print Assumptions C131_ct_string.

Example C131_nonvacuous :
  walk [9; 1; 2; 3; 9] (span_access 1 3 true false) Backwards = Some [3; 2; 1] /\
  walk [9; 1; 2; 3; 9] (span_access 1 3 false true) CForwards = Some [1; 2; 3] /\
  walk [104; 105; 0] (ct_string_access 3 false) CBackwards = Some [105; 104] /\
  walk [104; 105; 0] (ct_string_access 3 true) Forwards = Some [104; 105].
Proof. repeat split. Qed.

(** Constness: a const cx_vector and the c-functions give iterators over const elements, and no others;
    for a span it is the element type that counts. ct_string's reverse iterators are always const. *)
Theorem C131_constness :
  (forall A (v : vector A) oc a i, cx_vector_access v oc a = Some i -> it_type i = expected_type oc a) /\
  (forall p n ec oc a i, span_access p n ec oc a = Some i -> it_type i = expected_type ec a) /\
  (forall n oc a i, ct_string_access n oc a = Some i ->
     it_type i = match a with RBegin | REnd => Reverse true | _ => expected_type oc a end).
Proof.
  split; [|split].
  - intros A v oc a i H. destruct a, oc; cbn in H; congruence || (injection H as <-; reflexivity).
  - intros p n ec oc a i H. destruct a, ec; cbn in H; congruence || (injection H as <-; reflexivity).
  - intros n oc a i H. destruct a, oc, n; cbn in H; congruence || (injection H as <-; reflexivity).
Qed.
Print Assumptions C131_constness.
