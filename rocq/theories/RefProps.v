(** Property C77: references into the containers. *)
From Verif Require Import Base CxQueueModel CxQueueSpec CxVectorModel CxVectorSpec CxSetModel CxMapModel
  RefModel RefSpec RefProofs.
Open Scope N_scope.

(** cx_queue: a reference obtained from front() or back() after any history designates its
    element for as long as it stays in the queue, whatever else is pushed, popped or assigned:
    reading it gives the element, front() and back() return it when the element is first or
    last, and after assigning through it the queue behaves as the list with that element
    replaced. [q_follow p ops] is where the element at position p is after ops. *)
Theorem C77_queue :
  forall A (mv : A -> A) cap d pol h ops0 l0 outs0,
  0 < cap -> cap < size_mod -> spec_run (fifo_step cap) [] ops0 = Some (l0, outs0) ->
  exists q0, run (q_step mv pol h cap) (q_init cap d) ops0 = Done q0 outs0 [] /\
  forall p r, (p < length l0)%nat ->
  (p = O /\ r = q_front_ref q0) \/ (S p = length l0 /\ r = q_back_ref q0) ->
  forall ops l outs p', spec_run (fifo_step cap) l0 ops = Some (l, outs) -> q_follow p ops = Some p' ->
  exists q, run (q_step mv pol h cap) q0 ops = Done q outs [] /\
    q_read q r = nth_error l p' /\
    (p' = O -> q_front_ref q = r) /\ (S p' = length l -> q_back_ref q = r) /\
    forall w, exists q', q_assign q r w = Some q' /\
      forall ops2 l2 outs2, spec_run (fifo_step cap) (set_nth p' w l) ops2 = Some (l2, outs2) ->
      exists q2, run (q_step mv pol h cap) q' ops2 = Done q2 outs2 [].
Proof. exact queue_refs. Qed.
Print Assumptions C77_queue.

(** The reference push returns is the one back() returns next. *)
Theorem C77_queue_push :
  forall A (mv : A -> A) cap pol h q v q' o ps,
  q_step mv pol h cap q (Push v) = Done q' o ps -> q_push_ref cap q v = Some (q_back_ref q').
Proof. exact queue_push_ref. Qed.
Print Assumptions C77_queue_push.

Example C77_queue_nonvacuous :
  spec_run (fifo_step 3) [] [Push 1; Push 2; Push 3; Pop] = Some ([2; 3], [OVal 1; OVal 2; OVal 3; OVal 1]) /\
  spec_run (fifo_step 3) [2; 3] [Push 4; Pop] = Some ([3; 4], [OVal 4; OVal 2]) /\
  q_follow 1 [Push 4; Pop] = Some 0%nat.
Proof. repeat split. Qed.

(** cx_vector: operator[] and back() give references that designate their element for as
    long as the vector is longer than its index; no operation moves an element. *)
Theorem C77_vector :
  forall A cap (d : A) ts v0 ops0 l0 outs0,
  cap < size_mod -> v_make cap d ts = Some v0 -> spec_run (vlist_step cap) ts ops0 = Some (l0, outs0) ->
  exists v, run (v_step cap) v0 ops0 = Done v outs0 [] /\
  (l0 <> [] -> v_back_ref v = Some (len l0 - 1)) /\
  forall i, i < len l0 -> v_index_ref v i = Some i /\
  forall ops l outs, spec_run (vlist_step cap) l0 ops = Some (l, outs) -> v_stays cap i l0 ops ->
  exists v', run (v_step cap) v ops = Done v' outs [] /\
    v_read v' i = nth_error l (N.to_nat i) /\
    forall w, exists v'', v_assign v' i w = Some v'' /\
      forall ops2 l2 outs2, spec_run (vlist_step cap) (set_nth (N.to_nat i) w l) ops2 = Some (l2, outs2) ->
      exists v2, run (v_step cap) v'' ops2 = Done v2 outs2 [].
Proof. exact vector_refs. Qed.
Print Assumptions C77_vector.

Example C77_vector_nonvacuous :
  v_make 3 0 [5; 6] = Some {| v_storage := [5; 6; 0]; v_size := 2 |} /\
  spec_run (vlist_step 3) [5; 6] [VPush 7; VPop; VPop] = Some ([5], [VVal 7; VVal 7; VVal 6]) /\
  v_stays 3 0 [5; 6] [VPush 7; VPop; VPop].
Proof. repeat split. Qed.

(** cx_map and cx_set: as long as nothing is removed, get(k) (the position of k) stays the
    same reference, whatever is inserted or assigned; and using it is using the key. *)
Theorem C77_map_partial :
  forall K V (eqb : K -> K -> bool) cap ops (m m' : cmap K V) outs ps k r,
  len (m_storage m) < size_mod -> Forall m_keeps ops ->
  run (m_step eqb cap) m ops = Done m' outs ps -> m_ref eqb m k = Some r ->
  m_ref eqb m' k = Some r /\
  m_read m' r = m_get eqb m' k /\ forall v, m_assign m' r v = m_get_assign eqb m' k v.
Proof.
  intros K V eqb cap ops m m' outs ps k r Hc Hk Hr Href.
  pose proof (map_refs eqb cap ops m m' outs ps k r Hc Hk Hr Href) as H.
  split; [exact H|]. split.
  - destruct (m_read m' r) as [v|] eqn:E.
    + rewrite <- E. exact (proj1 (map_ref_use eqb m' k r v H)).
    + unfold m_read, m_get, m_ref in *. destruct (m_find eqb m' k) as [[i|]|]; [injection H as <-|..]; congruence.
  - intro v. exact (proj2 (map_ref_use eqb m' k r v H)).
Qed.
Print Assumptions C77_map_partial.

Theorem C77_set_partial :
  forall K (eqb : K -> K -> bool) ops (s s' : cset K) outs ps x r,
  len (s_storage s) < size_mod -> Forall s_keeps ops ->
  run (s_step eqb) s ops = Done s' outs ps -> s_ref eqb s x = Some r -> s_ref eqb s' x = Some r.
Proof. intros K eqb ops. exact (set_refs eqb ops). Qed.
Print Assumptions C77_set_partial.

Example C77_map_nonvacuous :
  let m := {| m_storage := [(1, 10); (2, 20); (0, 0)]; m_size := 2 |} in
  m_ref N.eqb m 2 = Some 1 /\
  exists m' outs, run (m_step N.eqb 3) m [MPut 3 30; MPut 1 11; MContains 2] = Done m' outs [] /\
    m_ref N.eqb m' 2 = Some 1 /\ m_read m' 1 = Some 20.
Proof. cbn zeta. split; [reflexivity|]. eexists _, _. split; [vm_compute; reflexivity|]. split; reflexivity. Qed.

Example C77_set_nonvacuous :
  let s := {| s_storage := [1; 2; 0]; s_size := 2 |} in
  s_ref N.eqb s 2 = Some 1 /\
  exists s' outs, run (s_step N.eqb) s [SInsert 3; SMerge [1; 2]] = Done s' outs [] /\ s_ref N.eqb s' 2 = Some 1.
Proof. cbn zeta. split; [reflexivity|]. eexists _, _. split; [vm_compute; reflexivity|]. reflexivity. Qed.

(** Erasing another key k' of a map (whose keys are distinct) moves the last entry into the
    slot of k'. So a reference to any other entry stays valid, but the one to the last entry
    then designates a slot outside the map: the entry is somewhere else. *)
Theorem C77_map_erase_refuted :
  forall K V (eqb : K -> K -> bool), (forall x y, eqb x y = true <-> x = y) ->
  forall (m : cmap K V) l k k' r r',
  len (m_storage m) < size_mod -> m_items m = Some l -> NoDup (map fst l) -> k <> k' ->
  m_ref eqb m k = Some r -> m_ref eqb m k' = Some r' ->
  exists m', m_erase eqb m k' = Some (m', 1) /\ m_size m' = m_size m - 1 /\
    m_ref eqb m' k = Some (if r =? m_size m - 1 then r' else r) /\ r' <> r /\
    (r = m_size m - 1 -> ~ r < m_size m').
Proof. intros K V eqb Heq. exact (map_erase_refs eqb Heq). Qed.
Print Assumptions C77_map_erase_refuted.

Example C77_map_erase_nonvacuous :
  let m := {| m_storage := [(1, 10); (2, 20); (0, 0)]; m_size := 2 |} in
  m_ref N.eqb m 2 = Some 1 /\ m_ref N.eqb m 1 = Some 0 /\
  exists m', m_erase N.eqb m 1 = Some (m', 1) /\ m_ref N.eqb m' 2 = Some 0 /\
    exists m'', m_assign m' 1 99 = Some m'' /\ m_get N.eqb m'' 2 = Some 20.
Proof.
  cbn zeta. split; [reflexivity|]. split; [reflexivity|]. eexists. split; [vm_compute; reflexivity|].
  split; [reflexivity|]. eexists. split; vm_compute; reflexivity.
Qed.
