(** Property C143: containers are values. *)
From Verif Require Import Base CxVectorModel CxVectorSpec CxQueueModel CxQueueSpec CxSetModel CxSetSpec CxMapModel CxMapSpec
  CxMultimapModel CxMultimapSpec ValueCopyModel ValueCopySpec ValueCopyProofs.
Open Scope N_scope.

(** Any number of vectors made from one by copying, assigning, moving and swapping, and used in any
    order: each behaves as a list of its own. What was moved from has the length it had, and its elements
    are what moving left of them. *)
Theorem C143_vectors :
  forall (A : Type) (mv : A -> A) cap (d : A) ts v ops, cap < size_mod -> v_make cap d ts = Some v ->
  conforms (p_step (v_step cap) (v_left mv))
    (values_pre (fn_pre (vlist_step cap)) (fn_restart (vlist_step cap)))
    (values_spec (fn_spec (vlist_step cap)) (fun l => Some (map mv l)) (fn_restart (vlist_step cap)))
    [v] [Some ts] ops.
Proof. exact @vectors_are_values. Qed.
Print Assumptions C143_vectors.

Example C143_vectors_nonvacuous :
  exists v ss, v_make 3 0 [1; 2] = Some v /\
  run (p_step (v_step 3) (v_left (fun _ => 9))) [v]
    [Copy 0; At 1 (VPush 3); At 0 VItems; At 1 VItems; Move 1; At 1 VItems; At 2 VItems; Swap 0 2; At 0 VItems;
     At 2 VItems; MoveAssign 1 0; At 1 VItems; At 0 VItems; Assign 2 1; At 2 VItems]
  = Done ss [NewObject 1; Out (VVal 3); Out (VList [1; 2]); Out (VList [1; 2; 3]); NewObject 2; Out (VList [9; 9; 9]);
             Out (VList [1; 2; 3]); NoOut; Out (VList [1; 2; 3]); Out (VList [1; 2]); NoOut; Out (VList [1; 2; 3]);
             Out (VList [9; 9; 9]); NoOut; Out (VList [1; 2; 3])] [].
Proof. do 2 eexists. split; reflexivity. Qed.

(** The same for queues, under every policy and panic handler. *)
Theorem C143_queues :
  forall (A : Type) (mv : A -> A) pol h cap (d : A) ops, 0 < cap -> cap < size_mod ->
  conforms (p_step (q_step mv pol h cap) (q_left mv))
    (values_pre (fn_pre (fifo_step cap)) (fn_restart (fifo_step cap)))
    (values_spec (fn_spec (fifo_step cap)) (fun l => Some (map mv l)) (fn_restart (fifo_step cap)))
    [q_init cap d] [Some []] ops.
Proof. exact @queues_are_values. Qed.
Print Assumptions C143_queues.

Example C143_queues_nonvacuous :
  exists ss, run (p_step (q_step (fun _ => 9) Safe DoesNotReturn 2) (q_left (fun _ => 9))) [q_init 2 0]
    [At 0 (Push 1); At 0 (Push 2); At 0 Pop; At 0 (Push 3); Copy 0; At 0 Pop; At 1 Pop; At 1 Pop; At 0 Size; Move 0;
     At 0 Pop; At 2 Pop]
  = Done ss [Out (OVal 1); Out (OVal 2); Out (OVal 1); Out (OVal 3); NewObject 1; Out (OVal 2); Out (OVal 2);
             Out (OVal 3); Out (ONum 1); NewObject 2; Out (OVal 9); Out (OVal 3)] [].
Proof. eexists. reflexivity. Qed.

(** The same for sets. If moving leaves keys as they are ([known]), a set is untouched by moving from it;
    otherwise nothing is promised of it until it is cleared or assigned to, after which it is an ordinary
    set again. *)
Theorem C143_sets :
  forall K (eqb : K -> K -> bool), (forall x y, eqb x y = true <-> x = y) ->
  forall (mv : K -> K) known cap d ts s ops, cap < size_mod -> (known = true -> forall k, mv k = k) ->
  NoDup ts -> s_make cap d ts = Some s ->
  conforms (p_step (s_step eqb) (s_left mv)) (values_pre (set_pre eqb cap) set_restart)
    (values_spec (set_spec eqb) (fun m => if known then Some m else None) set_restart)
    [s] [Some (in_list eqb ts)] ops.
Proof. exact @sets_are_values. Qed.
Print Assumptions C143_sets.

Example C143_sets_nonvacuous :
  NoDup [4; 5] /\ exists s ss, s_make 3 0 [4; 5] = Some s /\
  run (p_step (s_step N.eqb) (s_left (fun _ => 0))) [s]
    [Copy 0; At 0 (SErase 4); At 1 (SContains 4); Move 1; At 1 SClear; At 1 (SInsert 7); At 1 SItems; At 2 SItems]
  = Done ss [NewObject 1; Out (SNum 1); Out (SBool true); NewObject 2; Out SUnit; Out (SBool true); Out (SList [7]);
             Out (SList [4; 5])] [].
Proof. split; [repeat constructor; cbn; intuition discriminate|]. do 2 eexists. split; reflexivity. Qed.

(** The same for maps. Moving from a map moves the values; if it leaves the keys as they are, the map
    keeps its keys and has the moved-from values. *)
Theorem C143_maps :
  forall K V (eqb : K -> K -> bool), (forall x y, eqb x y = true <-> x = y) ->
  forall (mvk : K -> K) (mvv : V -> V) known cap d es m s ops, cap < size_mod ->
  (known = true -> forall k, mvk k = k) -> entries m es -> m_make cap d es = Some s ->
  conforms (p_step (m_step eqb cap) (m_left mvk mvv)) (values_pre (map_pre cap) map_restart)
    (values_spec (map_spec eqb cap) (fun m => if known then Some (fun k => option_map mvv (m k)) else None) map_restart)
    [s] [Some m] ops.
Proof. exact @maps_are_values. Qed.
Print Assumptions C143_maps.

Example C143_maps_nonvacuous :
  entries (fun k => if k =? 7 then Some 70 else None) [(7, 70)] /\
  exists s ss, m_make 2 (0, 0) [(7, 70)] = Some s /\
  run (p_step (m_step N.eqb 2) (m_left (fun k => k) (fun _ => 0))) [s]
    [Copy 0; At 1 (MPut 7 71); At 0 (MGet 7); At 1 (MGet 7); Move 0; At 0 (MGet 7); At 2 (MGet 7); Assign 0 1; At 0 (MGet 7)]
  = Done ss [NewObject 1; Out (MBool false); Out (MVal 70); Out (MVal 71); NewObject 2; Out (MVal 0); Out (MVal 70);
             NoOut; Out (MVal 71)] [].
Proof.
  split; [|do 2 eexists; split; reflexivity]. split; [repeat constructor; cbn; intuition discriminate|].
  intros k v. cbn. destruct (N.eqb_spec k 7) as [->|H]; split.
  - intros [[= <-]|[]]. reflexivity.
  - intros [= <-]. auto.
  - intros [[= <- <-]|[]]. congruence.
  - discriminate.
Qed.

(** The same for multimaps, the sets inside them included. *)
Theorem C143_multimaps :
  forall K V (keqb : K -> K -> bool), (forall x y, keqb x y = true <-> x = y) ->
  forall veqb : V -> V -> bool, (forall x y, veqb x y = true <-> x = y) ->
  forall (mvk : K -> K) (mvv : V -> V) known kcap vcap dk dv s ops, kcap < size_mod -> vcap < size_mod ->
  (known = true -> (forall k, mvk k = k) /\ forall v, mvv v = v) -> mm_init kcap vcap dk dv = Some s ->
  conforms (p_step (mm_step keqb veqb vcap dv) (mm_left mvk mvv)) (values_pre (mm_pre veqb kcap vcap) mm_restart)
    (values_spec (mm_spec veqb) (fun m => if known then Some m else None) mm_restart)
    [s] [Some (fun _ => None)] ops.
Proof. exact @multimaps_are_values. Qed.
Print Assumptions C143_multimaps.

Example C143_multimaps_nonvacuous :
  exists s ss, mm_init 2 2 0 0 = Some s /\
  run (p_step (mm_step N.eqb N.eqb 2 0) (mm_left (fun k => k) (fun v => v))) [s]
    [At 0 (MMInsert 1 10); Copy 0; At 1 (MMInsert 1 11); At 0 MMItems; At 1 MMItems; Move 1; At 1 MMItems; At 1 MMClear;
     At 2 MMItems]
  = Done ss [Out MMUnit; NewObject 1; Out MMUnit; Out (MMList [(1, [10])]); Out (MMList [(1, [10; 11])]); NewObject 2;
             Out (MMList [(1, [10; 11])]); Out MMUnit; Out (MMList [(1, [10; 11])])] [].
Proof. do 2 eexists. split; reflexivity. Qed.

(** "A set that was moved from is still a set" is false, whatever the set: if two of its keys look the
    same once moved from (as strings do), it still has its size and now lists one key twice; erasing that
    key, which reports one removal, leaves it there. *)
Theorem C143_moved_from_set_refuted :
  forall K (eqb : K -> K -> bool), (forall x y, eqb x y = true <-> x = y) ->
  forall (mv : K -> K) cap d ts s a b, cap < size_mod -> s_make cap d ts = Some s ->
  In a ts -> In b ts -> a <> b -> mv a = mv b ->
  exists ss, run (p_step (s_step eqb) (s_left mv)) [s]
    [Move 0; At 0 SSize; At 0 SItems; At 0 (SErase (mv a)); At 0 (SContains (mv a)); At 1 SItems]
  = Done ss [NewObject 1; Out (SNum (len ts)); Out (SList (map mv ts)); Out (SNum 1); Out (SBool true);
             Out (SList ts)] [].
Proof. exact @moved_set. Qed.
Print Assumptions C143_moved_from_set_refuted.

Example C143_moved_from_set_nonvacuous :
  exists s, s_make 3 0 [4; 5] = Some s /\ In 4 [4; 5] /\ In 5 [4; 5] /\ 4 <> 5.
Proof. eexists. repeat split; cbn; auto; discriminate. Qed.

(** Nor is a map that was moved from still a map, when two of its keys look the same once moved from. *)
Theorem C143_moved_from_map_refuted :
  forall K V (eqb : K -> K -> bool), (forall x y, eqb x y = true <-> x = y) ->
  forall (mvk : K -> K) (mvv : V -> V) cap d es s a b, cap < size_mod -> m_make cap d es = Some s ->
  In a (map fst es) -> In b (map fst es) -> a <> b -> mvk a = mvk b ->
  exists ss, run (p_step (m_step eqb cap) (m_left mvk mvv)) [s]
    [Move 0; At 0 MSize; At 0 MItems; At 0 (MErase (mvk a)); At 0 (MContains (mvk a)); At 1 MItems]
  = Done ss [NewObject 1; Out (MNum (len es)); Out (MList (map (fun e => (mvk (fst e), mvv (snd e))) es));
             Out (MNum 1); Out (MBool true); Out (MList es)] [].
Proof. exact @moved_map. Qed.
Print Assumptions C143_moved_from_map_refuted.

Example C143_moved_from_map_nonvacuous :
  exists s, m_make 3 (0, 0) [(4, 40); (5, 50)] = Some s /\
  In 4 (map fst [(4, 40); (5, 50)]) /\ In 5 (map fst [(4, 40); (5, 50)]).
Proof. eexists. repeat split; cbn; auto. Qed.
