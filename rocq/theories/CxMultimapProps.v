(** Property C06: cx_multimap. *)
From Verif Require Import Base CxSetModel CxSetSpec CxMapModel CxMultimapModel CxMultimapSpec CxMultimapProofs.
Open Scope N_scope.

(** Every history of operations within the capacities conforms to a finite map from keys
    to sets of values, including operations on the set returned by get(k). *)
Theorem C06_cx_multimap_is_multimap :
  forall K V (keqb : K -> K -> bool), (forall x y, keqb x y = true <-> x = y) ->
  forall veqb : V -> V -> bool, (forall x y, veqb x y = true <-> x = y) ->
  forall kcap, kcap < size_mod -> forall vcap, vcap < size_mod ->
  forall dk dv s ops, mm_init kcap vcap dk dv = Some s ->
  conforms (mm_step keqb veqb vcap dv) (mm_pre veqb kcap vcap) (mm_spec veqb) s (fun _ => None) ops.
Proof. exact @cx_multimap_conforms. Qed.
Print Assumptions C06_cx_multimap_is_multimap.

Example C06_nonvacuous :
  2 < size_mod /\ exists s s', mm_init 2 2 0 0 = Some s /\
  run (mm_step N.eqb N.eqb 2 0) s
    [MMInsert 1 10; MMInsert 1 11; MMInsertKey 2; MMContains2 1 11; MMSize; MMErase 1 10;
     MMContains 1; MMErase 1 11; MMContains 1; MMOnSet 2 (SInsert 5); MMContains2 2 5; MMInsert 7 6; MMItems; MMClear; MMEmpty]
  = Done s' [MMUnit; MMUnit; MMUnit; MMBool true; MMNum 2; MMNum 1; MMBool true; MMNum 1;
             MMBool false; MMSet (SBool true); MMBool true; MMUnit; MMList [(2, [5]); (7, [6])]; MMUnit; MMBool true] [].
Proof. split; [reflexivity|]. do 2 eexists. split; reflexivity. Qed.

(** "erase returning 0 changes nothing" is false: erase(k, v) on a key that was put with
    insert(k) and has no values removes the key and returns 0. *)
Theorem C06_erase_zero_changes_nothing_refuted :
  forall K V (keqb : K -> K -> bool), (forall x y, keqb x y = true <-> x = y) ->
  forall veqb : V -> V -> bool, (forall x y, veqb x y = true <-> x = y) ->
  forall kcap, kcap < size_mod -> forall vcap, vcap < size_mod ->
  forall dk dv s k v, 0 < kcap -> mm_init kcap vcap dk dv = Some s ->
  exists s', run (mm_step keqb veqb vcap dv) s [MMInsertKey k; MMContains k; MMErase k v; MMContains k]
  = Done s' [MMUnit; MMBool true; MMNum 0; MMBool false] [].
Proof. exact @cx_multimap_erase_zero. Qed.
Print Assumptions C06_erase_zero_changes_nothing_refuted.

Example C06_erase_zero_nonvacuous :
  exists s s', mm_init 2 2 0 0 = Some s /\
  run (mm_step N.eqb N.eqb 2 0) s [MMInsertKey 1; MMContains 1; MMErase 1 7; MMContains 1]
  = Done s' [MMUnit; MMBool true; MMNum 0; MMBool false] [].
Proof. do 2 eexists. split; reflexivity. Qed.
