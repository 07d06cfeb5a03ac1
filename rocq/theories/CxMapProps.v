(** Property C04: cx_map. *)
From Verif Require Import Base CxMapModel CxMapSpec CxMapProofs.
Open Scope N_scope.

(** From a map built from entries with pairwise distinct keys (in particular none), every
    history of operations within capacity conforms to a finite map. [entries m es] says
    that [m] is the map with exactly the bindings [es], and that keys are distinct. *)
Theorem C04_cx_map_is_map :
  forall K V (eqb : K -> K -> bool), (forall x y, eqb x y = true <-> x = y) ->
  forall cap, cap < size_mod ->
  forall (d : K * V) es m s ops, entries m es -> m_make cap d es = Some s ->
  conforms (m_step eqb cap) (map_pre cap) (map_spec eqb cap) s m ops.
Proof. exact @cx_map_conforms. Qed.
Print Assumptions C04_cx_map_is_map.

Example C04_nonvacuous :
  (forall x y, (x =? y) = true <-> x = y) /\ 2 < size_mod /\
  entries (fun k => if k =? 7 then Some 70 else None) [(7, 70)] /\
  exists s s', m_make 2 (0, 0) [(7, 70)] = Some s /\
  run (m_step N.eqb 2) s [MPut 8 80; MFull; MPut 7 71; MGet 7; MErase 7; MContains 7; MGetAssign 8 81; MPop; MEmpty]
  = Done s' [MBool true; MBool true; MBool false; MVal 71; MNum 1; MBool false; MUnit; MEntry (8, 81); MBool true] [].
Proof.
  split; [exact N.eqb_eq|]. split; [reflexivity|]. split.
  - split; [repeat constructor; cbn; tauto|]. intros k v. cbn [In].
    destruct (N.eqb_spec k 7); split; intros H.
    + destruct H as [H|[]]. congruence.
    + left. congruence.
    + destruct H as [H|[]]. congruence.
    + discriminate.
  - do 2 eexists. split; reflexivity.
Qed.

(** The constructor does not de-duplicate: with a repeated key the result is not a map. *)
Theorem C04_constructor_with_duplicates_refuted :
  forall K V (eqb : K -> K -> bool), (forall x y, eqb x y = true <-> x = y) ->
  forall d k (v1 v2 : V) cap, 2 <= cap -> cap < size_mod ->
  exists s s1, m_make cap d [(k, v1); (k, v2)] = Some s /\
    run (m_step eqb cap) s [MSize; MErase k; MContains k; MGet k]
    = Done s1 [MNum 2; MNum 1; MBool true; MVal v2] [].
Proof. exact @cx_map_dup_refuted. Qed.
Print Assumptions C04_constructor_with_duplicates_refuted.
Example C04_dup_nonvacuous : 2 <= 5 /\ 5 < size_mod.
Proof. split; [lia|reflexivity]. Qed.
