(** Property C05: cx_set. *)
From Verif Require Import Base CxSetModel CxSetSpec CxSetProofs.
Open Scope N_scope.

(** From a set built from pairwise distinct values (in particular from none), every
    history of operations within capacity conforms to a mathematical set. *)
Theorem C05_cx_set_is_set :
  forall K (eqb : K -> K -> bool), (forall x y, eqb x y = true <-> x = y) ->
  forall cap, cap < size_mod ->
  forall d ts s ops, NoDup ts -> s_make cap d ts = Some s ->
  conforms (s_step eqb) (set_pre eqb cap) (set_spec eqb) s (in_list eqb ts) ops.
Proof. exact @cx_set_conforms. Qed.
Print Assumptions C05_cx_set_is_set.

Example C05_nonvacuous :
  (forall x y, (x =? y) = true <-> x = y) /\ 3 < size_mod /\ NoDup [7; 8] /\
  exists s, s_make 3 0 [7; 8] = Some s /\
  run (s_step N.eqb) s [SInsert 9; SInsert 7; SErase 7; SContains 7; SMerge [8; 5]; SItems; SPop; SSize]
  = Done {| s_storage := [9; 8; 5]; s_size := 2 |}
      [SBool true; SBool false; SNum 1; SBool false; SUnit; SList [9; 8; 5]; SKey 5; SNum 2] [].
Proof.
  split; [exact N.eqb_eq|]. split; [reflexivity|]. split.
  - repeat constructor; cbn; intros H; repeat destruct H as [H|H]; try discriminate; auto.
  - eexists. split; reflexivity.
Qed.

(** The constructor does not de-duplicate: "a cx_set constructed from a list of values is
    the set of those values" is false as soon as a value is repeated -- an erased value
    is still contained. *)
Theorem C05_constructor_with_duplicates_refuted :
  forall K (eqb : K -> K -> bool), (forall x y, eqb x y = true <-> x = y) ->
  forall d k cap, 2 <= cap -> cap < size_mod ->
  exists s s1, s_make cap d [k; k] = Some s /\
    run (s_step eqb) s [SSize; SErase k; SContains k] = Done s1 [SNum 2; SNum 1; SBool true] [].
Proof.
  exact (fun K eqb H d k cap H2 Hc => cx_set_dup_refuted eqb H d k cap H2 Hc).
Qed.
Print Assumptions C05_constructor_with_duplicates_refuted.
Example C05_dup_nonvacuous : 2 <= 5 /\ 5 < size_mod.
Proof. split; [lia|reflexivity]. Qed.
