(** Property C127: containers whose keys have an unusual ==. *)
From Coq Require Import Permutation.
From Verif Require Import Base CxSetModel CxMapModel CxMultimapModel KeyEqSpec KeyEqProofs.
Open Scope N_scope.

(** Whatever == is, and whatever a cx_set was built from (repeated values included), every
    history within capacity conforms to the list of stored objects: insert adds only when
    nothing equal is stored and otherwise leaves the stored object alone, contains says
    whether something equal is stored, erase takes out the first equal object and no other. *)
Theorem C127_set :
  forall K (eqb : K -> K -> bool) cap, cap < size_mod ->
  forall d ts s ops, s_make cap d ts = Some s ->
  conforms (s_step eqb) (kset_pre eqb cap) (kset_spec eqb) s ts ops.
Proof. exact @kset_conforms. Qed.
Print Assumptions C127_set.

(** The same for cx_map: put on a key that equals a stored one replaces the value and keeps
    the stored key object. *)
Theorem C127_map :
  forall K V (eqb : K -> K -> bool) cap, cap < size_mod ->
  forall (d : K * V) es s ops, m_make cap d es = Some s ->
  conforms (m_step eqb cap) (kmap_pre eqb cap) (kmap_spec eqb cap) s es ops.
Proof. exact @kmap_conforms. Qed.
Print Assumptions C127_map.

(** The same for cx_multimap, for any == of the keys and any == of the values. *)
Theorem C127_multimap :
  forall K V (keqb : K -> K -> bool) (veqb : V -> V -> bool) kcap vcap,
  kcap < size_mod -> vcap < size_mod ->
  forall dk dv m ops, mm_init kcap vcap dk dv = Some m ->
  conforms (mm_step keqb veqb vcap dv) (kmm_pre keqb veqb kcap vcap) (kmm_spec keqb veqb) m [] ops.
Proof. exact @kmm_conforms. Qed.
Print Assumptions C127_multimap.

(** If == is symmetric, equal elements never come to be stored together. *)
Theorem C127_distinct :
  forall K V (eqb : K -> K -> bool) cap, cap < size_mod -> (forall x y, eqb x y = eqb y x) ->
  (forall d ts s ops, s_make cap d ts = Some s -> distinct eqb ts ->
     conforms (s_step eqb) (kset_pre eqb cap)
       (fun l op o l' => kset_spec eqb l op o l' /\ distinct eqb l') s ts ops) /\
  (forall (d : K * V) es s ops, m_make cap d es = Some s -> distinct eqb (map fst es) ->
     conforms (m_step eqb cap) (kmap_pre eqb cap)
       (fun l op o l' => kmap_spec eqb cap l op o l' /\ distinct eqb (map fst l')) s es ops).
Proof.
  intros K V eqb cap Hc Hs. split.
  - intros d ts s ops. apply kset_conforms_distinct; assumption.
  - intros d es s ops. apply kmap_conforms_distinct; assumption.
Qed.
Print Assumptions C127_distinct.

(** And if it is transitive too (an equivalence, or an equivalence with values that differ
    from themselves), the object found for a key is the only one equal to it. *)
Theorem C127_unique :
  forall K (eqb : K -> K -> bool), (forall x y, eqb x y = eqb y x) ->
  (forall x y z, eqb x y = true -> eqb y z = true -> eqb x z = true) ->
  forall l l1 x l2 k, distinct eqb l -> l = l1 ++ x :: l2 -> eqb x k = true ->
  forall y, In y (l1 ++ l2) -> eqb y k = false.
Proof. exact @distinct_unique. Qed.
Print Assumptions C127_unique.

(** "What has been inserted is contained", "inserting again changes nothing" and "erase
    removes it" are false of every key that nothing equals (a NaN): each insert adds another
    copy until the array overflows, and no copy can be found or erased. *)
Theorem C127_nan_set_refuted :
  forall K (eqb : K -> K -> bool) cap d x s n,
  cap < size_mod -> (forall y, eqb y x = false) -> s_make cap d [] = Some s ->
  N.of_nat n <= cap ->
  (exists s', run (s_step eqb) s (repeat (SInsert x) n ++ [SContains x; SErase x; SSize])
    = Done s' (repeat (SBool true) n ++ [SBool false; SNum 0; SNum (N.of_nat n)]) []) /\
  (N.of_nat n = cap -> run (s_step eqb) s (repeat (SInsert x) n ++ [SInsert x]) = Undef).
Proof. exact @kset_nan_run. Qed.
Print Assumptions C127_nan_set_refuted.

(** In a map the get that follows such a put is undefined behaviour. *)
Theorem C127_nan_map_refuted :
  forall K V (eqb : K -> K -> bool) cap (d : K * V) x v s,
  cap < size_mod -> (forall y, eqb y x = false) -> m_make cap d [] = Some s -> 1 <= cap ->
  exists s', run (m_step eqb cap) s [MPut x v; MContains x] = Done s' [MBool true; MBool false] [] /\
    run (m_step eqb cap) s [MPut x v; MGet x] = Undef.
Proof. exact @kmap_nan_get. Qed.
Print Assumptions C127_nan_map_refuted.

(** Keys compared by their last digit, 99 standing for NaN: 17 and 7 are equal, and the one
    that came first stays. *)
Definition last_digit (x y : N) : bool :=
  negb (x =? 99) && negb (y =? 99) && (x mod 10 =? y mod 10).
Example C127_nonvacuous :
  4 < size_mod /\ (forall y, last_digit y 99 = false) /\
  (forall x y, last_digit x y = last_digit y x) /\
  distinct last_digit [7; 8] /\
  (exists s s', s_make 4 0 [7; 8] = Some s /\
    run (s_step last_digit) s [SInsert 17; SItems; SErase 28; SItems; SInsert 99; SInsert 99;
      SContains 99; SItems]
    = Done s' [SBool false; SList [7; 8]; SNum 1; SList [7]; SBool true; SBool true;
        SBool false; SList [7; 99; 99]] []) /\
  (exists s s', m_make 2 (0, 0) [] = Some s /\
    run (m_step last_digit 2) s [MPut 7 1; MPut 17 2; MGet 27; MItems]
    = Done s' [MBool true; MBool false; MVal 2; MList [(7, 2)]] []) /\
  (exists s s', mm_init 2 2 0 0 = Some s /\
    run (mm_step last_digit last_digit 2 0) s
      [MMInsert 7 1; MMInsert 17 11; MMInsert 27 3; MMOnSet 7 SItems; MMErase 37 21; MMOnSet 7 SItems]
    = Done s' [MMUnit; MMUnit; MMUnit; MMSet (SList [1; 3]); MMNum 1; MMSet (SList [3])] []).
Proof.
  split; [reflexivity|]. split; [|split; [|split; [|split; [|split]]]].
  - intros y. unfold last_digit. rewrite andb_false_r. reflexivity.
  - intros x y. unfold last_digit. rewrite (N.eqb_sym (x mod 10)).
    destruct (x =? 99), (y =? 99); reflexivity.
  - split; [intros y [<-|[]]; split; reflexivity|]. split; [intros y []|exact I].
  - do 2 eexists. split; reflexivity.
  - do 2 eexists. split; reflexivity.
  - do 2 eexists. split; reflexivity.
Qed.
