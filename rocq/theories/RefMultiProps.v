(** Property C77 for cx_multimap: references to its sets and to values in them. *)
From Verif Require Import Base CxSetModel CxMapModel CxMultimapModel RefModel RefSpec RefMultiModel RefMultiSpec RefMultiProofs.
Open Scope N_scope.

(** As long as nothing is removed, get(k) stays the same reference and every iterator into its
    set stays on its value, whatever keys and values are added. *)
Theorem C77_multimap_partial :
  forall K V (keqb : K -> K -> bool) (veqb : V -> V -> bool) vcap dv ops (m m' : cmap K (cset V)) outs ps,
  vcap < size_mod -> len (m_storage m) < size_mod ->
  (forall e, In e (m_storage m) -> len (s_storage (snd e)) < size_mod) ->
  Forall mm_keeps ops -> run (mm_step keqb veqb vcap dv) m ops = Done m' outs ps ->
  (forall k r, mm_ref keqb m k = Some r -> mm_ref keqb m' k = Some r) /\
  (forall k v r, mm_vref keqb veqb m k v = Some r ->
     mm_vref keqb veqb m' k v = Some r /\ exists x, mm_vread m' r = Some x /\ veqb x v = true).
Proof.
  intros K V keqb veqb vcap dv ops m m' outs ps Hv Hm Hs Hk Hr.
  destruct (mm_run_kept keqb veqb vcap dv Hv ops m m' outs ps (conj Hm Hs) Hk Hr) as [[K1 K2] _].
  split; [exact K1|]. intros k v r H.
  pose proof (kept_vref keqb veqb m m' k v r (conj K1 K2) H) as H'. split; [exact H'|]. eapply vref_read, H'.
Qed.
Print Assumptions C77_multimap_partial.

(** Erasing a value of a key that has others moves no set: references to every set stay valid
    and the other sets are untouched. *)
Theorem C77_multimap_erase_value_partial :
  forall K V (keqb : K -> K -> bool) (veqb : V -> V -> bool) (m m' : cmap K (cset V)) k s n v,
  len (m_storage m) < size_mod -> (forall e, In e (m_storage m) -> len (s_storage (snd e)) < size_mod) ->
  m_get keqb m k = Some s -> 1 < s_size s -> mm_erase keqb veqb m k v = Some (m', n) ->
  m_size m' = m_size m /\ (forall k0, mm_ref keqb m' k0 = mm_ref keqb m k0) /\
  (forall r, mm_ref keqb m k <> Some r -> m_read m' r = m_read m r).
Proof.
  intros K V keqb veqb m m' k s n v H1 H2. apply erase_value_keeps_sets with (1 := conj H1 H2).
Qed.
Print Assumptions C77_multimap_erase_value_partial.

(** Erasing the only value of a key k' erases the key, which moves the last set into its slot:
    a reference to another key's set stays valid unless that set was last; then the reference
    designates a slot outside the multimap. *)
Theorem C77_multimap_erase_refuted :
  forall K V (keqb : K -> K -> bool) (veqb : V -> V -> bool), (forall x y, keqb x y = true <-> x = y) ->
  forall (m : cmap K (cset V)) l k k' v s r r',
  len (m_storage m) < size_mod -> m_items m = Some l -> NoDup (map fst l) -> k <> k' ->
  mm_ref keqb m k = Some r -> mm_ref keqb m k' = Some r' ->
  m_get keqb m k' = Some s -> s_size s = 1 -> s_contains veqb s v = Some true ->
  exists m', mm_erase keqb veqb m k' v = Some (m', 1) /\ m_size m' = m_size m - 1 /\
    mm_ref keqb m' k = Some (if r =? m_size m - 1 then r' else r) /\ r' <> r /\
    (r = m_size m - 1 -> ~ r < m_size m').
Proof. intros K V keqb veqb Heq. intros. eapply erase_value_refs; eassumption. Qed.
Print Assumptions C77_multimap_erase_refuted.

(** Key 1 has 10 and 11, key 2 has 20; capacities 3 and 2. *)
Definition mm_demo : cmap N (cset N) :=
  let set l n := {| s_storage := l; s_size := n |} in
  {| m_storage := [(1, set [10; 11] 2); (2, set [20; 0] 1); (0, set [0; 0] 0)]; m_size := 2 |}.
Example C77_multimap_nonvacuous :
  mm_vref N.eqb N.eqb mm_demo 2 20 = Some (1, 0) /\
  exists m' outs,
    run (mm_step N.eqb N.eqb 2 0) mm_demo [MMInsert 3 30; MMInsert 2 21; MMInsertKey 1; MMOnSet 1 (SInsert 11)] = Done m' outs [] /\
    mm_vref N.eqb N.eqb m' 2 20 = Some (1, 0) /\ mm_vread m' (1, 0) = Some 20.
Proof. split; [reflexivity|]. eexists _, _. split; [vm_compute; reflexivity|]. split; reflexivity. Qed.
Example C77_multimap_erase_nonvacuous :
  (** erasing 10 of key 1 leaves key 2 where it is; erasing 11 as well moves it *)
  exists m1 m2, mm_erase N.eqb N.eqb mm_demo 1 10 = Some (m1, 1) /\ mm_ref N.eqb m1 2 = Some 1 /\
    mm_erase N.eqb N.eqb m1 1 11 = Some (m2, 1) /\ mm_ref N.eqb m2 2 = Some 0 /\
    exists m3, m_assign m2 1 {| s_storage := [0; 0]; s_size := 0 |} = Some m3 /\ mm_contains2 N.eqb N.eqb m3 2 20 = Some true.
Proof.
  eexists _, _. split; [vm_compute; reflexivity|]. split; [reflexivity|]. split; [vm_compute; reflexivity|].
  split; [reflexivity|]. eexists. split; vm_compute; reflexivity.
Qed.
