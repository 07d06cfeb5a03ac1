(** C94: loops over a cx_set or cx_map that erase the current element. *)
From Coq Require Import Permutation.
From Verif Require Import Base BaseLemmas CxSetModel CxMapModel SweepModel SweepProofs.
Open Scope N_scope.

(** A range-based for loop that erases the elements satisfying [p] visits every element the
    container had, once and in order, and removes just those. *)
Theorem C94_set_range_for_partial : forall (K : Type) (eqb : K -> K -> bool), (forall x y, eqb x y = true <-> x = y) ->
  forall (p : K -> bool) (s : cset K) l, s_items s = Some l -> NoDup l -> len (s_storage s) < size_mod ->
  exists s' l', set_sweep eqb p Once s = Ends l s' /\ s_items s' = Some l' /\ Permutation l' (filter (fun k => negb (p k)) l).
Proof.
  intros K eqb Heq p s l I N Hm. destruct (s_items_split s l I) as (t & Es & En).
  destruct (once_ok s_size s_storage _ eqb p (s_erase_law eqb) (fun x => proj2 (Heq x x) eq_refl) l l (apart_set eqb l Heq N) [] s l t (length (s_storage s))
    eq_refl Es En Hm) as (c' & cur' & t' & S & E1 & E2 & _ & P).
  - reflexivity.
  - rewrite Es, len_app. lia.
  - intros j _ Hj. rewrite Es. apply rd_app1. exact Hj.
  - rewrite Es, app_length. lia.
  - exists c', cur'. unfold set_sweep. rewrite En. split; [exact S|]. split; [exact (s_items_app c' cur' t' E1 E2) | exact P].
Qed.
Print Assumptions C94_set_range_for_partial.

Theorem C94_map_range_for_partial : forall (K V : Type) (eqb : K -> K -> bool), (forall x y, eqb x y = true <-> x = y) ->
  forall (p : K * V -> bool) (m : cmap K V) l, m_items m = Some l -> NoDup (map fst l) -> len (m_storage m) < size_mod ->
  exists m' l', map_sweep eqb p Once m = Ends l m' /\ m_items m' = Some l' /\ Permutation l' (filter (fun e => negb (p e)) l).
Proof.
  intros K V eqb Heq p s l I N Hm. destruct (m_items_split s l I) as (t & Es & En).
  destruct (once_ok m_size m_storage _ (fun a b : K * V => eqb (fst a) (fst b)) p (m_erase_law eqb) (fun x => proj2 (Heq _ _) eq_refl) l l (apart_map eqb l Heq N) [] s l t (length (m_storage s))
    eq_refl Es En Hm) as (c' & cur' & t' & S & E1 & E2 & _ & P).
  - reflexivity.
  - rewrite Es, len_app. lia.
  - intros j _ Hj. rewrite Es. apply rd_app1. exact Hj.
  - rewrite Es, app_length. lia.
  - exists c', cur'. unfold map_sweep. rewrite En. split; [exact S|]. split; [exact (m_items_app c' cur' t' E1 E2) | exact P].
Qed.
Print Assumptions C94_map_range_for_partial.

(** FINDING: if the loop compares with end() every time, the last element takes the place of
    the erased one and is not visited; it stays whether or not it satisfies [p]. *)
Theorem C94_set_skips_refuted : forall (K : Type) (eqb : K -> K -> bool), (forall x y, eqb x y = true <-> x = y) ->
  forall (p : K -> bool) (s : cset K) l1 x l2 y, s_items s = Some (l1 ++ x :: l2 ++ [y]) -> NoDup (l1 ++ x :: l2 ++ [y]) -> len (s_storage s) < size_mod ->
  (forall z, In z (l1 ++ l2) -> p z = false) -> p x = true ->
  exists s', set_sweep eqb p Anew s = Ends (l1 ++ x :: l2) s' /\ s_items s' = Some (l1 ++ y :: l2).
Proof.
  intros K eqb Heq p s l1 x l2 y I N Hm Hp Px. destruct (s_items_split s _ I) as (t & Es & En).
  destruct (anew_misses s_size s_storage _ eqb p (s_erase_law eqb) (fun x => proj2 (Heq x x) eq_refl) s l1 x l2 y t Es En Hm (apart_set eqb _ Heq N) Hp Px)
    as (c' & t' & S & E1 & E2).
  exists c'. split; [exact S | exact (s_items_app c' _ t' E1 E2)].
Qed.
Print Assumptions C94_set_skips_refuted.

Theorem C94_map_skips_refuted : forall (K V : Type) (eqb : K -> K -> bool), (forall x y, eqb x y = true <-> x = y) ->
  forall (p : K * V -> bool) (m : cmap K V) l1 x l2 y, m_items m = Some (l1 ++ x :: l2 ++ [y]) -> NoDup (map fst (l1 ++ x :: l2 ++ [y])) -> len (m_storage m) < size_mod ->
  (forall z, In z (l1 ++ l2) -> p z = false) -> p x = true ->
  exists m', map_sweep eqb p Anew m = Ends (l1 ++ x :: l2) m' /\ m_items m' = Some (l1 ++ y :: l2).
Proof.
  intros K V eqb Heq p s l1 x l2 y I N Hm Hp Px. destruct (m_items_split s _ I) as (t & Es & En).
  destruct (anew_misses m_size m_storage _ (fun a b : K * V => eqb (fst a) (fst b)) p (m_erase_law eqb) (fun x => proj2 (Heq _ _) eq_refl) s l1 x l2 y t Es En Hm (apart_map eqb _ Heq N) Hp Px)
    as (c' & t' & S & E1 & E2).
  exists c'. split; [exact S | exact (m_items_app c' _ t' E1 E2)].
Qed.
Print Assumptions C94_map_skips_refuted.

(** FINDING: such a loop misses end() and leaves the storage if it erases the last element. *)
Theorem C94_set_runs_off_refuted : forall (K : Type) (eqb : K -> K -> bool), (forall x y, eqb x y = true <-> x = y) ->
  forall (p : K -> bool) (s : cset K) l x, s_items s = Some (l ++ [x]) -> NoDup (l ++ [x]) -> len (s_storage s) < size_mod ->
  (forall z, In z l -> p z = false) -> p x = true -> set_sweep eqb p Anew s = RunsOff.
Proof.
  intros K eqb Heq p s l x I N Hm Hp Px. destruct (s_items_split s _ I) as (t & Es & En).
  exact (anew_runs_off s_size s_storage _ eqb p (s_erase_law eqb) (fun x => proj2 (Heq x x) eq_refl) s l x t Es En Hm (apart_set eqb _ Heq N) Hp Px).
Qed.
Print Assumptions C94_set_runs_off_refuted.

Theorem C94_map_runs_off_refuted : forall (K V : Type) (eqb : K -> K -> bool), (forall x y, eqb x y = true <-> x = y) ->
  forall (p : K * V -> bool) (m : cmap K V) l x, m_items m = Some (l ++ [x]) -> NoDup (map fst (l ++ [x])) -> len (m_storage m) < size_mod ->
  (forall z, In z l -> p z = false) -> p x = true -> map_sweep eqb p Anew m = RunsOff.
Proof.
  intros K V eqb Heq p s l x I N Hm Hp Px. destruct (m_items_split s _ I) as (t & Es & En).
  exact (anew_runs_off m_size m_storage _ (fun a b : K * V => eqb (fst a) (fst b)) p (m_erase_law eqb) (fun x => proj2 (Heq _ _) eq_refl) s l x t Es En Hm (apart_map eqb _ Heq N) Hp Px).
Qed.
Print Assumptions C94_map_runs_off_refuted.

(** A set built by inserting, and the three loops over it. *)
Example C94_example :
  let s0 := {| s_storage := [9; 4; 7; 2; 6; 0; 0]; s_size := 5 |} in
  s_make 7 0 [9; 4; 7; 2; 6] = Some s0 /\ s_items s0 = Some [9; 4; 7; 2; 6] /\
  set_sweep N.eqb N.even Once s0 = Ends [9; 4; 7; 2; 6] {| s_storage := [9; 7; 7; 2; 6; 0; 0]; s_size := 2 |} /\
  set_sweep N.eqb (fun n => n =? 4) Anew s0 = Ends [9; 4; 7; 2] {| s_storage := [9; 6; 7; 2; 6; 0; 0]; s_size := 4 |} /\
  set_sweep N.eqb (fun n => n =? 6) Anew s0 = RunsOff /\
  map_sweep N.eqb (fun e => snd e) Once {| m_storage := [(1, true); (2, false); (3, true)]; m_size := 3 |} =
    Ends [(1, true); (2, false); (3, true)] {| m_storage := [(2, false); (2, false); (3, true)]; m_size := 1 |}.
Proof. vm_compute. repeat split. Qed.
