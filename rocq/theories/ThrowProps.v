(** C85 Containers whose element operations throw. *)
From Coq Require Import Permutation.
From Verif Require Import Base BaseLemmas CxVectorModel CxVectorSpec CxVectorProofs CxQueueModel CxQueueSpec CxQueueProofs CxSetModel CxSetSpec CxSetProofs CxMapModel CxMapSpec CxMapProofs ThrowModel ThrowSpec ThrowProofs.
Open Scope N_scope.

(** Every history in which any copy, move or assignment of an element may throw: no undefined
    behaviour, and the container holds what ThrowSpec.v says. *)
Theorem C85_vector : forall A cap (d : A) ts v h,
  cap < size_mod -> v_make cap d ts = Some v ->
  conforms (either (v_step cap) v_bad) (vt_pre cap) (vt_spec cap) v ts h.
Proof.
  intros A cap d ts v h Hc Hm. apply (conforms_sim _ _ _ (VRep cap)); [|exact (v_make_rep cap d ts v Hm)].
  intros s l a HR Hp. exact (vt_step_ok cap s l a Hc HR Hp).
Qed.
Print Assumptions C85_vector.
Theorem C85_set : forall K (eqb : K -> K -> bool), (forall x y, eqb x y = true <-> x = y) -> forall cap (d : K) ts s h,
  cap < size_mod -> s_make cap d ts = Some s ->
  conforms (either (s_step eqb) (s_bad eqb)) (bag_pre cap) (bag_spec cap) s ts h.
Proof.
  intros K eqb Heq cap d ts s h Hc Hm. apply (conforms_sim _ _ _ (SRepL cap)); [|exact (s_make_rep eqb Heq cap Hc d ts s Hm)].
  intros s' l a HR Hp. exact (bag_step_ok eqb Heq cap Hc s' l a HR Hp).
Qed.
Print Assumptions C85_set.
Theorem C85_map : forall K V (eqb : K -> K -> bool), (forall x y, eqb x y = true <-> x = y) -> forall cap (d : K * V) es m h,
  cap < size_mod -> m_make cap d es = Some m ->
  conforms (either (m_step eqb cap) (m_bad eqb)) (ent_pre cap) (ent_spec cap) m es h.
Proof.
  intros K V eqb Heq cap d es m h Hc Hm. apply (conforms_sim _ _ _ (MRepL cap)); [|exact (m_make_rep cap Hc d es m Hm)].
  intros m' l a HR Hp. exact (ent_step_ok eqb Heq cap Hc m' l a HR Hp).
Qed.
Print Assumptions C85_map.
(** cx_queue if moving an element out does not throw. *)
Theorem C85_queue_partial : forall A (mv : A -> A) cap (d : A) pol hd h,
  0 < cap -> cap < size_mod ->
  conforms (either (q_step mv pol hd cap) (q_bad cap)) (qt_pre cap) (qt_spec cap) (q_init cap d) [] h.
Proof.
  intros A mv cap d pol hd h Hp Hc. apply (conforms_sim _ _ _ (Rep cap)); [|exact (rep_init mv cap Hp Hc d)].
  intros q l a HR Hq. exact (qt_step_ok mv cap Hp Hc pol hd q l a HR Hq).
Qed.
Print Assumptions C85_queue_partial.
Example C85_history_example :
  exists s, run (either (s_step N.eqb) (s_bad N.eqb)) s
    [Call (SInsert 1); Throws (STInsert 2 (Some 9)); Call SItems; Throws (STErase 1 (Some 7)); Call SItems; Call (SErase 7); Call SSize]
  = Done {| s_storage := [7; 9; 0]; s_size := 0 |} [Some (SBool true); None; Some (SList [1; 9]); None; Some (SList [7]); Some (SNum 1); Some (SNum 0)] []
  /\ s_make 3 0 [] = Some s.
Proof. eexists. split; [|reflexivity]. reflexivity. Qed.

(** A call that throws is not undone: the size has changed. *)
Theorem C85_not_undone_refuted : forall A cap (d : A) ts v j, cap < size_mod -> v_make cap d ts = Some v -> len ts < cap ->
  exists v', run (either (v_step cap) v_bad) v [Throws (VTPush j); Call VSize] = Done v' [None; Some (VNum (len ts + 1))] [].
Proof.
  intros A cap d ts v j Hc Hm Hl. pose proof (v_make_rep cap d ts v Hm) as HR.
  destruct (vt_step_ok cap v ts (Throws (VTPush j)) Hc HR Hl) as (v1 & o1 & l1 & E1 & S1 & R1).
  destruct S1 as (-> & x & _ & ->).
  destruct (vt_step_ok cap v1 _ (Call VSize) Hc R1 ltac:(cbn; discriminate)) as (v2 & o2 & l2 & E2 & S2 & R2).
  destruct S2 as (o' & E & ->). cbn [vlist_step] in E. injection E as <- <-.
  exists v2. cbn [run]. rewrite E1, E2. rewrite len_app, len_cons, len_nil. reflexivity.
Qed.
Print Assumptions C85_not_undone_refuted.
Theorem C85_queue_not_undone_refuted : forall A (mv : A -> A) cap (d : A) pol hd j, 0 < cap -> cap < size_mod ->
  exists q, run (either (q_step mv pol hd cap) (q_bad cap)) (q_init cap d) [Throws (QTPush j); Call Size] = Done q [None; Some (ONum 1)] [].
Proof.
  intros A mv cap d pol hd j Hp Hc. pose proof (rep_init mv cap Hp Hc d) as HR.
  destruct (q_bad_push mv cap Hp Hc _ [] j HR Hp) as (q' & x & E & _ & R). exists q'. cbn [run either]. rewrite E.
  destruct R as (_ & _ & S & _). cbn [q_step]. rewrite S. reflexivity.
Qed.
Print Assumptions C85_queue_not_undone_refuted.

(** A pop of cx_queue that throws leaves the queue unusable: at the end of the storage the
    next access is undefined although the size says there is an element; before it the size
    counts an element that is gone. *)
Theorem C85_queue_pop_refuted : forall A (mv : A -> A) cap (d : A) pol hd ops x l outs j, 0 < cap -> cap < size_mod ->
  spec_run (fifo_step cap) [] ops = Some (x :: l, outs) ->
  exists q q', run (q_step mv pol hd cap) (q_init cap d) ops = Done q outs [] /\ q_bad cap q (QTPop j) = Some q' /\
    q_step mv pol hd cap q' Size = Done q' (ONum (len (x :: l))) [] /\
    (q_pop q + 1 = cap -> q_step mv pol hd cap q' Front = Undef /\ q_step mv pol hd cap q' Pop = Undef) /\
    (q_pop q + 1 < cap -> forall y r, l = y :: r -> q_step mv pol hd cap q' Front = Done q' (OVal y) []).
Proof.
  intros A mv cap d pol hd ops x l outs j Hp Hc S.
  destruct (run_ok mv cap Hp Hc pol hd _ [] ops (x :: l) outs (rep_init mv cap Hp Hc d) S) as (q & E & HR).
  destruct (q_bad_pop mv cap Hp Hc q x l j pol hd HR) as (q' & E' & Hs & H1 & H2).
  exists q, q'. split; [exact E|]. split; [exact E'|]. split; [cbn [q_step]; rewrite Hs; reflexivity|]. auto.
Qed.
Print Assumptions C85_queue_pop_refuted.
Example C85_queue_pop_example :
  run (either (q_step (fun x => x) Safe DoesNotReturn 2) (q_bad 2)) (q_init 2 0)
    [Call (Push 1); Call (Push 2); Call Pop; Throws (QTPop None); Call Size; Call Empty; Call Front] = Undef /\
  exists q, run (either (q_step (fun x => x) Safe DoesNotReturn 2) (q_bad 2)) (q_init 2 0)
    [Call (Push 1); Throws (QTPop None); Call Size; Call Front; Call Pop] = Done q [Some (OVal 1); None; Some (ONum 1); Some (OVal 0); Some (OVal 0)] [].
Proof. split; [reflexivity|eexists; reflexivity]. Qed.

(** cx_set: an insert that throws may bring back a key erased before, as a duplicate of one
    that is there, even if the assignment that throws changes nothing; an erase that throws
    loses another key. *)
Theorem C85_set_refuted : forall K (eqb : K -> K -> bool), (forall x y, eqb x y = true <-> x = y) ->
  forall cap (d a b c : K), 2 <= cap -> cap < size_mod -> a <> b -> b <> c ->
  exists s s' s'', s_make cap d [] = Some s /\
  run (either (s_step eqb) (s_bad eqb)) s
    [Call (SInsert a); Call (SInsert b); Call (SErase a); Throws (STInsert c None); Call SItems; Call (SErase b); Call (SContains b)]
  = Done s' [Some (SBool true); Some (SBool true); Some (SNum 1); None; Some (SList [b; b]); Some (SNum 1); Some (SBool true)] [] /\
  run (either (s_step eqb) (s_bad eqb)) s
    [Call (SInsert a); Call (SInsert b); Throws (STErase a None); Call (SContains a); Call (SContains b)]
  = Done s'' [Some (SBool true); Some (SBool true); None; Some (SBool true); Some (SBool false)] [].
Proof.
  intros K eqb Heq cap d a b c H2 Hc Nab Nbc.
  assert (F : forall x y, x <> y -> eqb x y = false) by (intros x y N; destruct (eqb x y) eqn:E; [apply Heq in E; contradiction|reflexivity]).
  assert (T : forall x, eqb x x = true) by (intros x; apply Heq; reflexivity).
  assert (M : exists t, s_make cap d [] = Some {| s_storage := d :: d :: t; s_size := 0 |} /\ len t = cap - 2).
  { exists (repeat d (N.to_nat (cap - 2))). split; [|rewrite len_repeat; lia]. unfold s_make. change (len (@nil K)) with 0.
    destruct (N.leb_spec 0 cap); [|lia]. f_equal. f_equal. rewrite N.sub_0_r. replace (N.to_nat cap) with (S (S (N.to_nat (cap - 2)))) by lia. reflexivity. }
  destruct M as (t & M & Lt). exists {| s_storage := d :: d :: t; s_size := 0 |}.
  assert (L : forall x y : K, len (x :: y :: t) = cap) by (intros; rewrite !len_cons; lia).
  assert (E0 : forall x y : K, s_items {| s_storage := x :: y :: t; s_size := 0 |} = Some []).
  { intros. unfold s_items. cbn [s_size s_storage]. rewrite L. destruct (N.leb_spec 0 cap); [reflexivity|lia]. }
  assert (E1 : forall x y : K, s_items {| s_storage := x :: y :: t; s_size := 1 |} = Some [x]).
  { intros. unfold s_items. cbn [s_size s_storage]. rewrite L. destruct (N.leb_spec 1 cap); [reflexivity|lia]. }
  assert (E2 : forall x y : K, s_items {| s_storage := x :: y :: t; s_size := 2 |} = Some [x; y]).
  { intros. unfold s_items. cbn [s_size s_storage]. rewrite L. destruct (N.leb_spec 2 cap); [reflexivity|lia]. }
  assert (W0 : forall x y z : K, wr (x :: y :: t) 0 z = Some (z :: y :: t)).
  { intros. unfold wr. rewrite L. destruct (N.ltb_spec 0 cap); [reflexivity|lia]. }
  assert (W1 : forall x y z : K, wr (x :: y :: t) 1 z = Some (x :: z :: t)).
  { intros. unfold wr. rewrite L. destruct (N.ltb_spec 1 cap); [reflexivity|lia]. }
  assert (R0 : forall x y : K, rd (x :: y :: t) 0 = Some x).
  { intros. unfold rd. rewrite L. destruct (N.ltb_spec 0 cap); [reflexivity|lia]. }
  assert (R1 : forall x y : K, rd (x :: y :: t) 1 = Some y).
  { intros. unfold rd. rewrite L. destruct (N.ltb_spec 1 cap); [reflexivity|lia]. }
  assert (I0 : sz_inc 0 = 1) by reflexivity. assert (I1 : sz_inc 1 = 2) by reflexivity.
  assert (D1 : sz_dec 1 = 0) by reflexivity. assert (D2 : sz_dec 2 = 1) by reflexivity.
  assert (X : eqb a b = false) by (apply F; exact Nab). assert (Y : eqb b c = false) by (apply F; exact Nbc).
  assert (X' : eqb b a = false) by (apply F; congruence).
  assert (SI : forall s k, s_insert eqb s k = match s_contains eqb s k with Some true => Some (s, false)
    | Some false => match wr (s_storage s) (s_size s) k with Some st => Some ({| s_storage := st; s_size := sz_inc (s_size s) |}, true) | None => None end
    | None => None end) by reflexivity.
  assert (A0 : forall x y k, s_insert eqb {| s_storage := x :: y :: t; s_size := 0 |} k = Some ({| s_storage := k :: y :: t; s_size := 1 |}, true)).
  { intros. rewrite SI. unfold s_contains. rewrite E0. cbn [find_idx s_storage s_size]. rewrite W0. reflexivity. }
  assert (A1 : forall x y k, eqb x k = false -> s_insert eqb {| s_storage := x :: y :: t; s_size := 1 |} k = Some ({| s_storage := x :: k :: t; s_size := 2 |}, true)).
  { intros x y k N. rewrite SI. unfold s_contains. rewrite E1. cbn [find_idx s_storage s_size]. rewrite N. cbn [option_map]. rewrite W1. reflexivity. }
  assert (P2 : forall x y, s_erase eqb {| s_storage := x :: y :: t; s_size := 2 |} x = Some ({| s_storage := y :: y :: t; s_size := 1 |}, 1)).
  { intros. unfold s_erase. rewrite E2. cbn [find_idx s_storage s_size]. rewrite T, D2, R1. change (N.of_nat 0) with 0. rewrite W0. reflexivity. }
  assert (B1 : s_bad eqb {| s_storage := b :: b :: t; s_size := 1 |} (STInsert c None) = Some {| s_storage := b :: b :: t; s_size := 2 |}).
  { unfold s_bad, s_contains, bad_wr. rewrite E1. cbn [find_idx s_storage s_size]. rewrite Y. cbn [option_map]. rewrite R1, W1. reflexivity. }
  assert (B2 : s_bad eqb {| s_storage := a :: b :: t; s_size := 2 |} (STErase a None) = Some {| s_storage := a :: b :: t; s_size := 1 |}).
  { unfold s_bad, bad_wr. rewrite E2. cbn [find_idx s_storage s_size]. rewrite T, D2, R1. change (N.of_nat 0) with 0. rewrite R0, W0. reflexivity. }
  assert (C1 : forall x y k, s_contains eqb {| s_storage := x :: y :: t; s_size := 1 |} k = Some (eqb x k)).
  { intros. unfold s_contains. rewrite E1. cbn [find_idx]. destruct (eqb x k); reflexivity. }
  eexists _, _. split; [exact M|]. split.
  - cbn [run either s_step]. rewrite A0. cbn [option_map]. rewrite (A1 _ _ _ X). cbn [option_map]. rewrite P2. cbn [option_map]. rewrite B1, E2. cbn [option_map].
    rewrite P2. cbn [option_map]. rewrite C1, T. reflexivity.
  - cbn [run either s_step]. rewrite A0. cbn [option_map]. rewrite (A1 _ _ _ X). cbn [option_map]. rewrite B2, C1. cbn [option_map]. rewrite C1, T, X. reflexivity.
Qed.
Print Assumptions C85_set_refuted.

(** cx_map: an erase that throws may leave the last key with the erased key's value. *)
Theorem C85_map_refuted : forall K V (eqb : K -> K -> bool), (forall x y, eqb x y = true <-> x = y) ->
  forall cap (d : K * V) k1 k2 v1 v2 m, cap < size_mod -> k1 <> k2 -> m_make cap d [(k1, v1); (k2, v2)] = Some m ->
  exists m', run (either (m_step eqb cap) (m_bad eqb)) m [Call (MGet k2); Throws (MTErase k1 (InValue None)); Call (MGet k2); Call MSize]
  = Done m' [Some (MVal v2); None; Some (MVal v1); Some (MNum 1)] [].
Proof.
  intros K V eqb Heq cap d k1 k2 v1 v2 m Hc N Hm. pose proof (m_make_rep cap Hc d _ m Hm) as R0.
  destruct (ent_step_ok eqb Heq cap Hc m _ (Call (MGet k2)) R0 ltac:(cbn; auto)) as (m1 & o1 & l1 & E1 & S1 & R1).
  destruct S1 as (-> & w & a & b & (F1 & F2) & ->).
  assert (w = v2) as ->.
  { destruct a as [|e [|e' a]]; cbn in F1; injection F1; intros; subst; cbn in *; try tauto; try congruence; destruct a; discriminate. }
  destruct (ent_step_ok eqb Heq cap Hc m1 _ (Throws (MTErase k1 (InValue None))) R1 ltac:(cbn; auto)) as (m2 & o2 & l2 & E2 & S2 & R2).
  destruct S2 as (-> & w' & a' & b' & lst & (G1 & G2) & (r & Er) & ->).
  assert (a' = [] /\ w' = v1 /\ b' = [(k2, v2)]) as (-> & -> & ->).
  { destruct a' as [|e a']; cbn in G1; injection G1; intros; subst; [auto|]. cbn in G2. tauto. }
  change [(k1, v1); (k2, v2)] with ([(k1, v1)] ++ [(k2, v2)]) in Er. apply app_inj_tail in Er as [<- <-]. cbn [half fst snd left_with app removelast] in *.
  destruct (ent_step_ok eqb Heq cap Hc m2 _ (Call (MGet k2)) R2 ltac:(cbn; auto)) as (m3 & o3 & l3 & E3 & S3 & R3).
  destruct S3 as (-> & w & a3 & b3 & (F3 & F4) & ->).
  assert (w = v1) as -> by (destruct a3 as [|e [|e' a3]]; cbn in F3; injection F3; intros; subst; cbn in *; try tauto; try congruence; discriminate).
  destruct (ent_step_ok eqb Heq cap Hc m3 _ (Call MSize) R3 ltac:(cbn; auto)) as (m4 & o4 & l4 & E4 & S4 & R4).
  destruct S4 as (-> & ->). exists m4. cbn [run]. rewrite E1, E2, E3, E4. reflexivity.
Qed.
Print Assumptions C85_map_refuted.
Example C85_map_example : exists m m',
  m_make 3 (0, 0) [(1, 10); (2, 20)] = Some m /\
  run (either (m_step N.eqb 3) (m_bad N.eqb)) m [Call (MGet 2); Throws (MTErase 1 (InValue None)); Call (MGet 2); Call MSize]
  = Done m' [Some (MVal 20); None; Some (MVal 10); Some (MNum 1)] [].
Proof. eexists _, _. split; reflexivity. Qed.
Example C85_vector_example : exists v v',
  v_make 4 0 [1; 2] = Some v /\
  run (either (v_step 4) v_bad) v [Throws (VTPush (Some 9)); Call VItems; Throws VTPop; Call VItems; Throws (VTPush None); Call VItems; Call VSize]
  = Done v' [None; Some (VList [1; 2; 9]); None; Some (VList [1; 2]); None; Some (VList [1; 2; 9]); Some (VNum 3)] [].
Proof. eexists _, _. split; reflexivity. Qed.
Example C85_queue_pop_example2 : spec_run (fifo_step 2) [] [Push 1; Push 2; Pop] = Some ([2], [OVal 1; OVal 2; OVal 1]).
Proof. reflexivity. Qed.
