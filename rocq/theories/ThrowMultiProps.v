(** C85 for cx_multimap: keys and values whose operations throw. *)
From Coq Require Import Permutation.
From Verif Require Import Base BaseLemmas CxSetModel CxSetProofs CxMapModel CxMapProofs CxMultimapModel
  ThrowModel ThrowSpec ThrowProofs ThrowMultiModel ThrowMultiSpec ThrowMultiProofs.
Open Scope N_scope.

(** Every history in which any copy, move or assignment of a key or value may throw: no
    undefined behaviour, and the multimap holds what ThrowMultiSpec.v says. *)
Theorem C85_multimap : forall K V (keqb : K -> K -> bool) (veqb : V -> V -> bool),
  (forall x y, keqb x y = true <-> x = y) -> (forall x y, veqb x y = true <-> x = y) ->
  forall kcap vcap (dk : K) (dv : V) m h, kcap < size_mod -> vcap < size_mod -> mm_init kcap vcap dk dv = Some m ->
  conforms (either (mm_step keqb veqb vcap dv) (mm_bad keqb veqb vcap dv)) (mmt_pre kcap vcap) (mmt_spec vcap) m [] h.
Proof.
  intros K V keqb veqb Hk Hv kcap vcap dk dv m h Hkc Hvc Hm. apply (conforms_sim _ _ _ (MMRep kcap vcap)).
  - intros m' l a HR Hp. exact (mmt_step_ok keqb Hk veqb Hv kcap vcap Hkc Hvc dv m' l a HR Hp).
  - exists []. split; [|reflexivity]. revert Hm. unfold mm_init. destruct (empty_set vcap dv) as [s|] eqn:Es; [|discriminate].
    intro Hm. split; [exact (m_make_rep kcap Hkc (dk, s) [] m Hm)|].
    assert (W : swf vcap s).
    { pose proof (s_make_rep veqb Hv vcap Hvc dv [] s Es) as (S1 & S2 & _). split; [exact S1|]. rewrite S2. change (len (@nil V)) with 0. lia. }
    unfold m_make in Hm. destruct (_ <=? _); [|discriminate]. injection Hm as <-. cbn [m_storage app].
    apply Forall_forall. intros e He. apply repeat_spec in He. now subst e.
Qed.
Print Assumptions C85_multimap.

(** An insert of a new key that throws gives the key the values of a key that was erased: here
    [a] had [x]; [a] is erased; inserting [b] with [y] throws when the value is assigned, and the
    assignment changes nothing. *)
Theorem C85_multimap_refuted : forall K V (keqb : K -> K -> bool) (veqb : V -> V -> bool),
  (forall x y, keqb x y = true <-> x = y) -> (forall x y, veqb x y = true <-> x = y) ->
  forall kcap vcap (dk : K) (dv : V) a b x y, 1 <= kcap -> kcap < size_mod -> 1 <= vcap -> vcap < size_mod ->
  exists m m', mm_init kcap vcap dk dv = Some m /\
  run (either (mm_step keqb veqb vcap dv) (mm_bad keqb veqb vcap dv)) m
    [Call (MMInsert a x); Call (MMEraseKey a); Call (MMContains b); Throws (MMTAdd b (Some y) (AtValue 0 None));
     Call (MMContains2 b x); Call (MMOnSet b SItems)]
  = Done m' [Some MMUnit; Some (MMNum 1); Some (MMBool false); None; Some (MMBool true); Some (MMSet (SList [x]))] [].
Proof.
  intros K V keqb veqb Hk Hv kcap vcap dk dv a b x y K1 Hkc V1 Hvc.
  assert (T : forall k, keqb k k = true) by (intro; now apply Hk). assert (T' : forall v, veqb v v = true) by (intro; now apply Hv).
  pose (st := repeat dv (N.to_nat (vcap - 1))).
  assert (Ls : forall v : V, len (v :: st) = vcap) by (intro; rewrite len_cons; unfold st; rewrite len_repeat; lia).
  pose (set0 := {| s_storage := dv :: st; s_size := 0 |}).
  pose (t := repeat (dk, set0) (N.to_nat (kcap - 1))).
  assert (Lt : forall e : K * cset V, len (e :: t) = kcap) by (intro; rewrite len_cons; unfold t; rewrite len_repeat; lia).
  assert (Em : forall v, s_make vcap dv [v] = Some {| s_storage := v :: st; s_size := 1 |}).
  { intro v. unfold s_make. change (len [v]) with 1. destruct (N.leb_spec 1 vcap); [reflexivity|lia]. }
  assert (E0 : empty_set vcap dv = Some set0).
  { unfold empty_set, s_make. change (len (@nil V)) with 0. destruct (N.leb_spec 0 vcap); [|lia]. rewrite N.sub_0_r.
    replace (N.to_nat vcap) with (S (N.to_nat (vcap - 1))) by lia. reflexivity. }
  assert (I0 : forall e : K * cset V, m_items {| m_storage := e :: t; m_size := 0 |} = Some []).
  { intro e. unfold m_items. cbn [m_size m_storage]. rewrite Lt. destruct (N.leb_spec 0 kcap); [reflexivity|lia]. }
  assert (I1 : forall e : K * cset V, m_items {| m_storage := e :: t; m_size := 1 |} = Some [e]).
  { intro e. unfold m_items. cbn [m_size m_storage]. rewrite Lt. destruct (N.leb_spec 1 kcap); [reflexivity|lia]. }
  assert (R : forall e : K * cset V, rd (e :: t) 0 = Some e).
  { intro e. unfold rd. rewrite Lt. destruct (N.ltb_spec 0 kcap); [reflexivity|lia]. }
  assert (W : forall e f : K * cset V, wr (e :: t) 0 f = Some (f :: t)).
  { intros e f. unfold wr. rewrite Lt. destruct (N.ltb_spec 0 kcap); [reflexivity|lia]. }
  assert (S1 : forall v : V, s_items {| s_storage := v :: st; s_size := 1 |} = Some [v]).
  { intro v. unfold s_items. cbn [s_size s_storage]. rewrite Ls. destruct (N.leb_spec 1 vcap); [reflexivity|lia]. }
  assert (F0 : forall e k, m_find keqb {| m_storage := e :: t; m_size := 0 |} k = Some None) by (intros e k; unfold m_find; rewrite I0; reflexivity).
  assert (F1 : forall s k, m_find keqb {| m_storage := (k, s) :: t; m_size := 1 |} k = Some (Some O)).
  { intros s k. unfold m_find. rewrite I1. cbn. now rewrite T. }
  assert (U : sz_inc 0 = 1) by reflexivity. assert (D : sz_dec 1 = 0) by reflexivity.
  pose (sx := {| s_storage := x :: st; s_size := 1 |}).
  exists {| m_storage := (dk, set0) :: t; m_size := 0 |}, {| m_storage := (b, sx) :: t; m_size := 1 |}.
  split.
  { unfold mm_init. rewrite E0. unfold m_make. change (len (@nil (K * cset V))) with 0. destruct (N.leb_spec 0 kcap); [|lia]. rewrite N.sub_0_r.
    replace (N.to_nat kcap) with (S (N.to_nat (kcap - 1))) by lia. reflexivity. }
  assert (Q1 : mm_insert keqb veqb vcap dv {| m_storage := (dk, set0) :: t; m_size := 0 |} a x = Some {| m_storage := (a, sx) :: t; m_size := 1 |}).
  { unfold mm_insert, m_contains. rewrite F0. cbn [option_map]. rewrite Em. unfold m_put. rewrite F0. cbn [m_storage m_size]. rewrite W, U. reflexivity. }
  assert (Q2 : m_erase keqb {| m_storage := (a, sx) :: t; m_size := 1 |} a = Some ({| m_storage := (a, sx) :: t; m_size := 0 |}, 1)).
  { unfold m_erase. rewrite F1. cbn zeta. cbn [m_size m_storage]. rewrite D. change (N.of_nat 0) with 0. rewrite R, W. reflexivity. }
  assert (Q3 : m_contains keqb {| m_storage := (a, sx) :: t; m_size := 0 |} b = Some false) by (unfold m_contains; rewrite F0; reflexivity).
  assert (Q4 : mm_bad keqb veqb vcap dv {| m_storage := (a, sx) :: t; m_size := 0 |} (MMTAdd b (Some y) (AtValue 0 None)) = Some {| m_storage := (b, sx) :: t; m_size := 1 |}).
  { cbn [mm_bad]. rewrite Em. cbn [m_storage m_size]. rewrite R. cbn [m_bad]. rewrite F0. cbn [m_storage m_size]. rewrite R, W, U. reflexivity. }
  assert (Q5 : mm_contains2 keqb veqb {| m_storage := (b, sx) :: t; m_size := 1 |} b x = Some true).
  { unfold mm_contains2, m_contains, m_get. rewrite F1. cbn [option_map m_storage]. change (N.of_nat 0) with 0. rewrite R. cbn [option_map snd].
    unfold s_contains, sx. rewrite S1. cbn. now rewrite T'. }
  assert (Q6 : m_get keqb {| m_storage := (b, sx) :: t; m_size := 1 |} b = Some sx).
  { unfold m_get. rewrite F1. cbn [m_storage]. change (N.of_nat 0) with 0. rewrite R. reflexivity. }
  assert (Q7 : m_get_assign keqb {| m_storage := (b, sx) :: t; m_size := 1 |} b sx = Some {| m_storage := (b, sx) :: t; m_size := 1 |}).
  { unfold m_get_assign, m_set_at. rewrite F1. cbn [m_storage m_size]. change (N.of_nat 0) with 0. rewrite R, W. reflexivity. }
  cbn [run either mm_step]. rewrite Q1. cbn [option_map]. rewrite Q2. cbn [option_map]. rewrite Q3. cbn [option_map]. rewrite Q4, Q5. cbn [option_map].
  rewrite Q6. cbn [s_step]. rewrite (S1 x : s_items sx = Some [x]). cbn [option_map]. rewrite Q7. reflexivity.
Qed.
Print Assumptions C85_multimap_refuted.
Example C85_multimap_example : exists m m', mm_init 2 2 0 0 = Some m /\
  run (either (mm_step N.eqb N.eqb 2 0) (mm_bad N.eqb N.eqb 2 0)) m
    [Call (MMInsert 1 10); Call (MMInsert 1 11); Call (MMInsert 2 20); Throws (MMTSet 1 (STErase 10 None)); Call (MMOnSet 1 SItems);
     Throws (MMTErase 1 (AtValue 1 (Some 7))); Call (MMOnSet 2 SItems); Throws (MMTEraseLast 2 20 (AtKey (Some 5))); Call (MMContains 2); Call MMSize]
  = Done m' [Some MMUnit; Some MMUnit; Some MMUnit; None; Some (MMSet (SList [10])); None; Some (MMSet (SList [20])); None; Some (MMBool false); Some (MMNum 0)] [].
Proof. eexists _, _. split; [reflexivity|]. vm_compute. reflexivity. Qed.
