(** A counter under a lock. *)
From Coq Require Import Permutation.
From Verif Require Import Base BaseLemmas BitModel BitsetModel BitsetSpec BitsetProofs ConcModel RelaxedModel RelaxedProofs AtomicModel AtomicSpec AtomicProofs.
From Verif Require Import AtomicBitsetModel AtomicBitsetSpec AtomicBitsetProofs AtomicProps MultiModel MultiSpec MultiProofs MultiProofs4 RaceSpec.
Open Scope nat_scope.

Section Count.
Context (objs : nat -> object_type) (st : nat -> obj_state) (rs : nat -> list (call * reply)) (f : nat) (w i : N) (x : nat) (iw wx ew : N) (sg esg : bool) (m0 : N).
Notation P := (fun y => y =? x).
Context (l : list (nat * nat)) (st' : nat -> obj_state).
Context (Ox : objs x = Int iw wx ew sg esg) (Sx : st x = IntState m0) (Hm : (m0 < 2 ^ wx)%N).
Context (Lis : forall t k, In (t, k) l <-> exists co, nth_error (rs t) k = Some co /\ P (target (fst co)) = true) (Once : NoDup l).
Context (Ord : ForallOrdPairs (fun a b : nat * nat => fst a = fst b -> snd a < snd b) l) (Who : sections_whole rs f w i l) (Cnt : counts rs f w i x wx).
Definition is_store (a : nat * nat) : bool := match nth_error (rs (fst a)) (snd a) with Some (Call _ (IntCall (ICall (AStore _) _)), _) => true | _ => false end.
Definition now (l1 : list (nat * nat)) : N := ((m0 + N.of_nat (length (filter is_store l1))) mod 2 ^ wx)%N.

Lemma counting l2 : forall l1 calls st2, l = l1 ++ l2 -> Forall2 (fun a co => nth_error (rs (fst a)) (snd a) = Some co) l2 calls -> in_turn objs st2 calls st' ->
  st2 x = IntState (now l1) -> (forall l0 a co r, l1 = l0 ++ [a] -> nth_error (rs (fst a)) (snd a) = Some co -> loads x co r -> r = now l1) -> st' x = IntState (now l).
Proof.
  induction l2 as [|[t k] l2 IH]; intros l1 [|[c o] calls'] st2 El F T Ex La; try now inversion F.
  - rewrite app_nil_r in El. subst l1. cbn in T. now rewrite <- T.
  - assert (E : nth_error (rs t) k = Some (c, o)) by now inversion F. assert (F' : Forall2 (fun a co => nth_error (rs (fst a)) (snd a) = Some co) l2 calls') by now inversion F.
    cbn [in_turn] in T. destruct T as (s & Ef & T).
    assert (It : In (t, k) l) by (rewrite El; apply in_or_app; right; now left).
    apply Lis in It as (co' & E' & Tc). rewrite E in E'. injection E' as <-. cbn in Tc. apply Nat.eqb_eq in Tc.
    rewrite Tc, Ox, Ex in Ef.
    assert (El' : l = (l1 ++ [(t, k)]) ++ l2) by (now rewrite <- app_assoc).
    assert (Nw : now (l1 ++ [(t, k)]) = if is_store (t, k) then ((now l1 + 1) mod 2 ^ wx)%N else now l1).
    { unfold now. rewrite filter_app, app_length. cbn [filter]. destruct (is_store (t, k)); cbn [length]; [|now rewrite Nat.add_0_r].
      rewrite N.add_mod_idemp_l by (apply N.pow_nonzero; lia). f_equal. lia. }
    destruct (proj1 Cnt t k (c, o) E) as [(r & mo & Ec & Eo)|(v & mo & Ec)]; [exact Tc| |]; cbn in Ec.
    + cbn in Eo. subst c o. cbn in Ef. destruct s as [|m']; [contradiction|]. injection Ef as -> ->.
      assert (Is : is_store (t, k) = false) by (unfold is_store; cbn [fst snd]; now rewrite E). rewrite Is in Nw.
      apply (IH (l1 ++ [(t, k)]) calls' _ El' F' T); [cbn [target]; rewrite update_at; now rewrite Nw|].
      intros l0 a co r Eq Ea (mo' & Ec' & Eo'). apply app_inj_tail in Eq as [_ <-]. cbn in Ea. rewrite E in Ea. injection Ea as <-. cbn in Eo'. injection Eo' as <-. now rewrite Nw.
    + subst c. cbn in Ef. destruct s as [|m']; [destruct o; contradiction|]. destruct o as [|o]; [contradiction|]. injection Ef as -> ->.
      assert (Is : is_store (t, k) = true) by (unfold is_store; cbn [fst snd]; now rewrite E). rewrite Is in Nw.
      destruct (proj2 Cnt t k _ v E ltac:(exists mo; reflexivity)) as (j & cj & r & Lj & Ej & Ld & Ev & Sec & Bet).
      assert (Tj : target (fst cj) = x) by (destruct Ld as (mo' & -> & _); reflexivity).
      assert (Ij : In (t, j) l) by (apply Lis; exists cj; split; [exact Ej|now apply Nat.eqb_eq]).
      assert (Ij1 : In (t, j) l1).
      { rewrite El in Ij. apply in_app_or in Ij as [I|I]; [exact I|exfalso]. destruct I as [I|I]; [injection I as ->; lia|].
        rewrite El in Ord. clear - Ord I Lj. induction l1 as [|b l1 IHl]; cbn in Ord; inversion Ord as [|? ? O1 O2]; subst; [|auto].
        rewrite Forall_forall in O1. specialize (O1 _ I eq_refl). cbn in O1. lia. }
      apply in_split in Ij1 as (la & m & El1).
      assert (Em : m = []).
      { destruct m as [|[tc kc] m]; [reflexivity|exfalso].
        assert (Sp : l = la ++ (t, j) :: ((tc, kc) :: m) ++ (t, k) :: l2) by (rewrite El, El1; now rewrite <- app_assoc).
        pose proof (Who la (t, j) ((tc, kc) :: m) (t, k) l2 Sp Sec) as Fm. pose proof (Forall_inv Fm) as Ft. cbn in Ft. subst tc.
        assert (Ic : In (t, kc) l) by (rewrite Sp; apply in_or_app; right; right; now left). apply Lis in Ic as (cc & Ec & Tcc). apply Nat.eqb_eq in Tcc.
        rewrite Sp in Ord. assert (B : j < kc < k).
        { clear - Ord. induction la as [|b la IHl]; cbn in Ord; inversion Ord as [|? ? O1 O2]; subst; [|auto]. rewrite Forall_forall in O1. split; [apply (O1 (t, kc)); [now left|reflexivity]|].
          inversion O2 as [|? ? O3 _]; subst. rewrite Forall_forall in O3. apply (O3 (t, k)); [apply in_or_app; right; now left|reflexivity]. }
        exact (Bet kc cc B Ec Tcc). }
      subst m. pose proof (La la (t, j) cj r El1 Ej Ld) as Er. subst r.
      apply (IH (l1 ++ [(t, k)]) calls' _ El' F' T); [cbn [target]; rewrite update_at; now rewrite Nw, Ev|].
      intros l0 a co r Eq Ea (mo' & Ec' & _). apply app_inj_tail in Eq as [_ <-]. cbn in Ea. rewrite E in Ea. injection Ea as <-. discriminate Ec'.
Qed.
Lemma counter calls : Forall2 (fun a co => nth_error (rs (fst a)) (snd a) = Some co) l calls -> in_turn objs st calls st' ->
  forall L, NoDup L -> (forall t k, In (t, k) L <-> exists co v, nth_error (rs t) k = Some co /\ stores_value x co v) ->
  st' x = IntState ((m0 + N.of_nat (length L)) mod 2 ^ wx)%N.
Proof.
  intros F T L DL HL. rewrite (counting l [] calls st eq_refl F T).
  - unfold now. do 3 f_equal. apply Nat2N.inj_iff. apply Permutation_length, NoDup_Permutation; [now apply NoDup_filter|exact DL|].
    intros [t k]. rewrite filter_In, HL, Lis. unfold is_store. cbn [fst snd]. split.
    + intros [(co & E & Tc) Is]. apply Nat.eqb_eq in Tc. rewrite E in Is. destruct co as [[y [b|[op mo|]]] o]; try discriminate Is. destruct op; try discriminate Is. cbn in Tc. subst y. eexists _, v. split; [exact E|]. now exists mo.
    + intros (co & v & E & (mo & Ec)). destruct co as [c o]. cbn in Ec. subst c. rewrite E. split; [|reflexivity]. eexists. split; [reflexivity|]. now apply Nat.eqb_eq.
  - rewrite Sx. unfold now. cbn. now rewrite N.add_0_r, N.mod_small.
  - intros l0 a co r E. now destruct l0.
Qed.
End Count.
