(** Counting with an atomic integer. *)
From Coq Require Import Permutation.
From Verif Require Import Base BaseLemmas BitModel BitsetModel BitsetSpec BitsetProofs ConcModel RelaxedModel RelaxedProofs AtomicModel AtomicSpec AtomicProofs.
From Verif Require Import AtomicBitsetModel AtomicBitsetSpec AtomicBitsetProofs AtomicProps MultiModel MultiSpec MultiProofs MultiProofs4 RaceSpec CountSpec.
Open Scope nat_scope.

Lemma told_one w op r c c' : told w op r c -> told w op r c' -> c = c'.
Proof.
  intros [B H] [B' H'].
  assert (K : forall d : Z, (((Z.of_N c + d) mod 2 ^ Z.of_N w) = ((Z.of_N c' + d) mod 2 ^ Z.of_N w))%Z -> c = c').
  { clear H H'. intros d E. apply N2Z.inj. apply N2Z.inj_lt in B, B'. rewrite N2Z.inj_pow in B, B'. change (Z.of_N 2) with 2%Z in *. pose proof (N2Z.is_nonneg c) as C. pose proof (N2Z.is_nonneg c') as C'.
    revert B B' C C' E. generalize (Z.of_N c), (Z.of_N c'), (2 ^ Z.of_N w)%Z. clear. intros a b p Ba Bb Ca Cb E.
    assert (E2 : ((a + d - d) mod p = (b + d - d) mod p)%Z) by now rewrite Zminus_mod, E, <- Zminus_mod.
    rewrite !Z.add_simpl_r in E2. now rewrite (Z.mod_small a), (Z.mod_small b) in E2 by easy. }
  destruct op; cbv beta iota in H, H'; try congruence; try (apply (K 1%Z); congruence); exact (K (-1)%Z (eq_trans (eq_sym H) H')).
Qed.

Section Count.
Context (objs : nat -> object_type) (st st' : nat -> obj_state) (rs : nat -> list (call * reply)) (threads x : nat) (iw wx ew : N) (sg esg : bool) (v0 : N) (l : list (nat * nat)).
Context (Wx : (0 < wx)%N) (Ox : objs x = Int iw wx ew sg esg) (Sx : st x = IntState v0) (Hv : (v0 < 2 ^ wx)%N).
Context (Lis : forall t k, In (t, k) l <-> exists co, nth_error (rs t) k = Some co /\ (target (fst co) =? x) = true) (Once : NoDup l).
Context (Ord : ForallOrdPairs (fun a b : nat * nat => fst a = fst b -> snd a < snd b) l).
Context (Th : forall t k co, nth_error (rs t) k = Some co -> t < threads).
Notation is_call := (is_call x). Notation number := (number x).

(** ** Counting calls *)
Definition isf (f : aop -> bool) (a : nat * nat) : bool := match nth_error (rs (fst a)) (snd a) with Some co => is_call f (fst co) | None => false end.
Definition cnt (f : aop -> bool) (l1 : list (nat * nat)) : nat := length (filter (isf f) l1).
Lemma cnt_app f l1 l2 : cnt f (l1 ++ l2) = cnt f l1 + cnt f l2.
Proof. clear. unfold cnt. now rewrite filter_app, app_length. Qed.
Lemma cnt_cons f a l1 : cnt f (a :: l1) = (if isf f a then 1 else 0) + cnt f l1.
Proof. clear. unfold cnt. cbn. now destruct (isf f a). Qed.
Lemma number_upto f t k : cnt f (map (pair t) (seq 0 k)) = number f (firstn k (rs t)).
Proof.
  clear. induction k as [|k IH]; [now destruct (rs t)|]. rewrite seq_S, map_app, cnt_app, IH. cbn [map]. unfold cnt. cbn [filter]. unfold isf. cbn [fst snd plus].
  assert (K : forall r k (a : nat * nat), number f (firstn k r) + length (if match nth_error r k with Some co => is_call f (fst co) | None => false end then [a] else []) = number f (firstn (S k) r)).
  { clear. unfold CountSpec.number. induction r as [|co r IH]; intros [|k] a; try reflexivity.
    - cbn. now destruct (is_call f (fst co)).
    - cbn [nth_error]. change (firstn (S k) (co :: r)) with (co :: firstn k r). change (firstn (S (S k)) (co :: r)) with (co :: firstn (S k) r). cbn [filter].
      destruct (is_call f (fst co)); cbn [length plus]; rewrite <- (IH k a); reflexivity. }
  apply K.
Qed.
Lemma isf_target f t k : isf f (t, k) = true -> exists co, nth_error (rs t) k = Some co /\ target (fst co) = x.
Proof.
  clear. unfold isf. cbn. destruct (nth_error (rs t) k) as [co|]; [|discriminate]. unfold CountSpec.is_call. intros H. apply andb_true_iff in H as [H _]. apply Nat.eqb_eq in H. eauto.
Qed.
Lemma cnt_thread f l1 t k : NoDup l1 -> (forall j, In (t, j) l1 -> j < k) -> (forall j co, j < k -> nth_error (rs t) j = Some co -> target (fst co) = x -> In (t, j) l1) ->
  cnt f (filter (fun a => fst a =? t) l1) = number f (firstn k (rs t)).
Proof.
  clear - l1. intros D H1 H2. rewrite <- number_upto. unfold cnt. apply Permutation_length, NoDup_Permutation.
  - apply NoDup_filter, NoDup_filter, D.
  - apply NoDup_filter. clear. generalize 0. induction k as [|k IH]; intros s; cbn; [constructor|]. constructor; [|apply IH]. intros I. apply in_map_iff in I as (j & E & I). injection E as ->. apply in_seq in I. lia.
  - intros [t' j]. rewrite !filter_In, in_map_iff. cbn. split.
    + intros [[I E] F]. apply Nat.eqb_eq in E. subst t'. split; [|exact F]. exists j. split; [reflexivity|]. apply in_seq. specialize (H1 j I). lia.
    + intros [(j' & E & I) F]. injection E as <- ->. apply in_seq in I. destruct (isf_target _ _ _ F) as (co & E & T). rewrite Nat.eqb_refl. split; [split; [apply (H2 j co); [lia|exact E|exact T]|reflexivity]|exact F].
Qed.
Lemma in_prefix l1 l2 t k : l = l1 ++ (t, k) :: l2 -> (forall j, In (t, j) l1 -> j < k) /\ (forall j co, j < k -> nth_error (rs t) j = Some co -> target (fst co) = x -> In (t, j) l1).
Proof.
  clear - Ord Lis. intros El. split.
  - intros j I. rewrite El in Ord. clear - Ord I. induction l1 as [|b l1 IH]; [destruct I|]. cbn in Ord. inversion Ord as [|? ? O1 O2]; subst. destruct I as [->|I]; [|now apply IH].
    rewrite Forall_forall in O1. apply (O1 (t, k)); [apply in_or_app; right; now left|reflexivity].
  - intros j co L E T. assert (I : In (t, j) l) by (apply Lis; exists co; split; [exact E|now apply Nat.eqb_eq]).
    rewrite El in I. apply in_app_or in I as [I|I]; [exact I|exfalso]. destruct I as [I|I]; [injection I as ->; lia|].
    rewrite El in Ord. clear - Ord I L. induction l1 as [|b l1 IHl]; cbn in Ord; inversion Ord as [|? ? O1 O2]; subst; [|auto].
    rewrite Forall_forall in O1. specialize (O1 _ I eq_refl). cbn in O1. lia.
Qed.
Lemma cnt_before f l1 t k l2 : l = l1 ++ (t, k) :: l2 -> cnt f (filter (fun a => fst a =? t) l1) = number f (firstn k (rs t)).
Proof.
  clear - Ord Lis Once. intros El. destruct (in_prefix l1 l2 t k El) as [H1 H2]. apply cnt_thread; [|exact H1|exact H2].
  rewrite El in Once. clear - Once. induction l1 as [|b l1 IH]; [constructor|]. inversion Once as [|? ? N D]; subst. constructor; [intros I; apply N, in_or_app; now left|now apply IH].
Qed.
Lemma cnt_all f t : cnt f (filter (fun a => fst a =? t) l) = number f (rs t).
Proof.
  clear - Lis Once. rewrite <- (firstn_all (rs t)) at 1. apply cnt_thread; [exact Once| |].
  - intros j I. apply Lis in I as (co & E & _). apply nth_error_Some. congruence.
  - intros j co _ E T. apply Lis. exists co. split; [exact E|now apply Nat.eqb_eq].
Qed.
Lemma sum_cons a r : list_sum (a :: r) = a + list_sum r.
Proof. reflexivity. Qed.
Definition over (g : nat -> nat) : nat := list_sum (map g (seq 0 threads)).
Lemma over_plus g h : over (fun t => g t + h t) = over g + over h.
Proof. clear. unfold over. induction (seq 0 threads) as [|t r IH]; [reflexivity|]. cbn [map]. rewrite !sum_cons, IH. lia. Qed.
Lemma over_ext g h : (forall t, t < threads -> g t = h t) -> over g = over h.
Proof. clear. intros H. unfold over. f_equal. apply map_ext_in. intros t I. apply in_seq in I. apply H. lia. Qed.
Lemma over_at u v : u < threads -> over (fun t => if u =? t then v else 0) = v.
Proof.
  clear. unfold over. intros L. assert (K : forall m s, list_sum (map (fun t => if u =? t then v else 0) (seq s m)) = if (s <=? u) && (u <? s + m) then v else 0).
  { induction m as [|m IH]; intros s; cbn [seq map].
    - destruct (Nat.leb_spec s u), (Nat.ltb_spec u (s + 0)); cbn; try reflexivity. lia.
    - rewrite sum_cons, IH. destruct (Nat.eqb_spec u s) as [->|N].
      + destruct (Nat.leb_spec (S s) s), (Nat.leb_spec s s), (Nat.ltb_spec s (s + S m)); cbn; try lia.
      + destruct (Nat.leb_spec (S s) u), (Nat.leb_spec s u), (Nat.ltb_spec u (S s + m)), (Nat.ltb_spec u (s + S m)); cbn; try lia; reflexivity. }
  rewrite K. destruct (Nat.leb_spec 0 u), (Nat.ltb_spec u (0 + threads)); cbn; try reflexivity; lia.
Qed.
Lemma cnt_over f l1 : (forall a, In a l1 -> fst a < threads) -> cnt f l1 = over (fun t => cnt f (filter (fun a => fst a =? t) l1)).
Proof.
  clear. induction l1 as [|[u k] l1 IH]; intros H.
  - cbn. unfold over. clear. induction (seq 0 threads) as [|t r IH]; [reflexivity|]. cbn [map]. now rewrite sum_cons, <- IH.
  - rewrite cnt_cons, IH by (intros; apply H; now right). rewrite <- (over_at u (if isf f (u, k) then 1 else 0)) at 1 by (apply (H (u, k)); now left). rewrite <- over_plus. apply over_ext.
    intros t _. cbn [filter fst]. destruct (u =? t); [now rewrite cnt_cons|reflexivity].
Qed.
Lemma in_threads a : In a l -> fst a < threads.
Proof. clear - Lis Th. destruct a as [t k]. intros I. apply Lis in I as (co & E & _). apply (Th t k co E). Qed.
Lemma cnt_made f : cnt f l = made rs threads x f.
Proof. rewrite cnt_over by exact in_threads. apply over_ext. intros t _. apply cnt_all. Qed.

(** ** The replies *)
Definition sum (l1 : list (nat * nat)) : Z := (Z.of_N v0 + Z.of_nat (cnt adds_one l1) - Z.of_nat (cnt takes_one l1))%Z.
Definition val (l1 : list (nat * nat)) : N := Z.to_N (sum l1 mod 2 ^ Z.of_N wx).
Context (All : only rs x (fun op => looks op || adds_one op || takes_one op)).
Lemma val_lt l1 : (val l1 < 2 ^ wx)%N.
Proof.
  clear. unfold val. assert (P : (2 ^ Z.of_N wx = Z.of_N (2 ^ wx))%Z) by now rewrite N2Z.inj_pow. assert (Q : (0 < 2 ^ wx)%N) by (apply N.neq_0_lt_0, N.pow_nonzero; lia).
  pose proof (Z.mod_pos_bound (sum l1) (2 ^ Z.of_N wx) ltac:(lia)). lia.
Qed.
Lemma one_step l1 a i o m' : nth_error (rs (fst a)) (snd a) = Some (Call x (IntCall i), IntReply o) -> looks (int_op i) || adds_one (int_op i) || takes_one (int_op i) = true ->
  aspec wx (val l1) (int_op i) o m' -> m' = val (l1 ++ [a]) /\ exists r, o = Some r /\ told wx (int_op i) r (val l1).
Proof.
  clear - Wx. intros E K S. pose proof (val_lt l1) as B.
  assert (P : (2 ^ Z.of_N wx = Z.of_N (2 ^ wx))%Z) by now rewrite N2Z.inj_pow. assert (Q : (2 <= 2 ^ wx)%N) by (change 2%N with (2 ^ 1)%N at 1; apply N.pow_le_mono_r; lia).
  assert (V : Z.of_N (val l1) = (sum l1 mod 2 ^ Z.of_N wx)%Z) by (unfold val; rewrite Z2N.id; [reflexivity|apply Z.mod_pos_bound; lia]).
  assert (Eq : forall f, isf f a = f (int_op i)) by (intros f; unfold isf; rewrite E; unfold CountSpec.is_call; cbn; now rewrite Nat.eqb_refl).
  assert (N1 : sum (l1 ++ [a]) = (sum l1 + (if adds_one (int_op i) then 1 else 0) - (if takes_one (int_op i) then 1 else 0))%Z).
  { unfold sum. rewrite !cnt_app, !cnt_cons. unfold cnt at 2 4. cbn [filter length]. rewrite !Eq. destruct (adds_one (int_op i)), (takes_one (int_op i)); lia. }
  assert (Up : Z.of_N ((val l1 + 1) mod 2 ^ wx) = ((sum l1 + 1) mod 2 ^ Z.of_N wx)%Z) by (rewrite N2Z.inj_mod, N2Z.inj_add, V, <- P; now rewrite Zplus_mod_idemp_l).
  assert (Dn : Z.of_N ((val l1 + (2 ^ wx - 1)) mod 2 ^ wx) = ((sum l1 - 1) mod 2 ^ Z.of_N wx)%Z).
  { rewrite N2Z.inj_mod, N2Z.inj_add, N2Z.inj_sub, V, <- P by lia. rewrite Zplus_mod_idemp_l. replace (sum l1 + (2 ^ Z.of_N wx - Z.of_N 1))%Z with (sum l1 - 1 + 1 * 2 ^ Z.of_N wx)%Z by lia. apply Z_mod_plus_full. }
  assert (Up' : Z.of_N ((val l1 + 1) mod 2 ^ wx) = ((Z.of_N (val l1) + 1) mod 2 ^ Z.of_N wx)%Z) by (rewrite Up, V; now rewrite Zplus_mod_idemp_l).
  assert (Dn' : Z.of_N ((val l1 + (2 ^ wx - 1)) mod 2 ^ wx) = ((Z.of_N (val l1) - 1) mod 2 ^ Z.of_N wx)%Z) by (rewrite Dn, V; now rewrite Zminus_mod_idemp_l).
  assert (St : forall s2, sum (l1 ++ [a]) = s2 -> forall m, Z.of_N m = (s2 mod 2 ^ Z.of_N wx)%Z -> m = val (l1 ++ [a])).
  { intros s2 <- m Em. unfold val. rewrite <- Em. now rewrite N2Z.id. }
  unfold aspec in S. destruct (int_op i) as [| | | |v|v| | | |v|v| | | | | | |] eqn:Ei; cbn in K; try discriminate K; cbn [aeffect] in S; cbn [adds_one takes_one] in N1; rewrite ?orb_false_r in K; rewrite ?K in N1;
    try (apply N.eqb_eq in K; subst v); injection S as -> ->; split; try (eexists; split; [reflexivity|]; split; [exact B|]; cbn; (reflexivity || exact Up' || exact Dn'));
    (apply (St _ N1); rewrite ?Z.add_0_r, ?Z.sub_0_r; (exact V || exact Up || exact Dn)).
Qed.
Lemma walk l2 : forall l1 calls st2, l = l1 ++ l2 -> Forall2 (fun a co => nth_error (rs (fst a)) (snd a) = Some co) l2 calls -> in_turn objs st2 calls st' -> st2 x = IntState (val l1) ->
  (forall m1 a m2, l2 = m1 ++ a :: m2 -> exists i r, nth_error (rs (fst a)) (snd a) = Some (Call x (IntCall i), IntReply (Some r)) /\ told wx (int_op i) r (val (l1 ++ m1))) /\ st' x = IntState (val l).
Proof.
  induction l2 as [|[t k] l2 IH]; intros l1 [|[c o] calls'] st2 El F T Ex; try now inversion F.
  - split; [intros [|? m1] a m2 E; discriminate E|]. rewrite app_nil_r in El. subst l1. cbn in T. now rewrite <- T.
  - assert (E : nth_error (rs t) k = Some (c, o)) by now inversion F. assert (F' : Forall2 (fun a co => nth_error (rs (fst a)) (snd a) = Some co) l2 calls') by now inversion F.
    cbn [in_turn] in T. destruct T as (s & Ef & T).
    assert (It : In (t, k) l) by (rewrite El; apply in_or_app; right; now left).
    apply Lis in It as (co' & E' & Tc). rewrite E in E'. injection E' as <-. cbn in Tc. apply Nat.eqb_eq in Tc.
    pose proof (All t k (c, o) E Tc) as K. destruct c as [y q]. cbn in Tc. subst y. unfold CountSpec.is_call in K. cbn in K. rewrite Nat.eqb_refl in K. cbn in K.
    destruct q as [|i]; [discriminate K|]. cbn [target asked] in Ef. rewrite Ox, Ex in Ef. cbn in Ef. destruct o as [|o]; [contradiction|]. destruct s as [|m']; [contradiction|].
    destruct (one_step l1 (t, k) i o m' E K Ef) as (-> & r & -> & Tr).
    assert (El' : l = (l1 ++ [(t, k)]) ++ l2) by (now rewrite <- app_assoc).
    destruct (IH (l1 ++ [(t, k)]) calls' _ El' F' T) as (G & Fin); [cbn [target]; now rewrite update_at|].
    split; [|exact Fin]. intros [|b m1] a m2 Em; cbn in Em; injection Em as <- Em.
    + exists i, r. rewrite app_nil_r. split; [exact E|exact Tr].
    + destruct (G m1 a m2 Em) as (i' & r' & Ea & Ta). exists i', r'. split; [exact Ea|]. now rewrite <- app_assoc in Ta.
Qed.
Context (calls : list (call * reply)) (Fc : Forall2 (fun a co => nth_error (rs (fst a)) (snd a) = Some co) l calls) (Tu : in_turn objs st calls st').
Lemma val_start : val [] = v0.
Proof.
  clear - Hv. unfold val, sum. cbn. assert (P : (2 ^ Z.of_N wx = Z.of_N (2 ^ wx))%Z) by now rewrite N2Z.inj_pow. rewrite Z.sub_0_r, Z.add_0_r, Z.mod_small by lia. apply N2Z.id.
Qed.
Lemma reply_at l1 a l2 : l = l1 ++ a :: l2 -> exists i r, nth_error (rs (fst a)) (snd a) = Some (Call x (IntCall i), IntReply (Some r)) /\ told wx (int_op i) r (val l1).
Proof. intros E. destruct (walk l [] calls st eq_refl Fc Tu) as [G _]; [now rewrite val_start|]. exact (G l1 a l2 E). Qed.
Lemma final : st' x = IntState (val l).
Proof. apply (walk l [] calls st eq_refl Fc Tu). now rewrite val_start. Qed.
Lemma counted_at f t k c : counted rs x wx f t k c <-> exists l1 l2, l = l1 ++ (t, k) :: l2 /\ isf f (t, k) = true /\ c = val l1.
Proof.
  split.
  - intros (i & r & E & Fi & T). assert (I : In (t, k) l) by (apply Lis; eexists; split; [exact E|cbn; apply Nat.eqb_refl]).
    apply in_split in I as (l1 & l2 & El). exists l1, l2. split; [exact El|]. split; [unfold isf; cbn [fst snd]; rewrite E; unfold CountSpec.is_call; cbn; now rewrite Nat.eqb_refl|].
    destruct (reply_at l1 (t, k) l2 El) as (i' & r' & E' & T'). cbn in E'. rewrite E in E'. injection E' as <- <-. eapply told_one; eassumption.
  - intros (l1 & l2 & El & Fi & ->). destruct (reply_at l1 (t, k) l2 El) as (i & r & E & T). exists i, r. split; [exact E|]. split; [|exact T].
    unfold isf in Fi. cbn in *. rewrite E in Fi. unfold CountSpec.is_call in Fi. cbn in Fi. now rewrite Nat.eqb_refl in Fi.
Qed.

(** ** Tickets *)
Lemma nth_counted f l0 : forall j, j < cnt f l0 -> exists l1 a l2, l0 = l1 ++ a :: l2 /\ isf f a = true /\ cnt f l1 = j.
Proof.
  clear. induction l0 as [|b l0 IH]; intros j L; [cbn in L; lia|]. rewrite cnt_cons in L. destruct (isf f b) eqn:Eb.
  - destruct j as [|j]; [exists [], b, l0; auto|]. destruct (IH j) as (l1 & a & l2 & -> & Ea & Ec); [lia|]. exists (b :: l1), a, l2. split; [reflexivity|]. split; [exact Ea|]. rewrite cnt_cons, Eb, Ec. reflexivity.
  - destruct (IH j L) as (l1 & a & l2 & -> & Ea & Ec). exists (b :: l1), a, l2. split; [reflexivity|]. split; [exact Ea|]. rewrite cnt_cons, Eb, Ec. reflexivity.
Qed.
Section Tickets.
Context (Up : only rs x (fun op => looks op || adds_one op)).
Lemma no_takes l1 l2 : l = l1 ++ l2 -> cnt takes_one l1 = 0.
Proof.
  clear - Up Lis. intros El. unfold cnt. replace (filter (isf takes_one) l1) with (@nil (nat * nat)); [reflexivity|].
  assert (In1 : forall a, In a l1 -> In a l) by (intros a I; rewrite El; apply in_or_app; now left). clear El.
  induction l1 as [|[t k] l1 IH]; [reflexivity|]. cbn [filter]. replace (isf takes_one (t, k)) with false; [apply IH; intros; apply In1; now right|]. symmetry.
  destruct (isf takes_one (t, k)) eqn:E; [|reflexivity]. unfold isf in E. cbn in E. pose proof (In1 _ (or_introl eq_refl)) as I. apply Lis in I as (co & Ec & T). rewrite Ec in E. apply Nat.eqb_eq in T.
  pose proof (Up t k co Ec T) as U. unfold CountSpec.is_call in *. apply andb_true_iff in E as [_ E]. apply andb_true_iff in U as [_ U]. destruct (asked (fst co)) as [|i]; [discriminate|].
  destruct (int_op i); cbn in *; congruence.
Qed.
Lemma val_up l1 l2 : l = l1 ++ l2 -> val l1 = ((v0 + N.of_nat (cnt adds_one l1)) mod 2 ^ wx)%N.
Proof.
  clear - Up Lis. intros El. unfold val, sum. rewrite (no_takes l1 l2 El). cbn [Z.of_nat]. rewrite Z.sub_0_r.
  replace (2 ^ Z.of_N wx)%Z with (Z.of_N (2 ^ wx)) by now rewrite N2Z.inj_pow. rewrite <- nat_N_Z, <- N2Z.inj_add, <- N2Z.inj_mod. apply N2Z.id.
Qed.
Lemma ticket t k c : counted rs x wx adds_one t k c -> exists j l1 l2, j < made rs threads x adds_one /\ c = ((v0 + N.of_nat j) mod 2 ^ wx)%N /\ l = l1 ++ (t, k) :: l2 /\ cnt adds_one l1 = j.
Proof.
  intros H. apply counted_at in H as (l1 & l2 & El & F & ->). exists (cnt adds_one l1), l1, l2. split; [|split; [now apply (val_up l1 ((t, k) :: l2))|auto]].
  rewrite <- cnt_made, El, cnt_app, cnt_cons, F. lia.
Qed.
Lemma every_ticket j : j < made rs threads x adds_one -> exists t k, counted rs x wx adds_one t k ((v0 + N.of_nat j) mod 2 ^ wx)%N.
Proof.
  intros L. rewrite <- cnt_made in L. destruct (nth_counted adds_one l j L) as (l1 & [t k] & l2 & El & F & <-). exists t, k. apply counted_at. exists l1, l2. split; [exact El|]. split; [exact F|]. symmetry. now apply (val_up l1 ((t, k) :: l2)).
Qed.
Lemma every_call t k co : nth_error (rs t) k = Some co -> is_call adds_one (fst co) = true -> exists c, counted rs x wx adds_one t k c.
Proof.
  intros E K. assert (T : target (fst co) = x) by (unfold CountSpec.is_call in K; apply andb_true_iff in K as [K _]; now apply Nat.eqb_eq).
  assert (I : In (t, k) l) by (apply Lis; exists co; split; [exact E|now apply Nat.eqb_eq]). apply in_split in I as (l1 & l2 & El). exists (val l1). apply counted_at. exists l1, l2. split; [exact El|]. split; [|reflexivity].
  unfold isf. cbn. now rewrite E.
Qed.
Lemma tickets_differ t k c t' k' c' : counted rs x wx adds_one t k c -> counted rs x wx adds_one t' k' c' -> (t, k) <> (t', k') -> (N.of_nat (made rs threads x adds_one) <= 2 ^ wx)%N -> c <> c'.
Proof.
  intros H H' Ne B E. destruct (ticket _ _ _ H) as (j & l1 & l2 & L & -> & El & Ec). destruct (ticket _ _ _ H') as (j' & l1' & l2' & L' & -> & El' & Ec').
  apply counted_at in H as (_ & _ & _ & F & _). apply counted_at in H' as (_ & _ & _ & F' & _).
  assert (j <> j').
  { rewrite El in El'. clear - El' Ec Ec' F F' Ne. intros <-. subst j. revert l1' El' Ec'. induction l1 as [|b l1 IH]; intros [|b' l1'] El' Ec'; cbn in El'; injection El' as E1 E2.
    - congruence.
    - subst b'. rewrite cnt_cons, F in Ec'. cbn in Ec'. lia.
    - subst b. rewrite cnt_cons, F' in Ec'. cbn in Ec'. lia.
    - subst b'. rewrite !cnt_cons in Ec'. apply (IH l1' E2). lia. }
  assert (K : forall a b : nat, a < b -> b < made rs threads x adds_one -> ((v0 + N.of_nat a) mod 2 ^ wx = (v0 + N.of_nat b) mod 2 ^ wx)%N -> False).
  { clear - B. intros a b L1 L2 E. assert (Q : (2 ^ wx <> 0)%N) by (apply N.pow_nonzero; lia). revert B E Q. generalize (2 ^ wx)%N. intros p B E Q.
    pose proof (N.div_mod (v0 + N.of_nat a) p Q) as D1. pose proof (N.div_mod (v0 + N.of_nat b) p Q) as D2. rewrite E in D1. revert D1 D2. generalize ((v0 + N.of_nat a) / p)%N, ((v0 + N.of_nat b) / p)%N, ((v0 + N.of_nat b) mod p)%N. intros qa qb r D1 D2.
    assert (D : (p * qb = p * qa + (N.of_nat b - N.of_nat a))%N) by lia. assert (Ba : (0 < N.of_nat b - N.of_nat a < p)%N) by lia. clear - D Ba.
    destruct (N.lt_trichotomy qa qb) as [H|[->|H]]; [|lia|nia]. assert (p * (qa + 1) <= p * qb)%N by (apply N.mul_le_mono_l; lia). lia. }
  destruct (Nat.lt_trichotomy j j') as [A|[A|A]]; [exact (K _ _ A L' E)|contradiction|exact (K _ _ A L (eq_sym E))].
Qed.
End Tickets.

(** ** References *)
Section References.
Context (start : nat -> nat) (Rc : reference_count rs threads x wx start v0).
Definition share (t : nat) (l1 : list (nat * nat)) : Z :=
  (Z.of_nat (start t) + Z.of_nat (cnt adds_one (filter (fun a => Nat.eqb (fst a) t) l1)) - Z.of_nat (cnt takes_one (filter (fun a => Nat.eqb (fst a) t) l1)))%Z.
Lemma share_has l1 t k l2 : l = l1 ++ (t, k) :: l2 -> share t l1 = has rs x start t k.
Proof. clear - Lis Once Ord. intros El. unfold share, has. now rewrite !(cnt_before _ l1 t k l2 El). Qed.
Lemma share_end t : share t l = has rs x start t (length (rs t)).
Proof. clear - Lis Once. unfold share, has. now rewrite !cnt_all, firstn_all. Qed.
Definition changes (a : nat * nat) : bool := isf adds_one a || isf takes_one a.
Lemma changes_has l1 t k l2 : l = l1 ++ (t, k) :: l2 -> changes (t, k) = true -> (1 <= share t l1)%Z.
Proof.
  clear - Lis Once Ord Rc. intros El C. rewrite (share_has l1 t k l2 El). unfold changes, isf in C. cbn in C. destruct (nth_error (rs t) k) as [co|] eqn:E; [|discriminate].
  apply (rightful _ _ _ _ _ _ Rc t k co E). unfold CountSpec.is_call in *. destruct (target (fst co) =? x); [|discriminate]. now destruct (asked (fst co)).
Qed.
Lemma share_app t l1 a : share t (l1 ++ [a]) = (share t l1 + if Nat.eqb (fst a) t then (if isf adds_one a then 1 else 0) - (if isf takes_one a then 1 else 0) else 0)%Z.
Proof.
  clear. unfold share. rewrite filter_app, !cnt_app. cbn [filter]. destruct (fst a =? t); [|cbn; lia]. rewrite !cnt_cons. destruct (isf adds_one a), (isf takes_one a); cbn; lia.
Qed.
Lemma share_positive t : forall l1 l2, l = l1 ++ l2 -> (0 <= share t l1)%Z.
Proof.
  induction l1 as [|a l1 IH] using rev_ind; intros l2 El; [unfold share; cbn; lia|]. rewrite <- app_assoc in El. cbn in El. specialize (IH _ El). rewrite share_app.
  destruct a as [u k]. cbn [fst]. destruct (Nat.eqb_spec u t) as [->|N]; [|lia].
  assert (C : changes (t, k) = true -> (1 <= share t l1)%Z) by (intros; eapply changes_has; eassumption). unfold changes in C.
  destruct (isf adds_one (t, k)), (isf takes_one (t, k)); cbn in C; try specialize (C eq_refl); lia.
Qed.
Definition zover (g : nat -> Z) : Z := fold_right (fun t s => (g t + s)%Z) 0%Z (seq 0 threads).
Lemma zover_of g : zover (fun t => Z.of_nat (g t)) = Z.of_nat (over g).
Proof. clear. unfold zover, over. induction (seq 0 threads) as [|t r IH]; [reflexivity|]. cbn [map fold_right]. rewrite sum_cons, IH. lia. Qed.
Lemma zover_le g t : (forall u, (0 <= g u)%Z) -> t < threads -> (g t <= zover g)%Z.
Proof.
  clear. intros H L. unfold zover. assert (I : In t (seq 0 threads)) by (apply in_seq; lia). revert I. induction (seq 0 threads) as [|u r IH]; [intros []|]. cbn.
  assert (0 <= fold_right (fun t s => (g t + s)%Z) 0%Z r)%Z by (clear - H; induction r as [|u r IH]; cbn; [lia|]; specialize (H u); lia).
  intros [->|I]; [lia|]. specialize (IH I). specialize (H u). lia.
Qed.
Lemma zover_zero g : (forall u, u < threads -> g u = 0%Z) -> zover g = 0%Z.
Proof.
  clear. intros H. unfold zover. assert (K : forall u, In u (seq 0 threads) -> g u = 0%Z) by (intros u I; apply in_seq in I; apply H; lia). revert K. induction (seq 0 threads) as [|u r IH]; intros K; [reflexivity|]. cbn.
  rewrite IH by (intros; apply K; now right). rewrite (K u) by now left. reflexivity.
Qed.
Lemma sum_shares l1 l2 : l = l1 ++ l2 -> sum l1 = zover (fun t => share t l1).
Proof.
  intros El. assert (Ht : forall a, In a l1 -> fst a < threads) by (intros a I; apply in_threads; rewrite El; apply in_or_app; now left).
  unfold sum. rewrite (all_counted _ _ _ _ _ _ Rc), (cnt_over adds_one l1 Ht), (cnt_over takes_one l1 Ht), nat_N_Z. fold (over start). unfold share. clear.
  unfold zover, over. induction (seq 0 threads) as [|t r IH]; [reflexivity|]. cbn [map fold_right]. rewrite !sum_cons. lia.
Qed.
Lemma sum_bounds l1 l2 : l = l1 ++ l2 -> (0 <= sum l1 < 2 ^ Z.of_N wx)%Z.
Proof.
  intros El. split.
  - rewrite (sum_shares l1 l2 El). unfold zover. pose proof (fun t => share_positive t l1 l2 El) as H. clear - H. induction (seq 0 threads) as [|t r IH]; cbn; [lia|]. specialize (H t). lia.
  - pose proof (enough_bits _ _ _ _ _ _ Rc) as B. rewrite <- cnt_made, El, cnt_app in B. unfold sum. apply N2Z.inj_lt in B. rewrite N2Z.inj_pow, N2Z.inj_add, nat_N_Z, Nat2Z.inj_add in B. change (Z.of_N 2) with 2%Z in B.
    revert B. generalize (2 ^ Z.of_N wx)%Z. clear. intros p B. lia.
Qed.
Lemma val_sum l1 l2 : l = l1 ++ l2 -> Z.of_N (val l1) = sum l1.
Proof. intros El. pose proof (sum_bounds l1 l2 El) as [B1 B2]. unfold val. rewrite Z.mod_small by auto. now rewrite Z2N.id. Qed.
Lemma changes_val l1 t k l2 : l = l1 ++ (t, k) :: l2 -> changes (t, k) = true -> (share t l1 <= sum l1)%Z.
Proof.
  intros El C. rewrite (sum_shares _ _ El). apply (zover_le (fun u => share u l1)); [intros u; eapply share_positive; exact El|].
  apply (in_threads (t, k)). rewrite El. apply in_or_app. right. now left.
Qed.
Lemma counted_f f t k c : (forall op, f op = true -> adds_one op = true \/ takes_one op = true) -> counted rs x wx f t k c -> exists l1 l2, l = l1 ++ (t, k) :: l2 /\ c = val l1 /\ changes (t, k) = true /\ isf f (t, k) = true.
Proof.
  intros Hf H. apply counted_at in H as (l1 & l2 & El & F & ->). exists l1, l2. split; [exact El|]. split; [reflexivity|]. split; [|exact F].
  unfold changes. unfold isf in *. cbn in *. destruct (nth_error (rs t) k) as [co|]; [|discriminate]. unfold CountSpec.is_call in *. destruct (target (fst co) =? x); [|discriminate]. destruct (asked (fst co)); [discriminate|].
  cbn in *. destruct (Hf _ F) as [-> | ->]; [reflexivity|apply orb_true_r].
Qed.
(** No call finds the count at zero. *)
Lemma never_zero t k c : counted rs x wx (fun op => adds_one op || takes_one op) t k c -> (1 <= c)%N.
Proof.
  intros H. apply counted_f in H as (l1 & l2 & El & -> & C & _); [|intros op; apply orb_true_iff].
  pose proof (changes_has _ _ _ _ El C). pose proof (changes_val _ _ _ _ El C). pose proof (val_sum _ _ El). lia.
Qed.
(** After a call that takes the last reference away, there is no other that changes the count. *)
Lemma sum_app l1 a : sum (l1 ++ [a]) = (sum l1 + (if isf adds_one a then 1 else 0) - (if isf takes_one a then 1 else 0))%Z.
Proof. clear. unfold sum. rewrite !cnt_app, !cnt_cons. destruct (isf adds_one a), (isf takes_one a); cbn; lia. Qed.
Lemma takes_not_adds a : isf takes_one a = true -> isf adds_one a = false.
Proof.
  clear. unfold isf. destruct (nth_error (rs (fst a)) (snd a)) as [co|]; [|discriminate]. unfold CountSpec.is_call. destruct (target (fst co) =? x); [|discriminate]. destruct (asked (fst co)) as [|i]; [discriminate|]. cbn. now destruct (int_op i).
Qed.
Lemma zero_rest : forall m l1 l2, l = l1 ++ m ++ l2 -> sum l1 = 0%Z -> forall a, In a m -> changes a = false.
Proof.
  induction m as [|[t k] m IH]; intros l1 l2 El Z a I; [destruct I|]. assert (C : changes (t, k) = false).
  { destruct (changes (t, k)) eqn:C; [exfalso|reflexivity]. pose proof (changes_has _ _ _ _ El C). pose proof (changes_val _ _ _ _ El C). lia. }
  destruct I as [<-|I]; [exact C|]. apply (IH (l1 ++ [(t, k)]) l2); [rewrite <- app_assoc; exact El| |exact I]. rewrite sum_app. unfold changes in C. apply orb_false_iff in C as [-> ->]. lia.
Qed.
Lemma last_one t k : counted rs x wx takes_one t k 1 -> exists l1 l2, l = l1 ++ (t, k) :: l2 /\ isf takes_one (t, k) = true /\ sum (l1 ++ [(t, k)]) = 0%Z /\ forall a, In a l2 -> changes a = false.
Proof.
  intros H. apply counted_f in H as (l1 & l2 & El & E & C & F); [|auto]. pose proof (val_sum _ _ El) as V. rewrite <- E in V.
  assert (Z : sum (l1 ++ [(t, k)]) = 0%Z) by (rewrite sum_app, F, (takes_not_adds _ F); lia).
  exists l1, l2. split; [exact El|]. split; [exact F|]. split; [exact Z|]. apply (zero_rest l2 (l1 ++ [(t, k)]) []); [rewrite <- app_assoc, app_nil_r; exact El|exact Z].
Qed.
Lemma sum_same m : forall l1, (forall a, In a m -> changes a = false) -> sum (l1 ++ m) = sum l1.
Proof.
  clear. induction m as [|a m IH]; intros l1 H; [now rewrite app_nil_r|]. change (a :: m) with ([a] ++ m). rewrite app_assoc, IH by (intros; apply H; now right). rewrite sum_app.
  pose proof (H a (or_introl eq_refl)) as C. unfold changes in C. apply orb_false_iff in C as [-> ->]. lia.
Qed.
Lemma one_last t k t' k' : counted rs x wx takes_one t k 1 -> counted rs x wx takes_one t' k' 1 -> (t, k) = (t', k').
Proof.
  intros H H'. destruct (last_one _ _ H) as (l1 & l2 & El & F & _ & R). destruct (last_one _ _ H') as (l1' & l2' & El' & F' & _ & R').
  rewrite El in El'. clear - El' F F' R R'. revert l1' El'. induction l1 as [|b l1 IH]; intros [|b' l1'] E; cbn in E; injection E as E1 E2.
  - congruence.
  - exfalso. assert (C : changes (t', k') = false) by (apply R; rewrite E2; apply in_or_app; right; now left). unfold changes in C. rewrite F', orb_true_r in C. discriminate.
  - exfalso. assert (C : changes (t, k) = false) by (apply R'; rewrite <- E2; apply in_or_app; right; now left). unfold changes in C. rewrite F, orb_true_r in C. discriminate.
  - exact (IH l1' E2).
Qed.
Lemma last_then_none t k u : counted rs x wx takes_one t k 1 -> u < threads -> has rs x start u (length (rs u)) = 0%Z.
Proof.
  intros H L. destruct (last_one _ _ H) as (l1 & l2 & El & F & Z & R). rewrite <- share_end.
  assert (El2 : l = (l1 ++ [(t, k)]) ++ l2) by (now rewrite <- app_assoc).
  assert (S : sum l = 0%Z) by (rewrite El2 at 1; rewrite (sum_same l2); assumption).
  assert (E0 : l = l ++ []) by now rewrite app_nil_r. pose proof (share_positive u l [] E0). rewrite (sum_shares l [] E0) in S.
  pose proof (zover_le (fun t => share t l) u ltac:(intros v; apply (share_positive v l [] E0)) L) as B. cbn beta in B. lia.
Qed.
Lemma split_last (f : nat * nat -> bool) (m : list (nat * nat)) : (forall a, In a m -> f a = false) \/ exists m1 a m2, m = m1 ++ a :: m2 /\ f a = true /\ forall b, In b m2 -> f b = false.
Proof.
  clear. induction m as [|a m IH]; [left; intros a []|]. destruct IH as [H|(m1 & b & m2 & -> & Fb & H)].
  - destruct (f a) eqn:Fa; [right; exists [], a, m; auto|left; intros b [<-|I]; auto].
  - right. exists (a :: m1), b, m2. auto.
Qed.
Lemma some_last : (0 < v0)%N -> (forall u, u < threads -> has rs x start u (length (rs u)) = 0%Z) -> exists t k, counted rs x wx takes_one t k 1.
Proof.
  intros P H. assert (E0 : l = l ++ []) by now rewrite app_nil_r.
  assert (S : sum l = 0%Z) by (rewrite (sum_shares l [] E0); apply zover_zero; intros u L; rewrite share_end; now apply H).
  destruct (split_last changes l) as [N|(l1 & [t k] & l2 & El & C & N)].
  - pose proof (sum_same l [] N) as E. cbn [app] in E. rewrite S in E. unfold sum in E. cbn in E. lia.
  - exists t, k. apply counted_at. exists l1, l2. split; [exact El|].
    assert (El2 : l = (l1 ++ [(t, k)]) ++ l2) by (now rewrite <- app_assoc). rewrite El2, (sum_same l2 _ N), sum_app in S.
    pose proof (changes_has _ _ _ _ El C). pose proof (changes_val _ _ _ _ El C). pose proof (val_sum _ _ El). unfold changes in C.
    destruct (isf adds_one (t, k)), (isf takes_one (t, k)); cbn in C; try discriminate; lia || (split; [reflexivity|lia]).
Qed.
(** Whoever has a reference gives it up before the last one is gone. *)
Lemma number_none f (r : list (call * reply)) : (forall co, In co r -> is_call f (fst co) = false) -> number f r = 0.
Proof. clear. intros H. unfold CountSpec.number. induction r as [|co r IH]; [reflexivity|]. cbn. rewrite (H co) by now left. apply IH. intros; apply H; now right. Qed.
Lemma number_app f (r r' : list (call * reply)) : number f (r ++ r') = number f r + number f r'.
Proof. clear. unfold CountSpec.number. now rewrite filter_app, app_length. Qed.
Lemma nth_skipn {A} (r : list A) : forall j m, nth_error (skipn j r) m = nth_error r (j + m).
Proof. clear. induction r as [|a r IH]; intros [|j] m; try reflexivity; [now destruct m|apply IH]. Qed.
Lemma given_up u j : (1 <= has rs x start u j)%Z -> has rs x start u (length (rs u)) = 0%Z -> exists j', j <= j' /\ isf takes_one (u, j') = true.
Proof.
  clear. intros H1 H2. unfold has in *. rewrite firstn_all in H2. rewrite <- (firstn_skipn j (rs u)) in H2 at 1 2. rewrite !number_app in H2.
  assert (N : number takes_one (skipn j (rs u)) <> 0) by lia.
  destruct (existsb (fun co => is_call takes_one (fst co)) (skipn j (rs u))) eqn:Ex.
  - apply existsb_exists in Ex as (co & I & C). apply In_nth_error in I as (m & E). rewrite nth_skipn in E. exists (j + m). split; [lia|]. unfold isf. cbn. now rewrite E.
  - exfalso. apply N, number_none. intros co I. destruct (is_call takes_one (fst co)) eqn:C; [|reflexivity]. assert (existsb (fun co => is_call takes_one (fst co)) (skipn j (rs u)) = true) by (apply existsb_exists; eauto). congruence.
Qed.
Lemma before_last t k u j : counted rs x wx takes_one t k 1 -> u < threads -> (1 <= has rs x start u j)%Z ->
  exists j', j <= j' /\ isf takes_one (u, j') = true /\ ((u, j') = (t, k) \/ exists l1 l2, l = l1 ++ (t, k) :: l2 /\ In (u, j') l1).
Proof.
  intros H L Hh. destruct (given_up u j Hh (last_then_none t k u H L)) as (j' & Lj & F). exists j'. split; [exact Lj|]. split; [exact F|].
  destruct (last_one _ _ H) as (l1 & l2 & El & _ & _ & R). destruct (isf_target _ _ _ F) as (co & E & T).
  assert (I : In (u, j') l) by (apply Lis; exists co; split; [exact E|now apply Nat.eqb_eq]). rewrite El in I. apply in_app_or in I as [I|[I|I]]; [right; eauto|left; congruence|].
  exfalso. specialize (R _ I). unfold changes in R. rewrite F, orb_true_r in R. discriminate.
Qed.
End References.
End Count.
