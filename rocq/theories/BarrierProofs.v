From Verif Require Import Base BaseLemmas BitModel ConcModel AtomicModel WaitModel WaitSpec WaitProofs WaitProofs2 TicketProofs BarrierSpec.
Open Scope nat_scope.

(** ** The threads with their counters not rolling over *)
Inductive bk :=
| KW (r : nat) | KS0 (r : nat) | KS1 (r : nat) | KSR (r m : nat)
| KA0 (r m : nat) | KA1 (r m : nat) | KAR (r m c : nat)
| KZ0 (r : nat) | KZ1 (r : nat) | KZR (r : nat) | KO0 (r : nat) | KO1 (r : nat) | KOR (r v : nat)
| KT0 (r m : nat) | KT1 (r m : nat) | KTR (r m v : nat).
Record bs := BS { cnt : nat; ph : nat; ks : list bk }.

Lemma in_set {X} (l : list X) : forall i y x, In x (set_nth i y l) -> x = y \/ In x l.
Proof. induction l as [|z l IH]; intros [|i] y x; cbn; try tauto; intros [H|H]; auto. apply IH in H. tauto. Qed.

Section Barrier.
Variables (iw w ew : N) (n : nat).
Hypothesis Hw : (w <= ew)%N.
Notation tmod x := (N.of_nat x mod 2 ^ w)%N.
Notation emod x := (N.of_nat x mod 2 ^ ew)%N.
Notation code := (acode iw w ew false false).

Definition bt (k : bk) : waiter stage N :=
  match k with
  | KW r => {| place := Work r; running := None |}
  | KS0 r => {| place := See r; running := None |}
  | KS1 r => {| place := See r; running := Some (code ALoad) |}
  | KSR r m => {| place := See r; running := Some (Ret (Some (tmod m))) |}
  | KA0 r m => {| place := Arrive r (tmod m); running := None |}
  | KA1 r m => {| place := Arrive r (tmod m); running := Some (code APreInc) |}
  | KAR r m c => {| place := Arrive r (tmod m); running := Some (Ret (Some (tmod c))) |}
  | KZ0 r => {| place := Zero r; running := None |}
  | KZ1 r => {| place := Zero r; running := Some (code (AAssign 0)) |}
  | KZR r => {| place := Zero r; running := Some (Ret (Some 0%N)) |}
  | KO0 r => {| place := Open r; running := None |}
  | KO1 r => {| place := Open r; running := Some (code APreInc) |}
  | KOR r v => {| place := Open r; running := Some (Ret (Some (tmod v))) |}
  | KT0 r m => {| place := Wait r (tmod m); running := None |}
  | KT1 r m => {| place := Wait r (tmod m); running := Some (code ALoad) |}
  | KTR r m v => {| place := Wait r (tmod m); running := Some (Ret (Some (tmod v))) |}
  end.
Definition bconc (s : bs) : state stage N := {| words := [emod (cnt s); emod (ph s)]; threads := map bt (ks s) |}.
Definition tstep (c p : nat) (k : bk) (go : bool) : nat * nat * bk :=
  match k with
  | KW r => (c, p, if go then KS0 r else KW r)
  | KS0 r => (c, p, KS1 r)
  | KS1 r => (c, p, KSR r p)
  | KSR r m => (c, p, KA0 r m)
  | KA0 r m => (c, p, KA1 r m)
  | KA1 r m => (S c, p, KAR r m (S c))
  | KAR r m v => (c, p, if (tmod v =? N.of_nat n)%N then KZ0 r else KT0 r m)
  | KZ0 r => (c, p, KZ1 r)
  | KZ1 r => (0, p, KZR r)
  | KZR r => (c, p, KO0 r)
  | KO0 r => (c, p, KO1 r)
  | KO1 r => (c, S p, KOR r (S p))
  | KOR r _ => (c, p, KW (S r))
  | KT0 r m => (c, p, KT1 r m)
  | KT1 r m => (c, p, KTR r m p)
  | KTR r m v => (c, p, if (tmod v =? tmod m)%N then KT0 r m else KW (S r))
  end.
Definition bstep (s : bs) (i : nat) (go : bool) : bs :=
  match nth_error (ks s) i with
  | None => s
  | Some k => let '(c, p, k') := tstep (cnt s) (ph s) k go in BS c p (set_nth i k' (ks s))
  end.
Lemma simulates_barrier s i go : step code barrier_act (barrier_after n) ew (bconc s) i go = bconc (bstep s i go).
Proof.
  destruct s as [C P l]. unfold step, bstep, bconc. cbn [cnt ph ks threads words]. rewrite nth_error_map.
  destruct (nth_error l i) as [k|] eqn:E; [|reflexivity]. cbn [option_map].
  destruct k as [r|r|r|r m|r m|r m|r m v|r|r|r|r|r|r v|r m|r m|r m v]; cbn -[N.modulo N.pow N.add N.eqb N.of_nat wrap AtomicModel.plus];
    unfold AtomicModel.to_t, AtomicModel.to_elem; cbn [andb]; rewrite ?(emod_succ w ew Hw), ?(plus_one iw w ew Hw); cbn -[N.modulo N.pow N.add N.eqb N.of_nat wrap AtomicModel.plus];
    unfold AtomicModel.to_t, wrap; rewrite ?(tmod_emod w ew Hw); try (now rewrite map_set).
  - destruct go; cbn -[N.modulo N.pow]; [now rewrite map_set|now rewrite set_same].
  - rewrite map_set. cbn [bt]. replace (N.of_nat (S C)) with (N.of_nat C + 1)%N by lia. reflexivity.
  - destruct (tmod v =? N.of_nat n)%N; now rewrite map_set.
  - rewrite map_set. cbn [bt]. replace (N.of_nat (S P)) with (N.of_nat P + 1)%N by lia. reflexivity.
  - destruct (tmod v =? tmod m)%N; now rewrite map_set.
Qed.

Variable sched : nat -> nat * bool.
Fixpoint Q (t : nat) : bs :=
  match t with O => BS 0 0 (repeat (KW 0) n) | S t => bstep (Q t) (fst (sched t)) (snd (sched t)) end.
Lemma run_Q t : barrier_run iw w ew n sched t = bconc (Q t).
Proof.
  unfold barrier_run. induction t as [|t IH]; cbn [state_at Q].
  - unfold bconc, start, atomic_init. cbn [cnt ph ks repeat]. rewrite N.mod_0_l by (apply N.pow_nonzero; lia). f_equal.
    clear. induction n as [|m IH]; [reflexivity|]. cbn. now rewrite IH.
  - rewrite IH. apply simulates_barrier.
Qed.
Lemma Q_length t : length (ks (Q t)) = n.
Proof.
  induction t as [|t IH]; cbn [Q]; [apply repeat_length|]. unfold bstep. destruct (nth_error _ _); [|exact IH].
  destruct (tstep _ _ _ _) as [[c p] k']. cbn [ks]. rewrite set_nth_length. exact IH.
Qed.
Lemma at_Q l t i : is_at l (barrier_run iw w ew n sched t) i <-> exists k, nth_error (ks (Q t)) i = Some k /\ place (bt k) = l.
Proof.
  rewrite run_Q. unfold is_at, bconc. cbn [threads]. rewrite nth_error_map. split.
  - intros (x & E & P). destruct (nth_error (ks (Q t)) i) as [k|]; [|discriminate]. injection E as <-. eauto.
  - intros (k & -> & P). cbn [option_map]. eauto.
Qed.

Lemma after_bstep s i go j k : nth_error (ks s) j = Some k ->
  nth_error (ks (bstep s i go)) j = Some (if Nat.eqb i j then snd (tstep (cnt s) (ph s) k go) else k).
Proof.
  intros E. unfold bstep. destruct (nth_error (ks s) i) as [k0|] eqn:E0.
  - destruct (tstep (cnt s) (ph s) k0 go) as [[c p] k'] eqn:T. cbn [ks]. rewrite nth_error_set_nth by (apply nth_error_Some; congruence).
    rewrite (Nat.eqb_sym i j). destruct (Nat.eqb_spec j i) as [->|]; [|exact E]. rewrite E in E0. injection E0 as ->. now rewrite T.
  - destruct (Nat.eqb_spec i j) as [->|]; [congruence|exact E].
Qed.
Lemma eager_barrier : fair n sched -> (forall t, snd (sched t) = true) -> forall r, leaves (Work r) n (barrier_run iw w ew n sched).
Proof.
  intros F G r i t Hi At. destruct (F i Hi t) as (t0 & L0 & E0). destruct (next_turn sched i t t0 L0 E0) as (t1 & L1 & E1 & N1).
  exists (S t1). split; [lia|]. apply at_Q in At. destruct At as (k & Hk & Pk).
  assert (k = KW r) as -> by (destruct k; try discriminate Pk; now injection Pk as ->). clear Pk.
  assert (K : forall d, t + d <= t1 -> nth_error (ks (Q (t + d))) i = Some (KW r)).
  { induction d as [|d IH]; intros Ld; [now rewrite Nat.add_0_r|]. rewrite Nat.add_succ_r. cbn [Q].
    rewrite (after_bstep _ _ _ _ _ (IH ltac:(lia))). destruct (Nat.eqb_spec (fst (sched (t + d))) i) as [X|X]; [|reflexivity].
    exfalso. apply (N1 (t + d)); [lia|exact X]. }
  specialize (K (t1 - t) ltac:(lia)). replace (t + (t1 - t)) with t1 in K by lia.
  intros X. apply at_Q in X. destruct X as (k & E & P). cbn [Q] in E. rewrite (after_bstep _ _ _ _ _ K), E1, Nat.eqb_refl, G in E. injection E as <-. discriminate P.
Qed.

(** ** Where a thread is in a round: [B d], it has [d] steps to take before it arrives; [A], it has arrived and waits;
    [F d], it was the last to arrive; [Z d], it has set count to zero *)
Inductive kind := B (d : nat) | A | F (d : nat) | Z (d : nat) | J.
Definition on (b : bool) (x : kind) : kind := if b then x else J.
Definition kd (R : nat) (k : bk) : kind :=
  match k with
  | KW r => on (r =? R) (B 6)
  | KS0 r => on (r =? R) (B 5)
  | KS1 r => on (r =? R) (B 4)
  | KSR r m => on ((r =? R) && (m =? R)) (B 3)
  | KA0 r m => on ((r =? R) && (m =? R)) (B 2)
  | KA1 r m => on ((r =? R) && (m =? R)) (B 1)
  | KAR r m c => on (m =? r) (if r =? R then if c <? n then A else on (c =? n) (F 3) else on ((S r =? R) && (c <? n)) (B 10))
  | KZ0 r => on (r =? R) (F 2)
  | KZ1 r => on (r =? R) (F 1)
  | KZR r => on (r =? R) (Z 3)
  | KO0 r => on (r =? R) (Z 2)
  | KO1 r => on (r =? R) (Z 1)
  | KOR r v => on ((S r =? R) && (v =? R)) (B 7)
  | KT0 r m => on (m =? r) (if r =? R then A else on (S r =? R) (B 9))
  | KT1 r m => on (m =? r) (if r =? R then A else on (S r =? R) (B 8))
  | KTR r m v => on (m =? r) (if r =? R then on (v =? r) A else on (S r =? R) (if v =? r then B 10 else on (v =? R) (B 7)))
  end.
Hypothesis Hn : (N.of_nat n < 2 ^ w)%N.
Hypothesis Pos : 0 < n.
Lemma two_values : (2 <= 2 ^ w)%N.
Proof. lia. Qed.
Lemma tmod_next r : tmod (S r) <> tmod r.
Proof.
  intros E. pose proof two_values as T. replace (N.of_nat (S r)) with (N.of_nat r + 1)%N in E by lia.
  rewrite <- N.add_mod_idemp_l in E by lia. pose proof (N.mod_lt (N.of_nat r) (2 ^ w) ltac:(lia)) as L.
  set (x := tmod r) in *. destruct (N.eq_dec (x + 1) (2 ^ w)) as [D|D].
  - rewrite D, N.mod_same in E by lia. lia.
  - rewrite N.mod_small in E by lia. lia.
Qed.
Ltac ifs := repeat match goal with
  | H : context [Nat.eqb ?a ?b] |- _ => destruct (Nat.eqb_spec a b); cbn [on andb] in H; try discriminate H
  | H : context [Nat.ltb ?a ?b] |- _ => destruct (Nat.ltb_spec a b); cbn [on andb] in H; try discriminate H
  end; subst; try lia.
Ltac go_on := repeat match goal with
  | |- context [Nat.eqb ?a ?b] => destruct (Nat.eqb_spec a b); cbn [on andb]; try lia
  | |- context [Nat.ltb ?a ?b] => destruct (Nat.ltb_spec a b); cbn [on andb]; try lia
  end.
Lemma not_n c : c < n -> (tmod c =? N.of_nat n)%N = false.
Proof. intros L. apply N.eqb_neq. rewrite N.mod_small by lia. lia. Qed.
Lemma is_n : (tmod n =? N.of_nat n)%N = true.
Proof. apply N.eqb_eq. rewrite N.mod_small by lia. lia. Qed.
Lemma tstep_B c R k go d : kd R k = B d -> exists c' k', tstep c R k go = (c', R, k') /\
  (k = KW R /\ go = false /\ c' = c /\ k' = k \/
   1 < d /\ c' = c /\ kd R k' = B (d - 1) \/
   d = 1 /\ c' = S c /\ kd R k' = if S c <? n then A else on (S c =? n) (F 3)).
Proof.
  destruct k as [r|r|r|r m|r m|r m|r m v|r|r|r|r|r|r v|r m|r m|r m v]; cbn [kd tstep]; intros H; ifs; try discriminate H; injection H as <-; try (eexists _, _; split; [reflexivity|]).
  - destruct go; [right; left|left; auto]. cbn [kd]. go_on; repeat split; try lia; reflexivity.
  - right. left. cbn [kd]. go_on; repeat split; try lia; reflexivity.
  - right. left. cbn [kd]. go_on; repeat split; try lia; reflexivity.
  - right. left. cbn [kd]. go_on; repeat split; try lia; reflexivity.
  - right. left. cbn [kd]. go_on; repeat split; try lia; reflexivity.
  - right. right. cbn [kd]. rewrite !Nat.eqb_refl. cbn [on andb]; repeat split.
  - right. left. rewrite not_n by assumption. cbn [kd]. go_on; repeat split; try lia; reflexivity.
  - right. left. cbn [kd]. go_on; repeat split; try lia; reflexivity.
  - right. left. cbn [kd]. go_on; repeat split; try lia; reflexivity.
  - right. left. cbn [kd]. go_on; repeat split; try lia; reflexivity.
  - right. left. rewrite N.eqb_refl. cbn [kd]. go_on; repeat split; try lia; reflexivity.
  - right. left. destruct (N.eqb_spec (tmod (S r)) (tmod r)) as [E|E]; [now apply tmod_next in E|]. cbn [kd]. go_on; repeat split; try lia; reflexivity.
Qed.
Lemma tstep_A c R k go : kd R k = A -> exists k', tstep c R k go = (c, R, k') /\ kd R k' = A.
Proof.
  destruct k as [r|r|r|r m|r m|r m|r m v|r|r|r|r|r|r v|r m|r m|r m v]; cbn [kd tstep]; intros H; ifs; try discriminate H; eexists; (split; [reflexivity|]).
  - rewrite not_n by assumption. cbn [kd]. go_on; repeat split; try lia; reflexivity.
  - cbn [kd]. go_on; repeat split; try lia; reflexivity.
  - cbn [kd]. go_on; repeat split; try lia; reflexivity.
  - rewrite N.eqb_refl. cbn [kd]. go_on; repeat split; try lia; reflexivity.
Qed.
Lemma tstep_F c R k go d : kd R k = F d -> exists c' k', tstep c R k go = (c', R, k') /\
  (1 < d /\ c' = c /\ kd R k' = F (d - 1) \/ d = 1 /\ c' = 0 /\ kd R k' = Z 3).
Proof.
  destruct k as [r|r|r|r m|r m|r m|r m v|r|r|r|r|r|r v|r m|r m|r m v]; cbn [kd tstep]; intros H; ifs; try discriminate H; injection H as <-; eexists _, _; (split; [reflexivity|]).
  - left. rewrite is_n. cbn [kd]. go_on; repeat split; try lia; reflexivity.
  - left. cbn [kd]. go_on; repeat split; try lia; reflexivity.
  - right. cbn [kd]. go_on; repeat split; try lia; reflexivity.
Qed.
Lemma tstep_Z c R k go d : kd R k = Z d -> exists p' k', tstep c R k go = (c, p', k') /\
  (1 < d /\ p' = R /\ kd R k' = Z (d - 1) \/ d = 1 /\ p' = S R /\ kd (S R) k' = B 7).
Proof.
  destruct k as [r|r|r|r m|r m|r m|r m v|r|r|r|r|r|r v|r m|r m|r m v]; cbn [kd tstep]; intros H; ifs; try discriminate H; injection H as <-; eexists _, _; (split; [reflexivity|]).
  - left. cbn [kd]. go_on; repeat split; try lia; reflexivity.
  - left. cbn [kd]. go_on; repeat split; try lia; reflexivity.
  - right. cbn [kd]. go_on; repeat split; try lia; reflexivity.
Qed.
Lemma ages R k : kd R k = A -> exists d, 7 <= d /\ kd (S R) k = B d.
Proof.
  destruct k as [r|r|r|r m|r m|r m|r m v|r|r|r|r|r|r v|r m|r m|r m v]; cbn [kd]; intros H; ifs; try discriminate H; eexists; (split; [|go_on; reflexivity]); lia.
Qed.

(** ** All threads *)
Definition isA (x : kind) : bool := match x with A => true | _ => false end.
Definition nA (l : list kind) : nat := length (filter isA l).
Lemma nA_le l : nA l <= length l.
Proof. unfold nA. induction l as [|x l IH]; cbn; [lia|]. destruct (isA x); cbn; lia. Qed.
Lemma nA_all l : nA l = length l -> forall x, In x l -> x = A.
Proof.
  unfold nA. induction l as [|y l IH]; cbn; [contradiction|]. pose proof (nA_le l) as L. unfold nA in L. destruct (isA y) eqn:E; cbn; intros H x [->|I]; try lia.
  - destruct x; congruence || discriminate.
  - apply IH; [lia|exact I].
Qed.
Lemma nA_set l : forall i x y, nth_error l i = Some x -> isA x = false -> nA (set_nth i y l) = nA l + (if isA y then 1 else 0).
Proof.
  unfold nA. induction l as [|z l IH]; intros [|i] x y E X; try discriminate; cbn in E |- *.
  - injection E as ->. rewrite X. destruct (isA y); cbn; lia.
  - specialize (IH i x y E X). destruct (isA z); cbn; lia.
Qed.
Lemma nA_same l : forall i y, nth_error l i = Some A -> isA y = true -> nA (set_nth i y l) = nA l.
Proof.
  unfold nA. induction l as [|z l IH]; intros [|i] y E Y; try discriminate; cbn in E |- *.
  - injection E as ->. rewrite Y. reflexivity.
  - specialize (IH i y E Y). destruct (isA z); cbn; lia.
Qed.
Lemma filter_none (l : list kind) : (forall x, In x l -> isA x = false) -> filter isA l = [].
Proof. induction l as [|x l IH]; intros H; [reflexivity|]. cbn. rewrite (H x (or_introl eq_refl)). apply IH. intros y I. apply H. now right. Qed.
Definition kl (s : bs) : list kind := map (kd (ph s)) (ks s).
Definition gathers (s : bs) : Prop :=
  (forall x, In x (kl s) -> x = A \/ exists d, x = B d) /\ cnt s = nA (kl s) /\ cnt s < n.
Definition closes (s : bs) : Prop :=
  exists i d, (nth_error (kl s) i = Some (F d) /\ cnt s = n \/ nth_error (kl s) i = Some (Z d) /\ cnt s = 0) /\
    forall j x, j <> i -> nth_error (kl s) j = Some x -> x = A.
Definition inv (s : bs) : Prop := length (ks s) = n /\ (gathers s \/ closes s).
Lemma kl_length s : length (kl s) = length (ks s).
Proof. apply map_length. Qed.
Lemma nth_kl s i k : nth_error (ks s) i = Some k -> nth_error (kl s) i = Some (kd (ph s) k).
Proof. intros E. unfold kl. now apply map_nth_error. Qed.

(** One step of thread [i]: [moves] says what becomes of it. *)
Definition moves (s s' : bs) (i : nat) (go : bool) : Prop :=
  ph s' = ph s /\ (forall j, j <> i -> nth_error (kl s') j = nth_error (kl s) j) /\
    (forall x, nth_error (kl s) i = Some x -> exists y, nth_error (kl s') i = Some y /\
       match x with
       | B d => y = B (d - 1) /\ 1 < d \/ d = 1 /\ (y = A \/ y = F 3) \/ d = 6 /\ y = x /\ go = false
       | A => y = A
       | F d => y = F (d - 1) /\ 1 < d \/ d = 1 /\ y = Z 3
       | Z d => y = Z (d - 1) /\ 1 < d
       | J => False
       end) \/
  ph s' = S (ph s) /\ (exists x, nth_error (kl s) i = Some (Z x)) /\ (forall j x, j <> i -> nth_error (kl s) j = Some x -> x = A) /\
    forall x, In x (kl s') -> exists d, 7 <= d /\ x = B d.
Lemma kl_set c R i k' l : kl (BS c R (set_nth i k' l)) = set_nth i (kd R k') (map (kd R) l).
Proof. unfold kl. cbn [ph ks]. now rewrite map_set. Qed.
Lemma inv_bstep s i go k : inv s -> nth_error (ks s) i = Some k -> inv (bstep s i go) /\ moves s (bstep s i go) i go.
Proof.
  intros [L H] E. assert (Li : i < length (ks s)) by (apply nth_error_Some; congruence).
  destruct s as [c R l]. cbn [ks ph cnt] in *. unfold bstep. cbn [ks ph cnt]. rewrite E. pose proof (nth_kl (BS c R l) i k E) as Ek. cbn [ph] in Ek.
  assert (KL : kl (BS c R l) = map (kd R) l) by reflexivity.
  assert (MV : forall c' k', (forall y, y = kd R k' -> match kd R k with
       | B d => y = B (d - 1) /\ 1 < d \/ d = 1 /\ (y = A \/ y = F 3) \/ d = 6 /\ y = kd R k /\ go = false
       | A => y = A
       | F d => y = F (d - 1) /\ 1 < d \/ d = 1 /\ y = Z 3
       | Z d => y = Z (d - 1) /\ 1 < d
       | J => False end) -> moves (BS c R l) (BS c' R (set_nth i k' l)) i go).
  { intros c' k' K. left. split; [reflexivity|]. cbv beta iota. rewrite kl_set. split.
    - intros j N. rewrite nth_error_set_nth by (rewrite map_length; exact Li). destruct (Nat.eqb_spec j i); [contradiction|reflexivity].
    - intros x X. rewrite Ek in X. injection X as <-. exists (kd R k'). split; [|apply K; reflexivity].
      rewrite nth_error_set_nth by (rewrite map_length; exact Li). now rewrite Nat.eqb_refl. }
  destruct H as [(AB & C & Lc)|(i0 & d0 & Hi0 & Oth)]; cbn [cnt ph ks] in *; rewrite KL in *.
  - destruct (AB _ (nth_error_In _ _ Ek)) as [KA|(d & KB)].
    + destruct (tstep_A c R k go KA) as (k' & -> & K'). split.
      * split; [cbn [ks]; rewrite set_nth_length; exact L|]. left. unfold gathers. cbv beta iota. rewrite kl_set. cbn [cnt]. split; [|split; [|exact Lc]].
        -- intros x I. apply in_set in I. destruct I as [->|I]; auto.
        -- rewrite K', nA_same; [exact C|now rewrite Ek, KA|reflexivity].
      * apply MV. intros y ->. rewrite KA. exact K'.
    + destruct (tstep_B c R k go d KB) as (c' & k' & -> & K').
      destruct K' as [(Kw & G & -> & ->)|[(Ld & -> & K')|(-> & -> & K')]].
      * split.
        -- split; [cbn [ks]; rewrite set_nth_length; exact L|]. left. unfold gathers. cbv beta iota. rewrite kl_set. cbn [cnt]. split; [|split; [|exact Lc]].
           ++ intros x I. apply in_set in I. destruct I as [->|I]; [rewrite KB; eauto|auto].
           ++ rewrite (nA_set _ _ _ _ Ek) by (now rewrite KB). rewrite KB. cbn [isA]. lia.
        -- apply MV. intros y ->. rewrite KB. right. right. subst k. cbn [kd] in KB. rewrite Nat.eqb_refl in KB. injection KB as <-. auto.
      * split.
        -- split; [cbn [ks]; rewrite set_nth_length; exact L|]. left. unfold gathers. cbv beta iota. rewrite kl_set. cbn [cnt]. split; [|split; [|exact Lc]].
           ++ intros x I. apply in_set in I. destruct I as [->|I]; [rewrite K'; eauto|auto].
           ++ rewrite (nA_set _ _ _ _ Ek) by (now rewrite KB). rewrite K'. cbn [isA]. lia.
        -- apply MV. intros y ->. rewrite KB, K'. auto.
      * destruct (Nat.ltb_spec (S c) n) as [Lt|Ge].
        -- split.
           ++ split; [cbn [ks]; rewrite set_nth_length; exact L|]. left. unfold gathers. cbv beta iota. rewrite kl_set. cbn [cnt]. split; [|split; [|exact Lt]].
              ** intros x I. apply in_set in I. destruct I as [->|I]; auto.
              ** rewrite (nA_set _ _ _ _ Ek) by (now rewrite KB). rewrite K'. cbn [isA]. lia.
           ++ apply MV. intros y ->. rewrite KB, K'. auto.
        -- assert (S c = n) as Ec by lia. rewrite (proj2 (Nat.eqb_eq _ _) Ec) in K'. cbn [on] in K'. split.
           ++ split; [cbn [ks]; rewrite set_nth_length; exact L|]. right. exists i, 3. cbv beta iota. rewrite kl_set. cbn [cnt]. split.
              ** left. rewrite nth_error_set_nth by (rewrite map_length; exact Li). rewrite Nat.eqb_refl, K'. auto.
              ** intros j x N X. rewrite nth_error_set_nth in X by (rewrite map_length; exact Li). destruct (Nat.eqb_spec j i); [contradiction|].
                 apply (nA_all (set_nth i A (map (kd R) l))).
                 --- rewrite (nA_set _ _ _ _ Ek) by (now rewrite KB). cbn [isA]. rewrite set_nth_length, map_length. lia.
                 --- apply (nth_error_In _ j). rewrite nth_error_set_nth by (rewrite map_length; exact Li). destruct (Nat.eqb_spec j i); [contradiction|exact X].
           ++ apply MV. intros y ->. rewrite KB, K'. auto.
  - destruct (Nat.eq_dec i i0) as [<-|N].
    + destruct Hi0 as [(K0 & C)|(K0 & C)]; rewrite Ek in K0; injection K0 as K0.
      * destruct (tstep_F c R k go d0 K0) as (c' & k' & -> & K'). split.
        -- split; [cbn [ks]; rewrite set_nth_length; exact L|]. right. destruct K' as [(Ld & -> & K')|(-> & -> & K')].
           ++ exists i, (d0 - 1). cbv beta iota. rewrite kl_set. cbn [cnt]. split.
              ** left. rewrite nth_error_set_nth by (rewrite map_length; exact Li). rewrite Nat.eqb_refl, K'. auto.
              ** intros j x Nj X. rewrite nth_error_set_nth in X by (rewrite map_length; exact Li). destruct (Nat.eqb_spec j i); [contradiction|]. eapply Oth; eassumption.
           ++ exists i, 3. cbv beta iota. rewrite kl_set. cbn [cnt]. split.
              ** right. rewrite nth_error_set_nth by (rewrite map_length; exact Li). rewrite Nat.eqb_refl, K'. auto.
              ** intros j x Nj X. rewrite nth_error_set_nth in X by (rewrite map_length; exact Li). destruct (Nat.eqb_spec j i); [contradiction|]. eapply Oth; eassumption.
        -- apply MV. intros y ->. rewrite K0. destruct K' as [(Ld & -> & K')|(-> & -> & K')]; rewrite K'; auto.
      * destruct (tstep_Z c R k go d0 K0) as (p' & k' & -> & K'). destruct K' as [(Ld & -> & K')|(-> & -> & K')].
        -- split.
           ++ split; [cbn [ks]; rewrite set_nth_length; exact L|]. right. exists i, (d0 - 1). cbv beta iota. rewrite kl_set. cbn [cnt]. split.
              ** right. rewrite nth_error_set_nth by (rewrite map_length; exact Li). rewrite Nat.eqb_refl, K'. auto.
              ** intros j x Nj X. rewrite nth_error_set_nth in X by (rewrite map_length; exact Li). destruct (Nat.eqb_spec j i); [contradiction|]. eapply Oth; eassumption.
           ++ apply MV. intros y ->. rewrite K0, K'. auto.
        -- assert (AllB : forall x, In x (kl (BS c (S R) (set_nth i k' l))) -> exists d, 7 <= d /\ x = B d).
           { intros x I. rewrite kl_set in I. apply In_nth_error in I. destruct I as (j & I). rewrite nth_error_set_nth in I by (rewrite map_length; exact Li).
             destruct (Nat.eqb_spec j i) as [Eq|Nj].
             - injection I as <-. rewrite K'. exists 7. auto.
             - rewrite nth_error_map in I. destruct (nth_error l j) as [kj|] eqn:Ej; [|discriminate]. injection I as <-. apply ages.
               apply (Oth j); [exact Nj|]. now apply map_nth_error. }
           split.
           ++ split; [cbn [ks]; rewrite set_nth_length; exact L|]. left. unfold gathers. cbn [cnt]. split; [|split].
              ** intros x I. destruct (AllB x I) as (d & _ & ->). eauto.
              ** rewrite C. symmetry. unfold nA. rewrite filter_none; [reflexivity|]. intros x I. destruct (AllB x I) as (d & _ & ->). reflexivity.
              ** lia.
           ++ right. split; [reflexivity|]. rewrite KL. split; [exists 1; now rewrite Ek, K0|]. split; [exact Oth|exact AllB].
    + pose proof (Oth i _ N Ek) as KA. destruct (tstep_A c R k go KA) as (k' & -> & K'). split.
      * split; [cbn [ks]; rewrite set_nth_length; exact L|]. right. exists i0, d0. cbv beta iota. rewrite kl_set. cbn [cnt].
        assert (NE : forall j, nth_error (set_nth i (kd R k') (map (kd R) l)) j = nth_error (map (kd R) l) j).
        { intros j. rewrite nth_error_set_nth by (rewrite map_length; exact Li). destruct (Nat.eqb_spec j i) as [->|]; [|reflexivity]. now rewrite Ek, KA, K'. }
        rewrite NE. split; [exact Hi0|]. intros j x Nj X. rewrite NE in X. eapply Oth; eassumption.
      * apply MV. intros y ->. rewrite KA. exact K'.
Qed.

(** ** Every run *)
Lemma inv_Q t : inv (Q t).
Proof.
  induction t as [|t IH].
  - split; [apply repeat_length|]. left. unfold gathers, kl. cbn [Q cnt ph ks]. 
    assert (E : forall x, In x (map (kd 0) (repeat (KW 0) n)) -> x = B 6).
    { intros x I. apply in_map_iff in I. destruct I as (k & <- & I). apply repeat_spec in I. subst k. reflexivity. }
    split; [|split; [|exact Pos]].
    + intros x I. right. exists 6. now apply E.
    + unfold nA. rewrite filter_none; [reflexivity|]. intros x I. now rewrite (E x I).
  - cbn [Q]. destruct (nth_error (ks (Q t)) (fst (sched t))) as [k|] eqn:E; [now apply (inv_bstep _ _ _ _ IH E)|]. unfold bstep. rewrite E. exact IH.
Qed.
Definition isB (x : kind) : Prop := exists d, x = B d.
Definition released (s : bs) (R : nat) : Prop := ph s = R /\ forall x, In x (kl s) -> exists d, 6 <= d /\ x = B d.
Definition follows (x y : kind) : Prop :=
  match x with
  | B d => y = B (d - 1) /\ 1 < d \/ d = 1 /\ (y = A \/ y = F 3)
  | F d => y = F (d - 1) /\ 1 < d \/ d = 1 /\ y = Z 3
  | Z d => y = Z (d - 1) /\ 1 < d
  | _ => False
  end.
Lemma one t i x : nth_error (kl (Q t)) i = Some x ->
  (released (Q (S t)) (S (ph (Q t))) /\ ~ isB x) \/
  (ph (Q (S t)) = ph (Q t) /\ exists y, nth_error (kl (Q (S t))) i = Some y /\ (y = x \/ follows x y) /\
     (fst (sched t) = i -> x <> A -> x <> B 6 -> follows x y)).
Proof.
  intros X. cbn [Q]. destruct (nth_error (ks (Q t)) (fst (sched t))) as [k|] eqn:E.
  - destruct (inv_bstep _ _ (snd (sched t)) _ (inv_Q t) E) as [_ M]. destruct M as [(P & O & M)|(P & (z & E2) & O & AB)].
    + right. split; [exact P|]. destruct (Nat.eq_dec (fst (sched t)) i) as [Ei|Ni].
      * subst i. destruct (M x X) as (y & Y & K). exists y. split; [exact Y|].
        destruct x as [d| |d|d|]; cbn [follows] in *.
        -- destruct K as [K|[K|(-> & -> & _)]]; (split; [tauto|]); intros _ _ N6; [tauto|tauto|contradiction].
        -- split; [auto|]. intros _ NA. contradiction.
        -- split; [tauto|tauto].
        -- split; [tauto|tauto].
        -- contradiction.
      * exists x. rewrite (O i) by congruence. split; [exact X|]. split; [auto|]. intros Y. contradiction.
    + left. split; [split; [exact P|]|].
      * intros y I. destruct (AB y I) as (d & Ld & ->). exists d. split; [lia|reflexivity].
      * intros (d & ->). destruct (Nat.eq_dec i (fst (sched t))) as [->|N]; [congruence|]. specialize (O i (B d) N X). discriminate.
  - right. unfold bstep. rewrite E. split; [reflexivity|]. exists x. split; [exact X|]. split; [auto|]. intros Ei.
    exfalso. subst i. unfold kl in X. rewrite nth_error_map, E in X. discriminate.
Qed.
Lemma same_round t i j r l : is_at (Work r) (barrier_run iw w ew n sched t) i -> is_at l (barrier_run iw w ew n sched t) j ->
  round l = r \/ S (round l) = r /\ forall q, l <> Work q.
Proof.
  intros Hi Hj. apply at_Q in Hi. destruct Hi as (k & Ek & Pk). apply at_Q in Hj. destruct Hj as (k2 & Ek2 & Pk2).
  apply nth_kl in Ek. apply nth_kl in Ek2.
  assert (NJ : forall i x, nth_error (kl (Q t)) i = Some x -> x <> J).
  { intros i0 x E. destruct (inv_Q t) as [_ [(AB & _)|(i1 & d & H1 & O)]].
    - destruct (AB x (nth_error_In _ _ E)) as [->|(d & ->)]; discriminate.
    - destruct (Nat.eq_dec i0 i1) as [->|N]; [destruct H1 as [(H1 & _)|(H1 & _)]; rewrite H1 in E; injection E as <-; discriminate|rewrite (O i0 x N E); discriminate]. }
  apply NJ in Ek, Ek2. destruct k as [q|q|q|q m|q m|q m|q m v|q|q|q|q|q|q v|q m|q m|q m v]; try discriminate Pk. cbn [bt place] in Pk. injection Pk as ->.
  cbn [kd] in Ek. destruct (Nat.eqb_spec r (ph (Q t))) as [Er|]; [|now contradiction Ek]. rewrite <- Er in Ek2. subst l.
  destruct k2 as [q|q|q|q m|q m|q m|q m v|q|q|q|q|q|q v|q m|q m|q m v]; cbn [bt place round]; cbn [kd] in Ek2;
    (destruct (Nat.eqb_spec q r) as [Eq|Nq]; [left; exact Eq|]); cbn [on andb] in Ek2; try now contradiction Ek2.
  all: right; split; [|discriminate]; destruct (Nat.eqb_spec (S q) r) as [Eq|]; [exact Eq|]; cbn [on andb] in Ek2; exfalso; apply Ek2; try reflexivity; now destruct (m =? q).
Qed.
Hypothesis Fair : fair n sched.
Hypothesis Lv : forall r, leaves (Work r) n (barrier_run iw w ew n sched).
Lemma in_range t i x : nth_error (kl (Q t)) i = Some x -> i < n.
Proof. intros E. rewrite <- (Q_length t), <- kl_length. apply nth_error_Some. congruence. Qed.
Lemma holds t1 i x : forall d t, t + d = t1 -> nth_error (kl (Q t)) i = Some x ->
  (exists t', t <= t' /\ t' <= t1 /\ (released (Q t') (S (ph (Q t))) /\ ~ isB x \/ ph (Q t') = ph (Q t) /\ exists y, nth_error (kl (Q t')) i = Some y /\ follows x y)) \/
  (ph (Q t1) = ph (Q t) /\ nth_error (kl (Q t1)) i = Some x).
Proof.
  induction d as [|d IH]; intros t D X.
  - right. assert (t1 = t) as -> by lia. auto.
  - destruct (one t i x X) as [H|(P & y & Y & [->|Fo] & _)].
    + left. exists (S t). repeat split; try lia. now left.
    + rewrite <- P. destruct (IH (S t) ltac:(lia) Y) as [(t' & L1 & L2 & H)|H]; [left; exists t'; repeat split; try lia; exact H|now right].
    + left. exists (S t). repeat split; try lia. right. eauto.
Qed.
Lemma advances t i x : nth_error (kl (Q t)) i = Some x -> x <> A ->
  exists t', t <= t' /\ (released (Q t') (S (ph (Q t))) /\ ~ isB x \/ ph (Q t') = ph (Q t) /\ exists y, nth_error (kl (Q t')) i = Some y /\ follows x y).
Proof.
  intros X NA. pose proof (in_range t i x X) as Hi.
  assert (D6 : x = B 6 \/ x <> B 6) by (destruct x as [d| | | |]; try (right; discriminate); destruct (Nat.eq_dec d 6); [left|right]; congruence).
  assert (W : forall u, nth_error (kl (Q u)) i = Some (B 6) -> is_at (Work (ph (Q u))) (barrier_run iw w ew n sched u) i).
  { intros u E. apply at_Q. unfold kl in E. rewrite nth_error_map in E. destruct (nth_error (ks (Q u)) i) as [k|]; [|discriminate]. exists k. split; [reflexivity|].
    injection E as E. destruct k as [r|r|r|r m|r m|r m|r m v|r|r|r|r|r|r v|r m|r m|r m v]; cbn [kd] in E; ifs; try discriminate E; reflexivity. }
  destruct D6 as [->|N6].
  - destruct (Lv (ph (Q t)) i t Hi (W t X)) as (t1 & L1 & NW).
    destruct (holds t1 i (B 6) (t1 - t) t ltac:(lia) X) as [(t' & L2 & _ & H)|(P & H)]; [eauto|].
    exfalso. apply NW. rewrite <- P. now apply W.
  - destruct (Fair i Hi t) as (t1 & L1 & E1).
    destruct (holds t1 i x (t1 - t) t ltac:(lia) X) as [(t' & L2 & _ & H)|(P & H)]; [eauto|].
    exists (S t1). split; [lia|]. rewrite <- P. destruct (one t1 i x H) as [R|(P1 & y & Y & _ & Fo)]; [now left|]. right. split; [exact P1|]. exists y. split; [exact Y|]. now apply Fo.
Qed.
Lemma comes_to_work i : forall d t, 6 <= d -> nth_error (kl (Q t)) i = Some (B d) -> exists t', t <= t' /\ ph (Q t') = ph (Q t) /\ nth_error (kl (Q t')) i = Some (B 6).
Proof.
  induction d as [|d IH]; intros t Ld X; [lia|]. destruct (Nat.eq_dec (S d) 6) as [E|E]; [rewrite E in X; exists t; auto|].
  destruct (advances t i _ X) as (t1 & L1 & [(_ & NB)|(P & y & Y & Fo)]); [discriminate|exfalso; apply NB; eexists; reflexivity|].
  cbn [follows] in Fo. destruct Fo as [(-> & _)|(D & _)]; [|lia]. replace (S d - 1) with d in Y by lia.
  destruct (IH t1 ltac:(lia) Y) as (t' & L' & P' & H). exists t'. split; [lia|]. split; [congruence|exact H].
Qed.
Lemma arrives i : forall d t, nth_error (kl (Q t)) i = Some (B d) -> exists t' x, t <= t' /\ ph (Q t') = ph (Q t) /\ nth_error (kl (Q t')) i = Some x /\ ~ isB x.
Proof.
  induction d as [|d IH]; intros t X.
  all: destruct (advances t i _ X) as (t1 & L1 & [(_ & NB)|(P & y & Y & Fo)]); [discriminate|exfalso; apply NB; eexists; reflexivity|].
  - cbn [follows] in Fo. lia.
  - cbn [follows] in Fo. destruct Fo as [(-> & _)|(D & H)].
    + replace (S d - 1) with d in Y by lia. destruct (IH t1 Y) as (t' & x & L' & P' & H). exists t', x. split; [lia|]. split; [congruence|exact H].
    + exists t1, y. split; [exact L1|]. split; [exact P|]. split; [exact Y|]. intros (e & ->). destruct H; discriminate.
Qed.
Lemma stays i : forall d t x, nth_error (kl (Q t)) i = Some x -> ~ isB x ->
  (exists t', t <= t' /\ released (Q t') (S (ph (Q t)))) \/ (ph (Q (t + d)) = ph (Q t) /\ exists y, nth_error (kl (Q (t + d))) i = Some y /\ ~ isB y).
Proof.
  induction d as [|d IH]; intros t x X NB; [rewrite Nat.add_0_r; right; eauto|].
  destruct (one t i x X) as [(H & _)|(P & y & Y & K & _)]; [left; exists (S t); auto|].
  assert (NBy : ~ isB y).
  { destruct K as [->|K]; [exact NB|]. intros (e & ->). destruct x; cbn [follows] in K; try (destruct K as [(K & _)|(_ & K)]; discriminate); try contradiction; try (now destruct K).
    apply NB. eexists. reflexivity. }
  replace (t + S d) with (S t + d) by lia. rewrite <- P. destruct (IH (S t) y Y NBy) as [(t' & L & H)|H]; [left; exists t'; split; [lia|exact H]|now right].
Qed.
Lemma all_arrive t : forall m, m <= n -> exists t', t <= t' /\ (released (Q t') (S (ph (Q t))) \/
  ph (Q t') = ph (Q t) /\ forall i, i < m -> exists x, nth_error (kl (Q t')) i = Some x /\ ~ isB x).
Proof.
  induction m as [|m IH]; intros Lm; [exists t; split; [lia|]; right; split; [reflexivity|lia]|].
  destruct (IH ltac:(lia)) as (t1 & L1 & [H|(P & H)]); [exists t1; auto|].
  destruct (nth_error (kl (Q t1)) m) as [x|] eqn:X; [|exfalso; apply nth_error_None in X; rewrite kl_length, Q_length in X; lia].
  assert (E : exists t2, t1 <= t2 /\ ph (Q t2) = ph (Q t1) /\ exists y, nth_error (kl (Q t2)) m = Some y /\ ~ isB y).
  { assert (DB : isB x \/ ~ isB x) by (destruct x as [d| | | |]; [left; eexists; reflexivity|right; intros (e & E); discriminate E ..]).
    destruct DB as [(d & ->)|NB]; [destruct (arrives m d t1 X) as (t2 & y & L2 & P2 & Y); eauto|eauto 6]. }
  destruct E as (t2 & L2 & P2 & Y).
  assert (K : (exists t', t1 <= t' /\ released (Q t') (S (ph (Q t1)))) \/ forall i, i < m -> exists y, nth_error (kl (Q t2)) i = Some y /\ ~ isB y).
  { assert (G : forall m', m' <= m -> (exists t', t1 <= t' /\ released (Q t') (S (ph (Q t1)))) \/ forall i, i < m' -> exists y, nth_error (kl (Q t2)) i = Some y /\ ~ isB y); [|now apply G].
    induction m' as [|m' IHm]; intros Lm'; [right; lia|]. destruct (IHm ltac:(lia)) as [G|G]; [now left|].
    destruct (H m' ltac:(lia)) as (z & Ez & NBz). destruct (stays m' (t2 - t1) t1 z Ez NBz) as [S1|(_ & S1)]; [now left|].
    right. replace (t1 + (t2 - t1)) with t2 in S1 by lia. intros i Li. destruct (Nat.eq_dec i m') as [->|]; [exact S1|apply G; lia]. }
  destruct K as [(t' & L' & K)|K].
  - exists t'. split; [lia|]. left. now rewrite <- P.
  - exists t2. split; [lia|]. right. split; [congruence|]. intros i Li. destruct (Nat.eq_dec i m) as [->|]; [exact Y|apply K; lia].
Qed.
Lemma closing i : forall m t x, nth_error (kl (Q t)) i = Some x -> match x with F d => m = d + 4 | Z d => m = d | _ => False end ->
  exists t', t <= t' /\ released (Q t') (S (ph (Q t))).
Proof.
  induction m as [m IH] using lt_wf_ind. intros t x X M.
  destruct (advances t i x X) as (t1 & L1 & [(H & _)|(P & y & Y & Fo)]); [destruct x; discriminate || contradiction|eauto|].
  assert (E : exists m', m' < m /\ match y with F d => m' = d + 4 | Z d => m' = d | _ => False end).
  { destruct x as [d| |d|d|]; try contradiction; cbn [follows] in Fo.
    - destruct Fo as [(-> & Ld)|(-> & ->)]; eexists; (split; [|reflexivity]); lia.
    - destruct Fo as (-> & Ld). eexists; (split; [|reflexivity]); lia. }
  destruct E as (m' & Lm & My). destruct (IH m' Lm t1 y Y My) as (t' & L' & H). exists t'. split; [lia|]. now rewrite <- P.
Qed.
Lemma next_round t : exists t', t <= t' /\ released (Q t') (S (ph (Q t))).
Proof.
  destruct (all_arrive t n (le_n n)) as (t1 & L1 & [H|(P & H)]); [eauto|].
  assert (NB : forall x, In x (kl (Q t1)) -> ~ isB x).
  { intros x I. apply In_nth_error in I. destruct I as (i & E). destruct (H i (in_range t1 i x E)) as (y & Ey & K). congruence. }
  destruct (inv_Q t1) as [L [(AB & C & Lc)|(i & d & Hi & _)]].
  - exfalso. assert (nA (kl (Q t1)) = n); [|lia]. rewrite <- (Q_length t1), <- kl_length. unfold nA. f_equal.
    assert (G : forall l, (forall x, In x l -> x = A) -> filter isA l = l).
    { induction l as [|z l IH]; intros G; [reflexivity|]. cbn. rewrite (G z (or_introl eq_refl)). cbn. f_equal. apply IH. intros y I. apply G. now right. }
    apply G. intros x I. destruct (AB x I) as [E|E]; [exact E|]. exfalso. apply (NB x I). exact E.
  - assert (E : exists m x, nth_error (kl (Q t1)) i = Some x /\ match x with F d => m = d + 4 | Z d => m = d | _ => False end).
    { destruct Hi as [(E & _)|(E & _)]; [exists (d + 4), (F d)|exists d, (Z d)]; auto. }
    destruct E as (m & x & E & M). destruct (closing i m t1 x E M) as (t' & L' & R). exists t'. split; [lia|]. now rewrite <- P.
Qed.
Lemma rounds r : exists t, released (Q t) r.
Proof.
  induction r as [|r (t & H)].
  - exists 0. split; [reflexivity|]. intros x I. unfold kl in I. cbn [Q ph ks] in I. apply in_map_iff in I. destruct I as (k & <- & I). apply repeat_spec in I. subst k. exists 6. auto.
  - destruct (next_round t) as (t' & _ & K). rewrite (proj1 H) in K. eauto.
Qed.
Lemma works i r : i < n -> exists t, is_at (Work r) (barrier_run iw w ew n sched t) i.
Proof.
  intros Hi. destruct (rounds r) as (t & P & AB). destruct (nth_error (kl (Q t)) i) as [x|] eqn:X; [|exfalso; apply nth_error_None in X; rewrite kl_length, Q_length in X; lia].
  destruct (AB x (nth_error_In _ _ X)) as (d & Ld & ->). destruct (comes_to_work i d t Ld X) as (t' & _ & P' & E). exists t'. apply at_Q.
  unfold kl in E. rewrite nth_error_map in E. destruct (nth_error (ks (Q t')) i) as [k|]; [|discriminate]. exists k. split; [reflexivity|].
  injection E as E. destruct k as [q|q|q|q m|q m|q m|q m v|q|q|q|q|q|q v|q m|q m|q m v]; cbn [kd] in E; ifs; try discriminate E. cbn [bt place]. congruence.
Qed.
End Barrier.

(** ** As many threads as the counters have values, or more *)
Section Crowd.
Variables (iw w ew : N) (n : nat) (sched : nat -> nat * bool).
Hypothesis Hw : (w <= ew)%N.
Hypothesis Many : (2 ^ w <= N.of_nat n)%N.
Definition stuck (k : bk) : Prop :=
  match k with
  | KW 0 | KS0 0 | KS1 0 | KSR 0 0 | KA0 0 0 | KA1 0 0 | KAR 0 0 _ | KT0 0 0 | KT1 0 0 | KTR 0 0 0 => True
  | _ => False
  end.
Lemma tstep_stuck c k go : stuck k -> exists c' k', tstep w n c 0 k go = (c', 0, k') /\ stuck k'.
Proof.
  destruct k as [[|r]|[|r]|[|r]|[|r] [|m]|[|r] [|m]|[|r] [|m]|[|r] [|m] v|r|r|r|r|r|r v|[|r] [|m]|[|r] [|m]|[|r] [|m] [|v]]; cbn [stuck]; try contradiction; intros _; cbn [tstep];
    eexists _, _; (split; [reflexivity|]); try exact I.
  - destruct go; exact I.
  - replace (N.of_nat v mod 2 ^ w =? N.of_nat n)%N with false; [exact I|]. symmetry. apply N.eqb_neq. pose proof (N.mod_lt (N.of_nat v) (2 ^ w) ltac:(apply N.pow_nonzero; lia)). lia.
Qed.
Lemma all_stuck t : ph (Q w n sched t) = 0 /\ forall k, In k (ks (Q w n sched t)) -> stuck k.
Proof.
  induction t as [|t [P IH]]; cbn [Q].
  - split; [reflexivity|]. intros k I. cbn [ks] in I. apply repeat_spec in I. now subst k.
  - unfold bstep. destruct (nth_error (ks (Q w n sched t)) (fst (sched t))) as [k|] eqn:E; [|split; [exact P|exact IH]]. rewrite P.
    destruct (tstep_stuck (cnt (Q w n sched t)) k (snd (sched t)) (IH k (nth_error_In _ _ E))) as (c' & k' & -> & K). cbn [ph ks]. split; [reflexivity|].
    intros x I. apply in_set in I. destruct I as [E2|I]; [subst x; exact K|exact (IH x I)].
Qed.
Lemma nobody_passes l t i : is_at l (barrier_run iw w ew n sched t) i -> round l = 0.
Proof.
  intros H. apply at_Q in H; [|exact Hw]. destruct H as (k & E & <-). pose proof (proj2 (all_stuck t) k (nth_error_In _ _ E)) as K.
  destruct k as [[|r]|[|r]|[|r]|[|r] [|m]|[|r] [|m]|[|r] [|m]|[|r] [|m] v|r|r|r|r|r|r v|[|r] [|m]|[|r] [|m]|[|r] [|m] [|v]]; try contradiction K; reflexivity.
Qed.
End Crowd.
