From Verif Require Import Base BaseLemmas BitModel ConcModel AtomKindModel WaitModel WaitSpec.
Open Scope nat_scope.

Lemma wrap0 ew : wrap ew 0 = 0%N.
Proof. unfold wrap. apply N.mod_0_l. apply N.pow_nonzero. lia. Qed.
Lemma wrap1 ew : (0 < ew)%N -> wrap ew 1 = 1%N.
Proof. intros H. unfold wrap. apply N.mod_small. apply N.pow_gt_1; lia. Qed.

(** ** Leads-to, by the fairness of one thread *)
Lemma next_turn (sched : nat -> nat * bool) i t t0 : t <= t0 -> fst (sched t0) = i ->
  exists t1, t <= t1 /\ fst (sched t1) = i /\ forall u, t <= u < t1 -> fst (sched u) <> i.
Proof.
  intros L E. remember (t0 - t) as d eqn:D. revert t L D. induction d as [|d IH]; intros t L D.
  - exists t0. split; [lia|]. split; [exact E|]. intros; lia.
  - destruct (Nat.eq_dec (fst (sched t)) i) as [Ht|Ht].
    + exists t. split; [lia|]. split; [exact Ht|]. intros; lia.
    + destruct (IH (S t)) as (t1 & L1 & E1 & N1); [lia|lia|]. exists t1. split; [lia|]. split; [exact E1|].
      intros u Hu. destruct (Nat.eq_dec u t) as [->|]; [exact Ht|apply N1; lia].
Qed.

Lemma leads {S : Type} (st : nat -> S) (P G : S -> Prop) (mu : S -> nat) (sched : nat -> nat * bool) (h : nat) :
  (forall t, exists t', t <= t' /\ fst (sched t') = h) ->
  (forall t, P (st t) -> G (st t) \/ G (st (Datatypes.S t)) \/
     P (st (Datatypes.S t)) /\ mu (st (Datatypes.S t)) <= mu (st t) /\ (fst (sched t) = h -> mu (st (Datatypes.S t)) < mu (st t))) ->
  forall t, P (st t) -> exists t', t <= t' /\ G (st t').
Proof.
  intros F H. enough (A : forall m t, mu (st t) <= m -> P (st t) -> exists t', t <= t' /\ G (st t')) by (intros t; apply (A (mu (st t))); lia).
  induction m as [m IH] using lt_wf_ind. intros t Lm HP.
  destruct (F t) as (t0 & L0 & E0). destruct (next_turn sched h t t0 L0 E0) as (t1 & L1 & E1 & _). clear t0 L0 E0.
  remember (t1 - t) as d eqn:D. revert t L1 D Lm HP. induction d as [|d IHd]; intros t L1 D Lm HP.
  - assert (t1 = t) as -> by lia. destruct (H t HP) as [G0|[G1|(P1 & M1 & M2)]]; [exists t; auto|exists (Datatypes.S t); auto|].
    destruct (IH (mu (st (Datatypes.S t)))) with (t := Datatypes.S t) as (t' & L' & G'); [specialize (M2 E1); lia|lia|exact P1|].
    exists t'. split; [lia|exact G'].
  - destruct (H t HP) as [G0|[G1|(P1 & M1 & _)]]; [exists t; auto|exists (Datatypes.S t); auto|].
    destruct (IHd (Datatypes.S t)) as (t' & L' & G'); [lia|lia|lia|exact P1|]. exists t'. split; [lia|exact G'].
Qed.

(** ** Peterson's algorithm as a finite machine *)
Inductive phase := P0 | P1 | P2 (o : option bool).
Record abs := Abs { f0 : bool; f1 : bool; tn : bool; l0 : peterson; h0 : phase; l1 : peterson; h1 : phase }.
Definition conc_thread (me : nat) (l : peterson) (h : phase) : waiter peterson bool :=
  {| place := l; running := match h with
                            | P0 => None
                            | P1 => Some (match peterson_act me l with Call _ op => bcode op | Local => Bad end)
                            | P2 o => Some (Ret o)
                            end |}.
Definition conc (a : abs) : state peterson bool :=
  {| words := [to_elem (f0 a); to_elem (f1 a); to_elem (tn a)];
     threads := [conc_thread 0 (l0 a) (h0 a); conc_thread 1 (l1 a) (h1 a)] |}.
(** One step of a thread: flags, turn, place and phase. *)
Definition reads (x : nat) (a : abs) : bool := match x with 0 => f0 a | 1 => f1 a | _ => tn a end.
Definition writes (x : nat) (b : bool) (a : abs) : abs :=
  match x with
  | 0 => Abs b (f1 a) (tn a) (l0 a) (h0 a) (l1 a) (h1 a)
  | 1 => Abs (f0 a) b (tn a) (l0 a) (h0 a) (l1 a) (h1 a)
  | _ => Abs (f0 a) (f1 a) b (l0 a) (h0 a) (l1 a) (h1 a)
  end.
Definition lives (me : nat) (a : abs) : peterson * phase := match me with 0 => (l0 a, h0 a) | _ => (l1 a, h1 a) end.
Definition puts (me : nat) (l : peterson) (h : phase) (a : abs) : abs :=
  match me with
  | 0 => Abs (f0 a) (f1 a) (tn a) l h (l1 a) (h1 a)
  | _ => Abs (f0 a) (f1 a) (tn a) (l0 a) (h0 a) l h
  end.
Definition astep (a : abs) (me : nat) (go : bool) : abs :=
  if 1 <? me then a else
  let (l, h) := lives me a in
  match h, peterson_act me l with
  | P0, Local => if go then puts me (peterson_after me l None) P0 a else a
  | P0, Call _ _ => puts me l P1 a
  | P1, Local => a
  | P1, Call x op =>
      match op with
      | BLoad => puts me l (P2 (Some (reads x a))) a
      | BStore b => puts me l (P2 None) (writes x b a)
      | _ => a
      end
  | P2 o, _ => puts me (peterson_after me l o) P0 a
  end.

Lemma to_t_elem b : to_t (to_elem b) = b.
Proof. now destruct b. Qed.
Lemma wrap_elem ew b : (0 < ew)%N -> wrap ew (to_elem b) = to_elem b.
Proof. intros. destruct b; [now apply wrap1|apply wrap0]. Qed.

Lemma simulates ew a me go : (0 < ew)%N -> step bcode peterson_act peterson_after ew (conc a) me go = conc (astep a me go).
Proof.
  intros Hw. destruct a as [a0 a1 b c0 k0 c1 k1], me as [|[|me]].
  - destruct c0; cbn; destruct k0 as [| |o]; cbn; unfold exec_prim; cbn; rewrite ?wrap_elem, ?to_t_elem by assumption;
      try (destruct go; reflexivity); unfold exec_prim; rewrite ?wrap1, ?wrap0 by assumption; try reflexivity.
  - destruct c1; cbn; destruct k1 as [| |o]; cbn; unfold exec_prim; cbn; rewrite ?wrap_elem, ?to_t_elem by assumption;
      try (destruct go; reflexivity); unfold exec_prim; rewrite ?wrap1, ?wrap0 by assumption; try reflexivity.
  - unfold step. cbn. destruct me; reflexivity.
Qed.

Definition abs0 : abs := Abs false false false Idle P0 Idle P0.
Fixpoint A (sched : nat -> nat * bool) (t : nat) : abs :=
  match t with O => abs0 | S t => astep (A sched t) (fst (sched t)) (snd (sched t)) end.
Lemma peterson_run_A ew sched t : (0 < ew)%N -> peterson_run ew sched t = conc (A sched t).
Proof.
  intros Hw. unfold peterson_run. induction t as [|t IH]; [reflexivity|]. cbn [state_at A]. rewrite IH. now apply simulates.
Qed.

(** *** Checks of all the abstract states *)
Definition all_bool (p : bool -> bool) : bool := p true && p false.
Definition all_place (p : peterson -> bool) : bool :=
  p Idle && p Raise && p Yield && p LookFlag && p LookTurn && p Inside && p Lower.
Definition all_phase (p : phase -> bool) : bool :=
  p P0 && p P1 && p (P2 None) && p (P2 (Some true)) && p (P2 (Some false)).
Lemma all_bool_ok p : all_bool p = true -> forall b, p b = true.
Proof. unfold all_bool. rewrite !andb_true_iff. intros [? ?] []; assumption. Qed.
Lemma all_place_ok p : all_place p = true -> forall b, p b = true.
Proof. unfold all_place. rewrite !andb_true_iff. intros H []; tauto. Qed.
Lemma all_phase_ok p : all_phase p = true -> forall b, p b = true.
Proof. unfold all_phase. rewrite !andb_true_iff. intros H [| |[[]|]]; tauto. Qed.
Definition all_abs (p : abs -> bool) : bool :=
  all_bool (fun a => all_bool (fun b => all_bool (fun c => all_place (fun x => all_phase (fun y => all_place (fun z => all_phase (fun w =>
    p (Abs a b c x y z w)))))))).
Lemma all_abs_ok p : all_abs p = true -> forall a, p a = true.
Proof.
  intros H [a b c x y z w]. unfold all_abs in H.
  apply all_bool_ok with (b := a) in H. apply all_bool_ok with (b := b) in H. apply all_bool_ok with (b := c) in H.
  apply all_place_ok with (b := x) in H. apply all_phase_ok with (b := y) in H. apply all_place_ok with (b := z) in H.
  now apply all_phase_ok with (b := w) in H.
Qed.

(** *** The invariant *)
Definition flag_is (l : peterson) (h : phase) : bool :=
  match l, h with
  | Yield, _ | LookFlag, _ | LookTurn, _ | Inside, _ | Raise, P2 _ | Lower, P0 | Lower, P1 => true
  | _, _ => false
  end.
Definition phase_ok (l : peterson) (h : phase) : bool :=
  match l, h with
  | Idle, P0 | Inside, P0 => true
  | Idle, _ | Inside, _ => false
  | Raise, P2 (Some _) | Yield, P2 (Some _) | Lower, P2 (Some _) | LookFlag, P2 None | LookTurn, P2 None => false
  | _, _ => true
  end.
Definition wins (me : nat) (l : peterson) (h : phase) : bool :=
  match l, h with
  | LookFlag, P2 (Some false) => true
  | LookTurn, P2 (Some b) => Bool.eqb b (is_one me)
  | Inside, _ | Lower, P0 | Lower, P1 => true
  | _, _ => false
  end.
Definition past (l : peterson) (h : phase) : bool :=
  match l, h with
  | Yield, P2 _ | LookFlag, _ | LookTurn, _ | Inside, _ | Lower, P0 | Lower, P1 => true
  | _, _ => false
  end.
Definition imp (a b : bool) : bool := negb a || b.
Definition inv (a : abs) : bool :=
  Bool.eqb (f0 a) (flag_is (l0 a) (h0 a)) && Bool.eqb (f1 a) (flag_is (l1 a) (h1 a))
  && phase_ok (l0 a) (h0 a) && phase_ok (l1 a) (h1 a)
  && imp (wins 0 (l0 a) (h0 a) && past (l1 a) (h1 a)) (negb (tn a))
  && imp (wins 1 (l1 a) (h1 a) && past (l0 a) (h0 a)) (tn a).

Lemma inv_step_check : all_abs (fun a => imp (inv a)
  (inv (astep a 0 true) && inv (astep a 0 false) && inv (astep a 1 true) && inv (astep a 1 false))) = true.
Proof. vm_compute. reflexivity. Qed.
Lemma inv_step a me go : inv a = true -> inv (astep a me go) = true.
Proof.
  intros H. pose proof (all_abs_ok _ inv_step_check a) as C. unfold imp in C. rewrite H in C. cbn [negb orb] in C.
  rewrite !andb_true_iff in C. destruct me as [|[|me]]; [destruct go; tauto..|exact H].
Qed.
Lemma inv_A sched t : inv (A sched t) = true.
Proof. induction t as [|t IH]; [reflexivity|]. cbn [A]. now apply inv_step. Qed.

(** *** Stages *)
Definition stage_check (P G : abs -> bool) (mu : abs -> nat) (h : nat) : bool :=
  all_abs (fun a => imp (inv a && P a)
    (forallb (fun mg : nat * bool => let a' := astep a (fst mg) (snd mg) in
       G a' || P a' && (mu a' <=? mu a) && imp (fst mg =? h) (mu a' <? mu a))
     [(0, true); (0, false); (1, true); (1, false)])).
Lemma stage sched (P G : abs -> bool) mu h : h < 2 -> fair 2 sched -> stage_check P G mu h = true ->
  forall t, P (A sched t) = true -> exists t', t <= t' /\ G (A sched t') = true.
Proof.
  intros Hh F C. apply (leads (A sched) (fun a => P a = true) (fun a => G a = true) mu sched h (F h Hh)).
  intros t HP. pose proof (all_abs_ok _ C (A sched t)) as D. cbv beta in D. unfold imp at 1 in D.
  rewrite inv_A, HP in D. cbn [negb andb orb] in D. rewrite forallb_forall in D.
  cbn [A]. destruct (sched t) as [me go]. cbn [fst snd].
  destruct (le_lt_dec 2 me) as [L|L].
  - destruct me as [|[|me]]; [lia..|]. right; right. cbn. split; [exact HP|]. split; [lia|lia].
  - assert (I : In (me, go) [(0, true); (0, false); (1, true); (1, false)]).
    { destruct me as [|[|me]], go; cbn; auto; lia. }
    specialize (D _ I). cbn [fst snd] in D. unfold imp in D. apply orb_true_iff in D. destruct D as [D|D]; [auto|].
    rewrite !andb_true_iff in D. destruct D as [[D1 D2] D3]. right; right. split; [exact D1|].
    apply Nat.leb_le in D2. split; [exact D2|]. intros ->. rewrite Nat.eqb_refl in D3. cbn [negb orb] in D3. now apply Nat.ltb_lt.
Qed.

Definition place_of (i : nat) (a : abs) : peterson := fst (lives i a).
Definition phase_of (i : nat) (a : abs) : phase := snd (lives i a).
Definition inside (i : nat) (a : abs) : bool := match place_of i a with Inside => true | _ => false end.
Definition looks (i : nat) (a : abs) : bool := match place_of i a with LookFlag | LookTurn => true | _ => false end.
Definition turn_of (i : nat) (a : abs) : bool := Bool.eqb (tn a) (is_one i).
(** The other thread, seen from a thread that looks, when the turn is the other's. *)
Definition at5 (j : nat) (a : abs) : bool := match lives j a with (Yield, P2 _) | (LookFlag, _) | (LookTurn, _) => true | _ => false end.
Definition at3 (j : nat) (a : abs) : bool := match lives j a with (Lower, P0) | (Lower, P1) => true | _ => false end.
Definition at2 (j : nat) (a : abs) : bool := match lives j a with (Lower, P2 _) | (Idle, _) | (Raise, P0) | (Raise, P1) => true | _ => false end.
Definition at1 (j : nat) (a : abs) : bool := match lives j a with (Raise, P2 _) | (Yield, P0) | (Yield, P1) => true | _ => false end.
(** The own steps that are left. *)
Definition muA (i : nat) (a : abs) : nat :=
  match lives i a with
  | (Raise, P0) => 6 | (Raise, P1) => 5 | (Raise, P2 _) => 4 | (Yield, P0) => 3 | (Yield, P1) => 2 | (Yield, P2 _) => 1
  | _ => 0
  end.
(** ... until it enters, when the turn is its own. *)
Definition mu0 (i : nat) (a : abs) : nat :=
  match lives i a with
  | (Yield, _) => 8
  | (LookFlag, P0) => 6 | (LookFlag, P1) => 5 | (LookFlag, P2 (Some true)) => 4 | (LookFlag, P2 _) => 1
  | (LookTurn, P0) => 3 | (LookTurn, P1) => 2 | (LookTurn, P2 (Some b)) => if Bool.eqb b (is_one i) then 1 else 7
  | _ => 0
  end.
(** ... until it reads that the other's flag is down. *)
Definition mu2 (i : nat) (a : abs) : nat :=
  match lives i a with
  | (LookFlag, P2 (Some true)) => 7 | (LookTurn, P0) => 6 | (LookTurn, P1) => 5 | (LookTurn, P2 (Some b)) => if Bool.eqb b (is_one i) then 1 else 4
  | (LookFlag, P0) => 3 | (LookFlag, P1) => 2 | (LookFlag, P2 _) => 1
  | _ => 0
  end.
Definition mu3 (j : nat) (a : abs) : nat := match lives j a with (Lower, P0) => 2 | (Lower, P1) => 1 | _ => 0 end.
Definition mu1 (j : nat) (a : abs) : nat := match lives j a with (Raise, _) => 3 | (Yield, P0) => 2 | (Yield, P1) => 1 | _ => 0 end.

Section One.
Variables i j : nat.
Hypothesis ij : i = 0 /\ j = 1 \/ i = 1 /\ j = 0.
Variable sched : nat -> nat * bool.
Hypothesis F : fair 2 sched.
Notation leads_to P G := (forall t, P (A sched t) = true -> exists t', t <= t' /\ G (A sched t') = true).
Definition behind (at_ : nat -> abs -> bool) (a : abs) : bool := looks i a && turn_of j a && at_ j a.

Lemma st0 : leads_to (fun a => looks i a && turn_of i a) (inside i).
Proof. apply (stage sched _ _ (mu0 i) i); [lia|exact F|]. destruct ij as [[-> ->]|[-> ->]]; vm_compute; reflexivity. Qed.
Lemma st1 : leads_to (behind at1) (fun a => inside i a || looks i a && turn_of i a).
Proof. apply (stage sched _ _ (mu1 j) j); [lia|exact F|]. unfold behind. destruct ij as [[-> ->]|[-> ->]]; vm_compute; reflexivity. Qed.
Lemma st2 : leads_to (behind at2) (fun a => inside i a || behind at1 a).
Proof. apply (stage sched _ _ (mu2 i) i); [lia|exact F|]. unfold behind. destruct ij as [[-> ->]|[-> ->]]; vm_compute; reflexivity. Qed.
Lemma st3 : leads_to (behind at3) (fun a => inside i a || behind at2 a).
Proof. apply (stage sched _ _ (mu3 j) j); [lia|exact F|]. unfold behind. destruct ij as [[-> ->]|[-> ->]]; vm_compute; reflexivity. Qed.
Lemma st5 : leads_to (behind at5) (fun a => inside i a || behind inside a).
Proof. apply (stage sched _ _ (mu0 j) j); [lia|exact F|]. unfold behind. destruct ij as [[-> ->]|[-> ->]]; vm_compute; reflexivity. Qed.
Lemma stA : leads_to (fun a => match place_of i a with Raise | Yield => true | _ => false end) (looks i).
Proof. apply (stage sched _ _ (muA i) i); [lia|exact F|]. destruct ij as [[-> ->]|[-> ->]]; vm_compute; reflexivity. Qed.

Hypothesis leave : forall t, exists t', t <= t' /\ inside j (A sched t') = false.
Lemma st4 : leads_to (behind inside) (fun a => inside i a || behind at3 a).
Proof.
  intros t H. destruct (leave t) as (t1 & L & N). remember (t1 - t) as d eqn:D. revert t L D H.
  induction d as [|d IH]; intros t L D H.
  - assert (t1 = t) as -> by lia. unfold behind in H. rewrite N, !andb_false_r in H. discriminate.
  - assert (C : forall me go, behind inside (astep (A sched t) me go) = true \/ behind at3 (astep (A sched t) me go) = true \/
                              inside i (astep (A sched t) me go) = true).
    { assert (K : all_abs (fun a => imp (inv a && behind inside a)
        (forallb (fun mg : nat * bool => let a' := astep a (fst mg) (snd mg) in behind inside a' || behind at3 a' || inside i a')
           [(0, true); (0, false); (1, true); (1, false)])) = true).
      { unfold behind. clear - ij. destruct ij as [[-> ->]|[-> ->]]; vm_compute; reflexivity. }
      pose proof (all_abs_ok _ K (A sched t)) as E. cbv beta in E. unfold imp in E. rewrite inv_A, H in E. cbn [negb andb orb forallb fst snd] in E.
      rewrite !andb_true_iff, !orb_true_iff in E. intros me go.
      destruct me as [|[|me]]; [destruct go; tauto..|left; exact H]. }
    destruct (C (fst (sched t)) (snd (sched t))) as [C1|[C1|C1]].
    + destruct (IH (S t)) as (t' & L' & G'); [lia|lia|exact C1|]. exists t'. split; [lia|exact G'].
    + exists (S t). split; [lia|]. cbn [A]. now rewrite C1, orb_true_r.
    + exists (S t). split; [lia|]. cbn [A]. now rewrite C1.
Qed.

Lemma chain (P G H : abs -> bool) : leads_to P (fun a => G a || H a) -> leads_to H G -> leads_to P G.
Proof.
  intros X Y t HP. destruct (X t HP) as (t1 & L1 & E). apply orb_true_iff in E. destruct E as [E|E]; [eauto|].
  destruct (Y t1 E) as (t2 & L2 & E2). exists t2. split; [lia|exact E2].
Qed.
Lemma st_look : leads_to (looks i) (inside i).
Proof.
  assert (S1 : leads_to (behind at1) (inside i)) by (apply (chain _ _ _ st1 st0)).
  assert (S2 : leads_to (behind at2) (inside i)) by (apply (chain _ _ _ st2 S1)).
  assert (S3 : leads_to (behind at3) (inside i)) by (apply (chain _ _ _ st3 S2)).
  assert (S4 : leads_to (behind inside) (inside i)) by (apply (chain _ _ _ st4 S3)).
  assert (S5 : leads_to (behind at5) (inside i)) by (apply (chain _ _ _ st5 S4)).
  intros t H. destruct (turn_of i (A sched t)) eqn:T; [apply st0; now rewrite H, T|].
  assert (C : behind at1 (A sched t) = true \/ behind at2 (A sched t) = true \/ behind at3 (A sched t) = true \/
              behind inside (A sched t) = true \/ behind at5 (A sched t) = true).
  { unfold behind. rewrite H. assert (turn_of j (A sched t) = true) as ->.
    { unfold turn_of in *. destruct ij as [[-> ->]|[-> ->]]; cbn in *; destruct (tn (A sched t)); cbn in *; congruence. }
    cbn [andb]. unfold at1, at2, at3, inside, at5, place_of. destruct (lives j (A sched t)) as [[] [| |]]; cbn; auto 6. }
  destruct C as [C|[C|[C|[C|C]]]]; [apply S1|apply S2|apply S3|apply S4|apply S5]; exact C.
Qed.
Lemma st_waits t : peterson_waits (place_of i (A sched t)) -> exists t', t <= t' /\ inside i (A sched t') = true.
Proof.
  intros W. assert (C : looks i (A sched t) = true \/ match place_of i (A sched t) with Raise | Yield => true | _ => false end = true).
  { unfold looks. destruct W as [->|[->|[->| ->]]]; auto. }
  destruct C as [C|C]; [now apply st_look|]. destruct (stA t C) as (t1 & L1 & C1). destruct (st_look t1 C1) as (t2 & L2 & C2).
  exists t2. split; [lia|exact C2].
Qed.
End One.

Lemma is_at_conc l i a : is_at l (conc a) i <-> i < 2 /\ place_of i a = l.
Proof.
  unfold is_at, conc. cbn. destruct i as [|[|i]]; cbn.
  - split; [intros (t & [= <-] & E); split; [lia|exact E]|intros [_ E]; eauto].
  - split; [intros (t & [= <-] & E); split; [lia|exact E]|intros [_ E]; eauto].
  - split; [intros (t & E & _); destruct i; discriminate|lia].
Qed.
Lemma inside_place i a : inside i a = true <-> place_of i a = Inside.
Proof. unfold inside. destruct (place_of i a); split; congruence. Qed.

Lemma peterson_enters ew sched : (0 < ew)%N -> fair 2 sched -> leaves Inside 2 (peterson_run ew sched) ->
  forall i l t, peterson_waits l -> is_at l (peterson_run ew sched t) i ->
  exists t', t <= t' /\ is_at Inside (peterson_run ew sched t') i.
Proof.
  intros Hw F Lv i l t W At. rewrite peterson_run_A in At by assumption. apply is_at_conc in At. destruct At as [Li At].
  assert (LvA : forall j, j < 2 -> forall t, exists t', t <= t' /\ inside j (A sched t') = false).
  { intros j Hj u. destruct (inside j (A sched u)) eqn:E; [|eauto]. destruct (Lv j u Hj) as (t' & L' & N').
    - rewrite peterson_run_A by assumption. apply is_at_conc. split; [exact Hj|now apply inside_place].
    - exists t'. split; [exact L'|]. rewrite peterson_run_A in N' by assumption. destruct (inside j (A sched t')) eqn:E'; [|reflexivity].
      destruct N'. apply is_at_conc. split; [exact Hj|now apply inside_place]. }
  assert (X : exists t', t <= t' /\ inside i (A sched t') = true).
  { destruct i as [|[|i]]; [|..|lia].
    - apply (st_waits 0 1); [left; auto|exact F|apply LvA; lia|now rewrite At].
    - apply (st_waits 1 0); [right; auto|exact F|apply LvA; lia|now rewrite At]. }
  destruct X as (t' & L' & E). exists t'. split; [exact L'|]. rewrite peterson_run_A by assumption.
  apply is_at_conc. split; [exact Li|now apply inside_place].
Qed.
Lemma peterson_excludes ew sched t : (0 < ew)%N ->
  ~ (is_at Inside (peterson_run ew sched t) 0 /\ is_at Inside (peterson_run ew sched t) 1).
Proof.
  intros Hw [X Y]. rewrite peterson_run_A in X, Y by assumption. apply is_at_conc in X. apply is_at_conc in Y.
  destruct X as [_ X], Y as [_ Y]. pose proof (inv_A sched t) as I. destruct (A sched t) as [a0 a1 b c0 k0 c1 k1].
  unfold place_of in X, Y. cbn in X, Y. subst c0 c1. unfold inv in I. cbn in I. rewrite !andb_true_iff in I. destruct b; cbn in I; intuition discriminate.
Qed.
