From Verif Require Import Base BaseLemmas BitModel ConcModel AtomicModel WaitModel WaitSpec WaitProofs WaitProofs2 TicketProofs SeqlockSpec.
Open Scope nat_scope.

(** ** The threads with a counter that does not roll over *)
Inductive wk := WP (v : nat) | WB0 (v : nat) | WB1 (v : nat) | WBR (v x : nat) | WF0 (v j : nat) | WF1 (v j : nat) | WFR (v j : nat)
  | WE0 (v : nat) | WE1 (v : nat) | WER (v x : nat).
Inductive rk := RRest | RS0 | RS1 | RSR (s : nat) | RF0 (s : nat) (g : list N) | RF1 (s : nat) (g : list N) | RFR (s : nat) (g : list N) (x : N)
  | RC0 (s : nat) (g : list N) | RC1 (s : nat) (g : list N) | RCR (s : nat) (g : list N) (c : nat) | RGot (s c : nat) (g : list N).
Record ls := LS { sq : nat; dat : list N; wr : wk; rd : list rk }.

Lemma firstn_one_more (V : list N) j : j < length V -> firstn (j + 1) V = firstn j V ++ [nth j V 0%N].
Proof. revert j. induction V as [|x V IH]; intros [|j] H; cbn in *; try lia; [reflexivity|]. now rewrite IH by lia. Qed.

Section Seqlock.
Variables (iw w vw ew : N) (k n : nat) (item : nat -> nat -> N).
Hypothesis Hw : (w <= ew)%N.
Hypothesis Hv : (vw <= ew)%N.
Hypothesis Hi : forall v j, (item v j < 2 ^ vw)%N.
Hypothesis Hk : 0 < k.
Notation tmod x := (N.of_nat x mod 2 ^ w)%N.
Notation emod x := (N.of_nat x mod 2 ^ ew)%N.
Notation code := (seq_code iw w vw ew).

Definition wt (x : wk) : waiter post N :=
  match x with
  | WP v => {| place := Pause v; running := None |}
  | WB0 v => {| place := Begin v; running := None |}
  | WB1 v => {| place := Begin v; running := Some (code (Counter APreInc)) |}
  | WBR v x => {| place := Begin v; running := Some (Ret (Some (tmod x))) |}
  | WF0 v j => {| place := Fill v j; running := None |}
  | WF1 v j => {| place := Fill v j; running := Some (code (Word (AAssign (item v j)))) |}
  | WFR v j => {| place := Fill v j; running := Some (Ret (Some (item v j))) |}
  | WE0 v => {| place := End_ v; running := None |}
  | WE1 v => {| place := End_ v; running := Some (code (Counter APreInc)) |}
  | WER v x => {| place := End_ v; running := Some (Ret (Some (tmod x))) |}
  end.
Definition rt (x : rk) : waiter post N :=
  match x with
  | RRest => {| place := Rest; running := None |}
  | RS0 => {| place := See; running := None |}
  | RS1 => {| place := See; running := Some (code (Counter ALoad)) |}
  | RSR s => {| place := See; running := Some (Ret (Some (tmod s))) |}
  | RF0 s g => {| place := Fetch (tmod s) g; running := None |}
  | RF1 s g => {| place := Fetch (tmod s) g; running := Some (code (Word ALoad)) |}
  | RFR s g x => {| place := Fetch (tmod s) g; running := Some (Ret (Some x)) |}
  | RC0 s g => {| place := Check (tmod s) g; running := None |}
  | RC1 s g => {| place := Check (tmod s) g; running := Some (code (Counter ALoad)) |}
  | RCR s g c => {| place := Check (tmod s) g; running := Some (Ret (Some (tmod c))) |}
  | RGot s c g => {| place := Got g; running := None |}
  end.
Definition lconc (s : ls) : state post N :=
  {| words := emod (sq s) :: dat s; threads := wt (wr s) :: map rt (rd s) |}.
Definition wstep (q : nat) (d : list N) (x : wk) (go : bool) : nat * list N * wk :=
  match x with
  | WP v => (q, d, if go then WB0 v else WP v)
  | WB0 v => (q, d, WB1 v)
  | WB1 v => (q + 1, d, WBR v (q + 1))
  | WBR v _ => (q, d, WF0 v 0)
  | WF0 v j => (q, d, WF1 v j)
  | WF1 v j => match nth_error d j with Some _ => (q, set_nth j (item v j) d, WFR v j) | None => (q, d, x) end
  | WFR v j => (q, d, if S j <? k then WF0 v (S j) else WE0 v)
  | WE0 v => (q, d, WE1 v)
  | WE1 v => (q + 1, d, WER v (q + 1))
  | WER v _ => (q, d, WP (S v))
  end.
Definition rstep (q : nat) (d : list N) (x : rk) (go : bool) : rk :=
  match x with
  | RRest => if go then RS0 else RRest
  | RS0 => RS1
  | RS1 => RSR q
  | RSR s => if N.odd (tmod s) then RS0 else RF0 s []
  | RF0 s g => RF1 s g
  | RF1 s g => match nth_error d (length g) with Some m => RFR s g (m mod 2 ^ vw)%N | None => x end
  | RFR s g y => if S (length g) <? k then RF0 s (g ++ [y]) else RC0 s (g ++ [y])
  | RC0 s g => RC1 s g
  | RC1 s g => RCR s g q
  | RCR s g c => if (tmod c =? tmod s)%N then RGot s c g else RS0
  | RGot s c g => if go then RRest else x
  end.
Definition lstep (s : ls) (i : nat) (go : bool) : ls :=
  match i with
  | O => let '(q, d, x) := wstep (sq s) (dat s) (wr s) go in LS q d x (rd s)
  | S i => match nth_error (rd s) i with
           | None => s
           | Some x => LS (sq s) (dat s) (wr s) (set_nth i (rstep (sq s) (dat s) x go) (rd s))
           end
  end.
Lemma item_fits v j : wrap ew (item v j) = item v j.
Proof. unfold wrap. apply N.mod_small. specialize (Hi v j). pose proof (N.pow_le_mono_r 2 vw ew ltac:(lia) Hv). lia. Qed.
Ltac calc := cbn -[N.modulo N.pow N.add N.sub N.eqb N.ltb wrap AtomicModel.plus Nat.modulo N.of_nat Nat.add N.odd Nat.ltb].
Lemma simulates_seqlock s i go : step code (seq_act item) (seq_after k) ew (lconc s) i go = lconc (lstep s i go).
Proof.
  destruct s as [q d x l]. destruct i as [|i].
  - unfold step, lconc, lstep. cbn [sq dat wr rd threads words nth_error].
    destruct x as [v|v|v|v x|v j|v j|v j|v|v|v x]; calc; try reflexivity.
    + destruct go; reflexivity.
    + rewrite (emod_succ w ew Hw), (plus_one iw w ew Hw). calc. unfold AtomicModel.to_t, wrap. rewrite (tmod_emod w ew Hw).
      replace (N.of_nat q + 1)%N with (N.of_nat (q + 1)) by lia. reflexivity.
    + change (1 + j) with (S j). cbn [nth_error set_nth]. destruct (nth_error d j) as [m|]; calc; [|reflexivity]. unfold AtomicModel.to_elem. cbn [andb]. rewrite item_fits. reflexivity.
    + destruct (S j <? k); reflexivity.
    + rewrite (emod_succ w ew Hw), (plus_one iw w ew Hw). calc. unfold AtomicModel.to_t, wrap. rewrite (tmod_emod w ew Hw).
      replace (N.of_nat q + 1)%N with (N.of_nat (q + 1)) by lia. reflexivity.
  - unfold step, lconc, lstep. cbn [sq dat wr rd threads words nth_error]. rewrite nth_error_map. destruct (nth_error l i) as [z|] eqn:E; [|reflexivity]. cbn [option_map].
    destruct z as [| | |s|s g|s g|s g y|s g|s g|s g c|s c g]; calc; try (rewrite ?map_set; reflexivity).
    + destruct go; [now rewrite map_set|]. now rewrite set_same.
    + unfold AtomicModel.to_t, wrap. rewrite (tmod_emod w ew Hw), map_set. reflexivity.
    + destruct (N.odd (tmod s)); now rewrite map_set.
    + change (1 + length g) with (S (length g)). cbn [nth_error set_nth]. destruct (nth_error d (length g)) as [m|] eqn:Em; [|now rewrite set_same]. unfold AtomicModel.to_t, wrap. rewrite map_set. cbn [rt]. rewrite (set_same d _ _ Em). reflexivity.
    + destruct (S (length g) <? k); now rewrite map_set.
    + unfold AtomicModel.to_t, wrap. rewrite (tmod_emod w ew Hw), map_set. reflexivity.
    + destruct (tmod c =? tmod s)%N; now rewrite map_set.
    + destruct go; [now rewrite map_set|]. now rewrite set_same.
Qed.

Variable sched : nat -> nat * bool.
Fixpoint L (t : nat) : ls :=
  match t with O => LS 0 (repeat 0%N k) (WP 0) (repeat RRest n) | S t => lstep (L t) (fst (sched t)) (snd (sched t)) end.
Lemma run_L t : seq_run k item iw w vw ew n sched t = lconc (L t).
Proof.
  unfold seq_run. induction t as [|t IH]; cbn [state_at L].
  - unfold lconc, atomic_init. cbn [sq dat wr rd wt]. rewrite N.mod_0_l by (apply N.pow_nonzero; lia). f_equal. f_equal.
    clear. induction n as [|m IH]; [reflexivity|]. cbn. now rewrite IH.
  - rewrite IH. apply simulates_seqlock.
Qed.
Lemma at_writer l t : is_at l (seq_run k item iw w vw ew n sched t) 0 <-> place (wt (wr (L t))) = l.
Proof.
  rewrite run_L. unfold is_at, lconc. cbn [threads nth_error]. split; [intros (x & E & P); injection E as <-; exact P|eauto].
Qed.
Lemma at_reader l t i : is_at l (seq_run k item iw w vw ew n sched t) (S i) <-> exists x, nth_error (rd (L t)) i = Some x /\ place (rt x) = l.
Proof.
  rewrite run_L. unfold is_at, lconc. cbn [threads nth_error]. rewrite nth_error_map. split.
  - intros (x & E & P). destruct (nth_error (rd (L t)) i) as [y|]; [|discriminate]. injection E as <-. eauto.
  - intros (x & -> & P). cbn [option_map]. eauto.
Qed.

(** ** What holds in every run *)
Definition cell (a i : nat) : N := match a with O => 0%N | S v => item v i end.
Definition mix (v j : nat) : list N := map (fun i => if i <? j then item v i else cell v i) (seq 0 k).
Lemma version_cells a : version k item a = map (cell a) (seq 0 k).
Proof.
  destruct a as [|v]; [|reflexivity]. unfold version. generalize 0 at 2. clear. induction k as [|m IH]; intros s; [reflexivity|]. cbn. now rewrite <- IH.
Qed.
Lemma mix_0 v : mix v 0 = version k item v.
Proof. rewrite version_cells. unfold mix. apply map_ext. intros i. reflexivity. Qed.
Lemma mix_k v : mix v k = version k item (S v).
Proof.
  rewrite version_cells. unfold mix. apply map_ext_in. intros i I. apply in_seq in I. destruct (Nat.ltb_spec i k); [reflexivity|lia].
Qed.
Lemma mix_length v j : length (mix v j) = k.
Proof. unfold mix. now rewrite map_length, seq_length. Qed.
Lemma nth_mix v j i : i < k -> nth_error (mix v j) i = Some (if i <? j then item v i else cell v i).
Proof.
  intros H. unfold mix. rewrite nth_error_map. replace (nth_error (seq 0 k) i) with (Some i); [reflexivity|].
  symmetry. rewrite (nth_error_nth' _ 0) by (now rewrite seq_length). now rewrite seq_nth.
Qed.
Lemma list_ext {X} (l m : list X) : length l = length m -> (forall i, i < length l -> nth_error l i = nth_error m i) -> l = m.
Proof.
  revert m. induction l as [|x l IH]; intros [|y m]; try discriminate; [reflexivity|]. cbn. intros E H. f_equal.
  - specialize (H 0 ltac:(lia)). now injection H.
  - apply IH; [lia|]. intros i Hi'. apply (H (S i)). lia.
Qed.
Lemma mix_set v j : j < k -> set_nth j (item v j) (mix v j) = mix v (S j).
Proof.
  intros H. apply list_ext; [now rewrite set_nth_length, !mix_length|]. rewrite set_nth_length, mix_length. intros i Li.
  rewrite nth_error_set_nth by (now rewrite mix_length). rewrite !nth_mix by assumption.
  destruct (Nat.eqb_spec i j) as [->|N]; [destruct (Nat.ltb_spec j (S j)); [reflexivity|lia]|].
  destruct (Nat.ltb_spec i j), (Nat.ltb_spec i (S j)); try reflexivity; lia.
Qed.
(** What the counter and the words are, from where the writer is. *)
Definition wok (q : nat) (d : list N) (x : wk) : Prop :=
  match x with
  | WP v | WB0 v | WB1 v => q = 2 * v /\ d = mix v 0
  | WBR v _ => q = 2 * v + 1 /\ d = mix v 0
  | WF0 v j | WF1 v j => q = 2 * v + 1 /\ j < k /\ d = mix v j
  | WFR v j => q = 2 * v + 1 /\ j < k /\ d = mix v (S j)
  | WE0 v | WE1 v => q = 2 * v + 1 /\ d = mix v k
  | WER v _ => q = 2 * S v /\ d = mix v k
  end.
Lemma wok_step q d x go : wok q d x -> let '(q', d', x') := wstep q d x go in wok q' d' x' /\ q <= q'.
Proof.
  destruct x as [v|v|v|v x|v j|v j|v j|v|v|v x]; cbn [wok wstep].
  - destruct go; cbn [wok]; auto.
  - cbn [wok]; auto.
  - cbn [wok]. intros (-> & ->). repeat split; lia.
  - cbn [wok]. intros (-> & ->). auto.
  - cbn [wok]; auto.
  - intros (-> & H & ->). rewrite nth_mix by assumption. cbn [wok]. rewrite mix_set by assumption. auto.
  - intros (-> & H & ->). destruct (Nat.ltb_spec (S j) k); cbn [wok]; auto. replace (S j) with k by lia. auto.
  - cbn [wok]; auto.
  - cbn [wok]. intros (-> & ->). repeat split; lia.
  - cbn [wok]. intros (-> & ->). rewrite mix_k, mix_0. auto.
Qed.
Lemma wok_even q d x a : wok q d x -> q = 2 * a -> d = version k item a.
Proof.
  destruct x as [v|v|v|v x|v j|v j|v j|v|v|v x]; cbn [wok]; intros H E; try lia; destruct H as (-> & ->).
  - replace a with v by lia. apply mix_0.
  - replace a with v by lia. apply mix_0.
  - replace a with v by lia. apply mix_0.
  - replace a with (S v) by lia. apply mix_k.
Qed.
(** What a reader has. *)
Definition agrees (a : nat) (g : list N) : Prop := g = firstn (length g) (version k item a).
Definition rok (q : nat) (x : rk) : Prop :=
  match x with
  | RRest | RS0 | RS1 => True
  | RSR s => s <= q
  | RF0 s g | RF1 s g => exists a, s = 2 * a /\ s <= q /\ length g < k /\ (q = s -> agrees a g)
  | RFR s g y => exists a, s = 2 * a /\ s <= q /\ length g < k /\ (q = s -> agrees a (g ++ [y]))
  | RC0 s g | RC1 s g => exists a, s = 2 * a /\ s <= q /\ length g = k /\ (q = s -> agrees a g)
  | RCR s g c => exists a, s = 2 * a /\ s <= c <= q /\ length g = k /\ (c = s -> agrees a g)
  | RGot s c g => exists a, s = 2 * a /\ s <= c <= q /\ length g = k /\ (c = s -> agrees a g) /\ tmod c = tmod s
  end.
Lemma rok_later q q' x : q <= q' -> rok q x -> rok q' x.
Proof.
  intros Lq. destruct x as [| | |s|s g|s g|s g y|s g|s g|s g c|s c g]; cbn [rok]; auto; try lia; intros (a & -> & H); exists a; repeat split; try lia; try tauto; try (apply H); intros E; apply H; lia.
Qed.
Lemma version_length a : length (version k item a) = k.
Proof. rewrite version_cells. now rewrite map_length, seq_length. Qed.
Lemma version_small a i : (nth i (version k item a) 0 < 2 ^ vw)%N.
Proof.
  assert (P : (0 < 2 ^ vw)%N) by (apply N.neq_0_lt_0, N.pow_nonzero; lia).
  destruct (Nat.ltb_spec i k) as [H|H]; [|rewrite nth_overflow by (rewrite version_length; lia); exact P].
  rewrite version_cells. rewrite (nth_indep _ 0%N (cell a 0)) by (now rewrite map_length, seq_length). rewrite map_nth. destruct a; cbn [cell]; [exact P|apply Hi].
Qed.
Lemma agrees_more a g : agrees a g -> length g < k -> agrees a (g ++ [nth (length g) (version k item a) 0%N]).
Proof.
  unfold agrees. intros E H. rewrite app_length. cbn [length]. set (V := version k item a) in *.
  assert (LV : length V = k) by apply version_length.
  rewrite firstn_one_more by lia. now rewrite <- E.
Qed.
Hypothesis Hw1 : (1 <= w)%N.
Lemma odd_tmod s : N.odd (tmod s) = Nat.odd s.
Proof.
  rewrite <- N.bit0_odd. rewrite N.mod_pow2_bits_low by lia. rewrite N.bit0_odd. rewrite <- (Nat2N.id s) at 2.
  generalize (N.of_nat s). intros x. destruct x as [|[p|p|]]; cbn [N.odd]; try reflexivity; cbn [N.to_nat].
  - rewrite Pos2Nat.inj_xI. symmetry. rewrite Nat.odd_succ, Nat.even_mul. reflexivity.
  - rewrite Pos2Nat.inj_xO. symmetry. rewrite Nat.odd_mul. reflexivity.
Qed.
Lemma rok_step q d y x go : wok q d y -> rok q x -> rok q (rstep q d x go).
Proof.
  intros W. destruct x as [| | |s|s g|s g|s g x|s g|s g|s g c|s c g]; cbn [rok rstep]; auto.
  - destruct go; exact (fun _ => I).
  - intros Ls. rewrite odd_tmod. destruct (Nat.odd s) eqn:O; [exact I|]. cbn [rok]. rewrite <- Nat.negb_even in O. apply negb_false_iff, Nat.even_spec in O.
    destruct O as (a & ->). exists a. cbn [length]. repeat split; auto; lia.
  - intros (a & -> & Ls & Lg & Ag). destruct (nth_error d (length g)) as [m|] eqn:E; [|cbn [rok]; exists a; auto]. cbn [rok]. exists a. repeat split; auto. intros Eq.
    pose proof (wok_even _ _ _ a W Eq) as ->. rewrite <- (nth_error_nth _ _ 0%N E) at 1. rewrite N.mod_small by apply version_small. apply agrees_more; auto.
  - intros (a & -> & Ls & Lg & Ag). destruct (Nat.ltb_spec (S (length g)) k); cbn [rok]; exists a; rewrite app_length; cbn [length]; repeat split; auto; lia.
  - intros (a & -> & Ls & Lg & Ag). exists a. repeat split; auto; lia.
  - intros (a & -> & Ls & Lg & Ag). destruct (N.eqb_spec (tmod c) (tmod (2 * a))) as [E|E]; cbn [rok]; [|exact I]. exists a. repeat split; auto; lia.
  - intros (a & -> & H). destruct go; cbn [rok]; [exact I|]. exists a. tauto.
Qed.
Definition inv (s : ls) : Prop := wok (sq s) (dat s) (wr s) /\ forall x, In x (rd s) -> rok (sq s) x.
Lemma in_set {X} (l : list X) : forall i y x, In x (set_nth i y l) -> x = y \/ In x l.
Proof. induction l as [|z l IH]; intros [|i] y x; cbn; try tauto; intros [H|H]; auto. apply IH in H. tauto. Qed.
Lemma inv_lstep s i go : inv s -> inv (lstep s i go) /\ sq s <= sq (lstep s i go).
Proof.
  intros [W R]. destruct s as [q d x l]. cbn [sq dat wr rd] in *. destruct i as [|i]; cbn [lstep sq dat wr rd].
  - pose proof (wok_step q d x go W) as H. destruct (wstep q d x go) as [[q' d'] x']. destruct H as [W' Lq]. split; [|exact Lq]. split; [exact W'|]. cbn [sq rd].
    intros y I. apply (rok_later q); auto.
  - destruct (nth_error l i) as [y|] eqn:E; [|split; [split; auto|cbn [sq]; lia]]. split; [|cbn [sq]; lia]. split; [exact W|]. cbn [sq rd]. intros z I.
    destruct (in_set _ _ _ _ I) as [->|I']; [|auto]. apply (rok_step q d x); [exact W|]. apply R. apply (nth_error_In _ _ E).
Qed.
Lemma inv_L t : inv (L t).
Proof.
  induction t as [|t IH]; [|cbn [L]; now apply inv_lstep]. split.
  - cbn [L sq dat wr wok]. split; [reflexivity|]. rewrite mix_0. reflexivity.
  - cbn [L sq rd]. intros x I. apply repeat_spec in I. now subst x.
Qed.
Lemma sq_mono t1 t2 : t1 <= t2 -> sq (L t1) <= sq (L t2).
Proof. induction 1 as [|t2 H IH]; [lia|]. pose proof (proj2 (inv_lstep (L t2) (fst (sched t2)) (snd (sched t2)) (inv_L t2))). cbn [L]. lia. Qed.
(** A reader that started after the counter was [b]. *)
Definition fresh (b : nat) (x : rk) : Prop :=
  match x with RRest | RS0 | RS1 => True | RSR s | RF0 s _ | RF1 s _ | RFR s _ _ | RC0 s _ | RC1 s _ | RCR s _ _ | RGot s _ _ => b <= s end.
Lemma fresh_step b q d x go : b <= q -> fresh b x -> fresh b (rstep q d x go).
Proof.
  intros Lb. destruct x as [| | |s|s g|s g|s g y|s g|s g|s g c|s c g]; cbn [fresh rstep]; auto.
  - destruct go; auto.
  - destruct (N.odd _); cbn [fresh]; auto.
  - destruct (nth_error _ _); cbn [fresh]; auto.
  - destruct (_ <? _); cbn [fresh]; auto.
  - destruct (_ =? _)%N; cbn [fresh]; auto.
  - destruct go; cbn [fresh]; auto.
Qed.
Lemma stays_fresh t1 i : nth_error (rd (L t1)) i = Some RRest -> forall t2, t1 <= t2 -> exists x, nth_error (rd (L t2)) i = Some x /\ fresh (sq (L t1)) x.
Proof.
  intros E t2 H. induction H as [|t2 H (x & X & Fx)]; [exists RRest; cbn [fresh]; auto|].
  cbn [L]. destruct (L t2) as [q d y l] eqn:EL. pose proof (sq_mono t1 t2 H) as M. rewrite EL in M. cbn [sq rd] in *. unfold lstep. cbn [sq dat wr rd].
  destruct (fst (sched t2)) as [|j].
  - destruct (wstep q d y (snd (sched t2))) as [[q' d'] y']. cbn [rd]. eauto.
  - destruct (nth_error l j) as [z|] eqn:Ez; [|cbn [rd]; eauto]. cbn [rd]. rewrite nth_error_set_nth by (apply nth_error_Some; congruence).
    destruct (Nat.eqb_spec i j) as [->|]; [|eauto]. rewrite X in Ez. injection Ez as <-. eexists. split; [reflexivity|]. now apply fresh_step.
Qed.
Lemma writer_at t v : written (seq_run k item iw w vw ew n sched t) v -> 2 * v <= sq (L t) <= 2 * S v.
Proof.
  unfold written. setoid_rewrite at_writer. pose proof (proj1 (inv_L t)) as W.
  destruct (wr (L t)) as [u|u|u|u x|u j|u j|u j|u|u|u x]; cbn [wt place wok] in *;
    intros [E|[E|[(j' & E)|E]]]; try discriminate E; injection E; intros; lia.
Qed.
Lemma snapshot i t1 t2 v1 v2 got : t1 <= t2 ->
  is_at Rest (seq_run k item iw w vw ew n sched t1) (S i) -> is_at (Got got) (seq_run k item iw w vw ew n sched t2) (S i) ->
  written (seq_run k item iw w vw ew n sched t1) v1 -> written (seq_run k item iw w vw ew n sched t2) v2 -> (N.of_nat (2 * (S v2 - v1)) < 2 ^ w)%N ->
  exists a, v1 <= a <= S v2 /\ got = version k item a.
Proof.
  intros Lt A1 A2 W1 W2 B. apply writer_at in W1, W2. apply at_reader in A1, A2. destruct A1 as (x1 & E1 & P1), A2 as (x2 & E2 & P2).
  assert (x1 = RRest) as -> by (destruct x1; try discriminate P1; reflexivity).
  destruct (stays_fresh t1 i E1 t2 Lt) as (x & E & Fx). rewrite E2 in E. injection E as <-.
  destruct x2 as [| | |s|s g|s g|s g y|s g|s g|s g c|s c g]; try discriminate P2. injection P2 as ->. cbn [fresh] in Fx.
  pose proof (proj2 (inv_L t2) _ (nth_error_In _ _ E2)) as K. cbn [rok] in K. destruct K as (a & -> & Lc & Lg & Ag & T).
  exists a. split; [lia|].
  assert (c = 2 * a) as Ec.
  { assert (N.of_nat c = N.of_nat (2 * a)); [|lia]. set (X := N.of_nat c) in *. set (Y := N.of_nat (2 * a)) in *.
    assert (LXY : (Y <= X < Y + 2 ^ w)%N) by lia. pose proof (N.pow_nonzero 2 w ltac:(lia)) as NZ.
    pose proof (N.div_mod X (2 ^ w) NZ) as DX. pose proof (N.div_mod Y (2 ^ w) NZ) as DY. rewrite T in DX.
    assert ((X / 2 ^ w = Y / 2 ^ w)%N); [|congruence]. nia. }
  specialize (Ag Ec). unfold agrees in Ag. rewrite Lg in Ag. rewrite firstn_all2 in Ag by (rewrite version_length; lia). exact Ag.
Qed.
End Seqlock.
