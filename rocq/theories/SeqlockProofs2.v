From Verif Require Import Base BaseLemmas BitModel ConcModel AtomicModel WaitModel WaitSpec WaitProofs WaitProofs2 TicketProofs SeqlockSpec SeqlockProofs.
Open Scope nat_scope.

Section Live.
Variables (iw w vw ew : N) (k n : nat) (item : nat -> nat -> N).
Hypothesis Hw : (w <= ew)%N.
Hypothesis Hv : (vw <= ew)%N.
Hypothesis Hi : forall v j, (item v j < 2 ^ vw)%N.
Hypothesis Hk : 0 < k.
Hypothesis Hw1 : (1 <= w)%N.
Notation tmod x := (N.of_nat x mod 2 ^ w)%N.
Notation lstep := (lstep w vw k item).
Notation rstep := (rstep w vw k).
Notation wstep := (wstep k item).

Lemma odd_t s : N.odd (tmod s) = Nat.odd s.
Proof. exact (odd_tmod w vw ew k item Hw Hv Hi Hk (fun _ => (0, true)) Hw1 s). Qed.
Lemma mix_all v : mix k item v k = version k item (S v).
Proof. exact (mix_k w vw ew k item Hw Hv Hi Hk (fun _ => (0, true)) v). Qed.
Lemma mix_next v j : j < k -> set_nth j (item v j) (mix k item v j) = mix k item v (S j).
Proof. exact (mix_set w vw ew k n item Hw Hv Hi Hk (fun _ => (0, true)) v j). Qed.

Section Sched.
Variable sched : nat -> nat * bool.
Notation L := (L w vw k n item sched).
Notation inv_L := (inv_L w vw ew k n item Hw Hv Hi Hk sched Hw1).
Notation at_writer := (at_writer iw w vw ew k n item Hw Hv Hi Hk sched).
Notation at_reader := (at_reader iw w vw ew k n item Hw Hv Hi Hk sched).
Lemma writer_step t : wr (L (S t)) = if fst (sched t) =? 0 then snd (wstep (sq (L t)) (dat (L t)) (wr (L t)) (snd (sched t))) else wr (L t).
Proof.
  cbn [SeqlockProofs.L]. unfold SeqlockProofs.lstep. destruct (fst (sched t)) as [|i]; cbn [Nat.eqb].
  - destruct (wstep _ _ _ _) as [[q d] x]. reflexivity.
  - destruct (nth_error _ _); reflexivity.
Qed.
Lemma reader_step t i x : nth_error (rd (L t)) i = Some x ->
  nth_error (rd (L (S t))) i = Some (if fst (sched t) =? S i then rstep (sq (L t)) (dat (L t)) x (snd (sched t)) else x).
Proof.
  intros E. cbn [SeqlockProofs.L]. unfold SeqlockProofs.lstep. destruct (fst (sched t)) as [|j].
  - cbn [Nat.eqb]. destruct (wstep _ _ _ _) as [[q d] y]. exact E.
  - change (S j =? S i) with (j =? i). destruct (nth_error (rd (L t)) j) as [y|] eqn:Ey.
    + cbn [rd]. rewrite nth_error_set_nth by (apply nth_error_Some; congruence). rewrite (Nat.eqb_sym j i). destruct (Nat.eqb_spec i j) as [->|]; [|exact E]. congruence.
    + destruct (Nat.eqb_spec j i) as [->|]; [congruence|exact E].
Qed.

(** ** The writer goes on *)
Definition ver (x : wk) : nat := match x with WP v | WB0 v | WB1 v | WBR v _ | WF0 v _ | WF1 v _ | WFR v _ | WE0 v | WE1 v | WER v _ => v end.
Definition left_ (x : wk) : nat :=
  match x with
  | WP _ => 3 * k + 7 | WB0 _ => 3 * k + 6 | WB1 _ => 3 * k + 5 | WBR _ _ => 3 * k + 4
  | WF0 _ j => 3 * (k - j) + 3 | WF1 _ j => 3 * (k - j) + 2 | WFR _ j => 3 * (k - j) + 1
  | WE0 _ => 3 | WE1 _ => 2 | WER _ _ => 1
  end.
Definition paused (x : wk) : Prop := exists v, x = WP v.
Lemma wstep_left q d x go : wok k item q d x -> ~ paused x ->
  let x' := snd (wstep q d x go) in x' = WP (S (ver x)) \/ ver x' = ver x /\ ~ paused x' /\ left_ x' < left_ x.
Proof.
  intros W NP. destruct x as [v|v|v|v x|v j|v j|v j|v|v|v x]; cbn [SeqlockProofs.wstep snd ver left_ wok] in *.
  - exfalso. apply NP. eexists. reflexivity.
  - right. repeat split; [intros (u & E); discriminate|lia].
  - right. repeat split; [intros (u & E); discriminate|lia].
  - right. repeat split; [intros (u & E); discriminate|lia].
  - right. repeat split; [intros (u & E); discriminate|lia].
  - destruct W as (-> & Lj & ->). rewrite nth_mix by assumption. cbn [snd ver left_]. right. repeat split; [intros (u & E); discriminate|lia].
  - destruct W as (_ & Lj & _). right. destruct (Nat.ltb_spec (S j) k); cbn [ver left_]; repeat split; try (intros (u & E); discriminate); lia.
  - right. repeat split; [intros (u & E); discriminate|lia].
  - right. repeat split; [intros (u & E); discriminate|lia].
  - left. reflexivity.
Qed.
Hypothesis Fair : fair (S n) sched.
Lemma writer_finishes v t : ver (wr (L t)) = v -> ~ paused (wr (L t)) -> exists t', t <= t' /\ wr (L t') = WP (S v).
Proof.
  intros V NP. apply (leads L (fun s => ver (wr s) = v /\ ~ paused (wr s)) (fun s => wr s = WP (S v)) (fun s => left_ (wr s)) sched 0); [apply Fair; lia| |auto].
  clear t V NP. intros t (V & NP). right. rewrite writer_step. destruct (Nat.eqb_spec (fst (sched t)) 0) as [E|E].
  - pose proof (wstep_left _ _ _ (snd (sched t)) (proj1 (inv_L t)) NP) as H. cbv zeta in H. rewrite V in H. destruct H as [H|(H1 & H2 & H3)]; [now left|right]. repeat split; auto. lia.
  - right. repeat split; auto; lia.
Qed.
Lemma writes_all : (forall v, leaves (Pause v) (S n) (seq_run k item iw w vw ew n sched)) -> forall v, exists t, is_at (Pause v) (seq_run k item iw w vw ew n sched t) 0.
Proof.
  intros Lv. enough (H : forall v, exists t, wr (L t) = WP v) by (intros v; destruct (H v) as (t & E); exists t; apply at_writer; now rewrite E).
  induction v as [|v (t & E)]; [exists 0; reflexivity|].
  destruct (Lv v 0 t ltac:(lia)) as (t1 & L1 & N1); [apply at_writer; now rewrite E|]. rewrite at_writer in N1.
  assert (K : forall d, t + d <= t1 -> wr (L (t + d)) = WP v \/ exists t', wr (L t') = WB0 v).
  { induction d as [|d IH]; intros Ld; [left; now rewrite Nat.add_0_r|]. destruct (IH ltac:(lia)) as [H|H]; [|now right]. rewrite Nat.add_succ_r.
    destruct (Nat.eqb_spec (fst (sched (t + d))) 0) as [E0|E0].
    - destruct (snd (sched (t + d))) eqn:Go.
      + right. exists (S (t + d)). rewrite writer_step, E0, H, Go. reflexivity.
      + left. rewrite writer_step, E0, H, Go. reflexivity.
    - left. rewrite writer_step. destruct (Nat.eqb_spec (fst (sched (t + d))) 0); [contradiction|exact H]. }
  destruct (K (t1 - t) ltac:(lia)) as [H|(t' & H)].
  - exfalso. apply N1. replace (t + (t1 - t)) with t1 in H by lia. now rewrite H.
  - destruct (writer_finishes v t') as (t2 & _ & H2); [now rewrite H|rewrite H; intros (u & X); discriminate|]. eauto.
Qed.

(** ** A reader goes on while the writer pauses *)
Section Paused.
Variables (t0 v i : nat).
Hypothesis Still : forall u, t0 <= u -> wr (L u) = WP v.
Definition stale (s : nat) : nat := if (tmod s =? tmod (2 * v))%N then 0 else 3 * k + 6.
Definition rank (x : rk) : nat :=
  match x with
  | RRest | RGot _ _ _ => 0
  | RS0 => 3 * k + 6 | RS1 => 3 * k + 5 | RSR s => 3 * k + 4 + stale s
  | RF0 s g => 3 * (k - length g) + 3 + stale s | RF1 s g => 3 * (k - length g) + 2 + stale s | RFR s g _ => 3 * (k - length g) + 1 + stale s
  | RC0 s _ => 3 + stale s | RC1 s _ => 2 + stale s
  | RCR s _ c => if (tmod c =? tmod s)%N then 1 else 3 * k + 7
  end.
Definition trying (x : rk) : Prop := match x with RRest | RGot _ _ _ => False | _ => True end.
Definition fresh (x : rk) : Prop :=
  match x with
  | RF0 _ g | RF1 _ g | RC0 _ g | RC1 _ g | RCR _ g _ | RGot _ _ g => g = firstn (length g) (version k item v)
  | RFR _ g y => g ++ [y] = firstn (S (length g)) (version k item v)
  | _ => True
  end.
Definition has_got (x : rk) : Prop := match x with RGot _ _ g => g = version k item v | _ => False end.
Lemma bound_v y : In y (version k item v) -> (y < 2 ^ vw)%N.
Proof.
  destruct v as [|v']; cbn [version]; intros H.
  - apply repeat_spec in H. subst. apply N.neq_0_lt_0. now apply N.pow_nonzero.
  - apply in_map_iff in H. destruct H as (j & <- & _). apply Hi.
Qed.
Lemma rank_step d x go : rok w k item (2 * v) x -> d = version k item v -> trying x -> fresh x ->
  let x' := rstep (2 * v) d x go in has_got x' \/ trying x' /\ fresh x' /\ rank x' < rank x.
Proof.
  intros R -> T F. destruct x as [| | |s|s g|s g|s g y|s g|s g|s g c|s c g]; try contradiction T; cbn [SeqlockProofs.rstep rank has_got trying fresh rok] in *; try (right; split; [exact I|split; [exact F|]]).
  - lia.
  - unfold stale. rewrite N.eqb_refl. lia.
  - right. rewrite odd_t. destruct (Nat.odd s) eqn:O; cbn [trying rank length fresh firstn]; (split; [exact I|split; [trivial|]]).
    + unfold stale. destruct (N.eqb_spec (tmod s) (tmod (2 * v))) as [E|E]; [|lia]. exfalso. apply (f_equal N.odd) in E. rewrite !odd_t in E. rewrite O, Nat.odd_mul in E. discriminate.
    + lia.
  - lia.
  - right. destruct R as (a & -> & Ls & Lg & _). destruct (nth_error (version k item v) (length g)) as [m|] eqn:E; [|apply nth_error_None in E; rewrite version_length in E; lia]. cbn [trying rank fresh].
    split; [exact I|split; [|lia]]. rewrite N.mod_small by (apply bound_v; now apply nth_error_In in E). rewrite F at 1. clear - E. revert E. generalize (version k item v), (length g). intros d j. revert d.
    induction j as [|j IH]; intros [|z d] E; try discriminate; cbn in *; [now injection E as ->|]. f_equal. now apply IH.
  - right. destruct R as (a & -> & Ls & Lg & _). destruct (Nat.ltb_spec (S (length g)) k); cbn [trying rank fresh]; rewrite ?app_length; cbn [length]; rewrite ?Nat.add_1_r; (split; [exact I|split; [exact F|lia]]).
  - lia.
  - unfold stale. rewrite (N.eqb_sym (tmod (2 * v))). destruct (tmod s =? tmod (2 * v))%N; lia.
  - destruct (tmod c =? tmod s)%N; cbn [has_got trying rank fresh]; [left|right; split; [exact I|split; [trivial|lia]]].
    destruct R as (a & -> & Ls & Lg & _). rewrite F, Lg. apply firstn_all2. now rewrite version_length.
Qed.
Lemma reader_gets x : i < n -> nth_error (rd (L t0)) i = Some x -> trying x -> fresh x -> exists t' y, t0 <= t' /\ nth_error (rd (L t')) i = Some y /\ has_got y.
Proof.
  intros Hin E T F.
  destruct (leads (fun u => nth_error (rd (L (t0 + u))) i) (fun o => exists x, o = Some x /\ trying x /\ fresh x) (fun o => exists x, o = Some x /\ has_got x)
    (fun o => match o with Some x => rank x | None => 0 end) (fun u => sched (t0 + u)) (S i)) with (t := 0) as (u & _ & y & Y & G).
  - intros u. destruct (Fair (S i) ltac:(lia) (t0 + u)) as (t' & Lt & Et). exists (t' - t0). split; [lia|]. now replace (t0 + (t' - t0)) with t' by lia.
  - intros u (z & Z & Tz & Fz). right. rewrite Nat.add_succ_r. rewrite (reader_step _ _ _ Z), Z. destruct (Nat.eqb_spec (fst (sched (t0 + u))) (S i)) as [Eq|Nq].
    + destruct (inv_L (t0 + u)) as [W R]. rewrite (Still (t0 + u) ltac:(lia)) in W. cbn [wok] in W. destruct W as [Wq Wd]. rewrite mix_0 in Wd.
      specialize (R z (nth_error_In _ _ Z)). rewrite Wq in R |- *.
      destruct (rank_step (dat (L (t0 + u))) z (snd (sched (t0 + u))) R Wd Tz Fz) as [G|(G & G' & Lr)]; [left; eauto|right]. repeat split; [eauto|lia|intros _; exact Lr].
    + right. repeat split; [eauto|lia|contradiction].
  - rewrite Nat.add_0_r. eauto.
  - exists (t0 + u), y. split; [lia|]. auto.
Qed.
Lemma reader_done : i < n -> is_at See (seq_run k item iw w vw ew n sched t0) (S i) ->
  exists t', t0 <= t' /\ is_at (Got (version k item v)) (seq_run k item iw w vw ew n sched t') (S i).
Proof.
  intros Hin A. apply at_reader in A. destruct A as (x & X & P). destruct (reader_gets x Hin X) as (t' & y & Lt & Y & G); try (destruct x; discriminate || exact I).
  exists t'. split; [exact Lt|]. apply at_reader. exists y. split; [exact Y|]. destruct y; try contradiction G. cbn in G |- *. now subst.
Qed.
End Paused.
(** ** Schedules *)
Lemma eager_seqlock : (forall t, snd (sched t) = true) -> forall v, leaves (Pause v) (S n) (seq_run k item iw w vw ew n sched).
Proof.
  intros G v i t Hi' At. destruct i as [|i].
  2:{ exfalso. apply at_reader in At. destruct At as (x & _ & P). destruct x; discriminate P. }
  destruct (Fair 0 Hi' t) as (t0 & L0 & E0). destruct (next_turn sched 0 t t0 L0 E0) as (t1 & L1 & E1 & N1).
  exists (S t1). split; [lia|]. apply at_writer in At. assert (Ew : wr (L t) = WP v) by (destruct (wr (L t)); try discriminate At; now injection At as ->).
  assert (K : forall d, t + d <= t1 -> wr (L (t + d)) = WP v).
  { induction d as [|d IH]; intros Ld; [now rewrite Nat.add_0_r|]. rewrite Nat.add_succ_r, writer_step. destruct (Nat.eqb_spec (fst (sched (t + d))) 0) as [X|X]; [|apply IH; lia].
    exfalso. apply (N1 (t + d)); [lia|exact X]. }
  specialize (K (t1 - t) ltac:(lia)). replace (t + (t1 - t)) with t1 in K by lia.
  rewrite at_writer, writer_step, E1, K, G. discriminate.
Qed.
Lemma stays_paused t0 v : (forall t, t0 <= t -> fst (sched t) = 0 -> snd (sched t) = false) -> is_at (Pause v) (seq_run k item iw w vw ew n sched t0) 0 ->
  forall u, t0 <= u -> is_at (Pause v) (seq_run k item iw w vw ew n sched u) 0.
Proof.
  intros G At u Lu. apply at_writer. apply at_writer in At. assert (Ew : wr (L t0) = WP v) by (destruct (wr (L t0)); try discriminate At; now injection At as ->).
  enough (E : wr (L u) = WP v) by now rewrite E. induction Lu as [|u Lu IH]; [exact Ew|]. rewrite writer_step. destruct (Nat.eqb_spec (fst (sched u)) 0) as [X|X]; [|exact IH].
  now rewrite IH, (G u Lu X).
Qed.
End Sched.

(** ** Runs in which one thread takes many steps *)
Notation iter := (fun d s i => Nat.iter d (fun s => lstep s i true) s).
Lemma run_iter sched t i d : (forall j, j < d -> sched (t + j) = (i, true)) -> L w vw k n item sched (t + d) = iter d (L w vw k n item sched t) i.
Proof.
  induction d as [|d IH]; intros H; [now rewrite Nat.add_0_r|]. rewrite Nat.add_succ_r. cbn [L Nat.iter nat_rect]. rewrite (H d) by lia. cbn [fst snd]. rewrite IH; [reflexivity|].
  intros j Hj. apply H. lia.
Qed.
Lemma iter_add d e s i : iter (d + e) s i = iter d (iter e s i) i.
Proof. induction d as [|d IH]; [reflexivity|]. cbn [Nat.add Nat.iter nat_rect]. f_equal. exact IH. Qed.
Lemma fills v l q : forall m j, j + S m = k -> iter (3 * S m) (LS q (mix k item v j) (WF0 v j) l) 0 = LS q (mix k item v k) (WE0 v) l.
Proof.
  induction m as [|m IH]; intros j E.
  - cbn -[Nat.ltb set_nth nth_error mix]. rewrite nth_mix by lia. cbn -[Nat.ltb set_nth nth_error mix]. rewrite mix_next by lia. destruct (Nat.ltb_spec (S j) k); [lia|]. now replace (S j) with k by lia.
  - replace (3 * S (S m)) with (3 * S m + 3) by lia. rewrite iter_add.
    replace (iter 3 (LS q (mix k item v j) (WF0 v j) l) 0) with (LS q (mix k item v (S j)) (WF0 v (S j)) l); [apply IH; lia|].
    cbn -[Nat.ltb set_nth nth_error mix]. rewrite nth_mix by lia. cbn -[Nat.ltb set_nth nth_error mix]. rewrite mix_next by lia. destruct (Nat.ltb_spec (S j) k); [reflexivity|lia].
Qed.
Lemma begins v l : iter 4 (LS (2 * v) (mix k item v 0) (WP v) l) 0 = LS (2 * v + 1) (mix k item v 0) (WF0 v 0) l.
Proof. reflexivity. Qed.
Lemma ends v l : iter 3 (LS (2 * v + 1) (mix k item v k) (WE0 v) l) 0 = LS (2 * S v) (mix k item (S v) 0) (WP (S v)) l.
Proof. rewrite mix_0, mix_all. cbn -[version Nat.mul]. replace (2 * v + 1 + 1) with (2 * S v) by lia. reflexivity. Qed.
Lemma writes v l : iter (3 * k + 3) (LS (2 * v + 1) (mix k item v 0) (WF0 v 0) l) 0 = LS (2 * S v) (mix k item (S v) 0) (WP (S v)) l.
Proof.
  replace (3 * k + 3) with (3 + 3 * S (k - 1)) by lia. rewrite iter_add, fills by lia. apply ends.
Qed.

(** ** A counter that wraps while a reader reads *)
Lemma reads d q x s l : length d = k -> (forall y, In y d -> (y < 2 ^ vw)%N) ->
  forall m g, length g + S m = k -> iter (3 * S m) (LS q d x (RF0 s g :: l)) 1 = LS q d x (RC0 s (g ++ skipn (length g) d) :: l).
Proof.
  intros Ld B. assert (One : forall g y, nth_error d (length g) = Some y ->
    iter 3 (LS q d x (RF0 s g :: l)) 1 = LS q d x ((if S (length g) <? k then RF0 s (g ++ [y]) else RC0 s (g ++ [y])) :: l)).
  { intros g y E. cbn -[Nat.ltb]. rewrite E. cbn -[Nat.ltb]. rewrite N.mod_small; [reflexivity|]. apply B. now apply nth_error_In in E. }
  assert (Sk : forall (g : list N) y, nth_error d (length g) = Some y -> skipn (length g) d = y :: skipn (S (length g)) d).
  { clear Ld B One. intros g. generalize (length g). clear g. intros j. clear - j. revert d. induction j as [|j IH]; intros [|z d] y E; try discriminate; cbn in *; [now injection E as ->|]. now apply IH. }
  induction m as [|m IH]; intros g E; (destruct (nth_error d (length g)) as [y|] eqn:Ey; [|apply nth_error_None in Ey; lia]).
  - change (3 * 1) with 3. rewrite (One g y Ey), (Sk g y Ey). destruct (Nat.ltb_spec (S (length g)) k); [lia|]. rewrite skipn_all2 by lia. reflexivity.
  - replace (3 * S (S m)) with (3 * S m + 3) by lia. rewrite iter_add, (One g y Ey), (Sk g y Ey). destruct (Nat.ltb_spec (S (length g)) k); [|lia].
    rewrite IH by (rewrite app_length; cbn; lia). rewrite app_length, <-app_assoc. cbn [length app]. now rewrite Nat.add_1_r.
Qed.
Lemma cycle v l : iter (3 * k + 7) (LS (2 * v) (mix k item v 0) (WP v) l) 0 = LS (2 * S v) (mix k item (S v) 0) (WP (S v)) l.
Proof. replace (3 * k + 7) with (3 * k + 3 + 4) by lia. rewrite iter_add, begins. apply writes. Qed.
Lemma cycles l : forall m, iter ((3 * k + 7) * m) (LS 0 (mix k item 0 0) (WP 0) l) 0 = LS (2 * m) (mix k item m 0) (WP m) l.
Proof.
  induction m as [|m IH]; [now rewrite Nat.mul_0_r|]. replace ((3 * k + 7) * S m) with (3 * k + 7 + (3 * k + 7) * m) by lia. rewrite iter_add, IH. apply cycle.
Qed.
Lemma version_bound a y : In y (version k item a) -> (y < 2 ^ vw)%N.
Proof.
  destruct a as [|v]; cbn [version]; intros H.
  - apply repeat_spec in H. subst. apply N.neq_0_lt_0. now apply N.pow_nonzero.
  - apply in_map_iff in H. destruct H as (j & <- & _). apply Hi.
Qed.
Definition wraps : nat := N.to_nat (2 ^ (w - 1)).
Definition late (t : nat) : nat * bool := if t <? 7 then (1, true) else if t <? 7 + (3 * k + 7) * wraps then (0, true) else (1, true).
Lemma late_got n' : n = S n' -> 2 <= k -> exists l,
  L w vw k n item late (7 + (3 * k + 7) * wraps + 3 * (k - 1) + 3) = LS (2 * wraps) (version k item wraps) (WP wraps) (RGot 0 (2 * wraps) (0%N :: skipn 1 (version k item wraps)) :: l).
Proof.
  intros En K2. exists (repeat RRest n').
  rewrite (run_iter late _ 1 3).
  2:{ intros j Hj. unfold late. destruct (Nat.ltb_spec (7 + (3 * k + 7) * wraps + 3 * (k - 1) + j) 7) as [X|X]; [reflexivity|]. destruct (Nat.ltb_spec (7 + (3 * k + 7) * wraps + 3 * (k - 1) + j) (7 + (3 * k + 7) * wraps)); [lia|reflexivity]. }
  rewrite (run_iter late _ 1 (3 * (k - 1))).
  2:{ intros j Hj. unfold late. destruct (Nat.ltb_spec (7 + (3 * k + 7) * wraps + j) 7) as [X|X]; [reflexivity|]. destruct (Nat.ltb_spec (7 + (3 * k + 7) * wraps + j) (7 + (3 * k + 7) * wraps)); [lia|reflexivity]. }
  rewrite (run_iter late _ 0 ((3 * k + 7) * wraps)).
  2:{ intros j Hj. unfold late. destruct (Nat.ltb_spec (7 + j) 7) as [X|X]; [lia|]. destruct (Nat.ltb_spec (7 + j) (7 + (3 * k + 7) * wraps)); [reflexivity|lia]. }
  assert (E7 : L w vw k n item late (0 + 7) = LS 0 (mix k item 0 0) (WP 0) (RF0 0 [0%N] :: repeat RRest n')).
  { rewrite (run_iter late 0 1 7).
    2:{ intros j Hj. unfold late. cbn [Nat.add]. destruct (Nat.ltb_spec j 7); [reflexivity|lia]. }
    rewrite mix_0. rewrite En. destruct k as [|[|k']]; [lia|lia|].
    cbn -[N.pow N.modulo]. rewrite N.mod_0_l by now apply N.pow_nonzero. cbn -[N.pow N.modulo]. rewrite N.mod_0_l by now apply N.pow_nonzero. reflexivity. }
  change (0 + 7) with 7 in E7. rewrite E7, cycles, mix_0.
  replace (3 * (k - 1)) with (3 * S (k - 2)) by lia. rewrite reads; [|apply version_length|apply version_bound|cbn; lia].
  assert (T : tmod (2 * wraps) = tmod 0).
  { unfold wraps. replace (N.of_nat (2 * N.to_nat (2 ^ (w - 1)))) with (2 * 2 ^ (w - 1))%N by lia. rewrite <-N.pow_succ_r by apply N.le_0_l. replace (N.succ (w - 1)) with w by (clear - Hw1; lia). assert (2 ^ w <> 0)%N by (apply N.pow_nonzero; discriminate). rewrite N.mod_same by assumption. change (N.of_nat 0) with 0%N. rewrite N.mod_0_l by assumption. reflexivity. }
  cbn -[N.pow N.modulo wraps Nat.mul version skipn]. rewrite T, N.eqb_refl. reflexivity.
Qed.
Lemma torn_run : 2 <= k -> 1 <= n -> (forall v j, item v j <> 0%N) ->
  exists sched t got, is_at (Got got) (seq_run k item iw w vw ew n sched t) 1 /\ forall a, got <> version k item a.
Proof.
  intros K2 N1 Nz. destruct n as [|n'] eqn:En; [lia|]. rewrite <-En. destruct (late_got n' En K2) as (l & El).
  exists late, (7 + (3 * k + 7) * wraps + 3 * (k - 1) + 3), (0%N :: skipn 1 (version k item wraps)). split.
  - apply (at_reader iw w vw ew k n item Hw Hv Hi Hk). eexists. split; [rewrite El; reflexivity|reflexivity].
  - assert (wraps <> 0) by (unfold wraps; pose proof (N.pow_nonzero 2 (w - 1)); lia).
    destruct wraps as [|m]; [lia|]. destruct k as [|[|k']]; [lia|lia|]. intros [|a] E; cbn in E; injection E as E; [|now apply (Nz a 0)].
    now apply (Nz m 1).
Qed.

(** ** A reader that only ever sees the counter odd *)
Lemma iter_0_rd d s : rd (iter d s 0) = rd s.
Proof. induction d as [|d IH]; [reflexivity|]. cbn [Nat.iter nat_rect]. rewrite <-IH. unfold SeqlockProofs.lstep at 1. destruct (wstep _ _ _ _) as [[q e] y]. reflexivity. Qed.
Definition per : nat := 3 * k + 10.
Definition unlucky (t : nat) : nat * bool :=
  match t with O => (1, true) | S u => if u mod per <? 4 then (0, true) else if u mod per <? 7 then (1, true) else (0, true) end.
Lemma unlucky_at m r : r < per -> unlucky (1 + per * m + r) = if r <? 4 then (0, true) else if r <? 7 then (1, true) else (0, true).
Proof.
  intros Hr. cbn [unlucky Nat.add]. replace ((per * m + r) mod per) with r; [reflexivity|]. rewrite Nat.add_comm, Nat.mul_comm, Nat.mod_add by (unfold per; lia). symmetry. now apply Nat.mod_small.
Qed.
Section Starve.
Hypothesis En : n = 1.
Notation LL := (L w vw k n item unlucky).
Lemma part1 m s d : LL (1 + per * m) = s -> d <= 4 -> LL (1 + per * m + d) = iter d s 0.
Proof. intros <- Hd. apply run_iter. intros j Hj. rewrite unlucky_at by (unfold per; lia). destruct (Nat.ltb_spec j 4); [reflexivity|lia]. Qed.
Lemma part2 m s d : LL (1 + per * m + 4) = s -> d <= 3 -> LL (1 + per * m + 4 + d) = iter d s 1.
Proof.
  intros <- Hd. apply run_iter. intros j Hj. rewrite <-(Nat.add_assoc (1 + per * m)), unlucky_at by (unfold per; lia).
  destruct (Nat.ltb_spec (4 + j) 4); [lia|]. destruct (Nat.ltb_spec (4 + j) 7); [reflexivity|lia].
Qed.
Lemma part3 m s d : LL (1 + per * m + 7) = s -> d <= 3 * k + 3 -> LL (1 + per * m + 7 + d) = iter d s 0.
Proof.
  intros <- Hd. apply run_iter. intros j Hj. rewrite <-(Nat.add_assoc (1 + per * m)), unlucky_at by (unfold per; lia).
  destruct (Nat.ltb_spec (7 + j) 4); [lia|]. destruct (Nat.ltb_spec (7 + j) 7); [lia|reflexivity].
Qed.
Lemma sees m d : d <= 3 -> exists x, iter d (LS (2 * m + 1) (mix k item m 0) (WF0 m 0) [RS0]) 1 = LS (2 * m + 1) (mix k item m 0) (WF0 m 0) [x] /\ place (rt iw w vw ew x) = See /\ (d = 3 -> x = RS0).
Proof.
  intros Hd. destruct d as [|[|[|[|d]]]]; [| | | |lia].
  - exists RS0. repeat split; discriminate || reflexivity.
  - exists RS1. repeat split; discriminate || reflexivity.
  - exists (RSR (2 * m + 1)). repeat split; discriminate || reflexivity.
  - exists RS0. cbn -[mix Nat.mul N.modulo N.pow]. rewrite odd_t. replace (Nat.odd (2 * m + 1)) with true; [auto|]. rewrite Nat.odd_add, Nat.odd_mul. reflexivity.
Qed.
Lemma period m : LL (1 + per * m) = LS (2 * m) (mix k item m 0) (WP m) [RS0] ->
  (forall r, r < per -> exists x, rd (LL (1 + per * m + r)) = [x] /\ place (rt iw w vw ew x) = See) /\
  LL (1 + per * S m) = LS (2 * S m) (mix k item (S m) 0) (WP (S m)) [RS0].
Proof.
  intros E. assert (E4 : LL (1 + per * m + 4) = LS (2 * m + 1) (mix k item m 0) (WF0 m 0) [RS0]) by (rewrite (part1 m _ 4 E) by lia; apply begins).
  assert (E7 : LL (1 + per * m + 7) = LS (2 * m + 1) (mix k item m 0) (WF0 m 0) [RS0]).
  { change 7 with (4 + 3). rewrite Nat.add_assoc, (part2 m _ 3 E4) by lia. destruct (sees m 3 ltac:(lia)) as (x & -> & _ & X). now rewrite X. }
  split.
  - intros r Hr. destruct (Nat.le_gt_cases r 4) as [L4|L4].
    + rewrite (part1 m _ r E L4), iter_0_rd. exists RS0. split; reflexivity.
    + destruct (Nat.le_gt_cases r 7) as [L7|L7].
      * replace (1 + per * m + r) with (1 + per * m + 4 + (r - 4)) by lia. rewrite (part2 m _ (r - 4) E4) by lia. destruct (sees m (r - 4) ltac:(lia)) as (x & -> & P & _). exists x. auto.
      * replace (1 + per * m + r) with (1 + per * m + 7 + (r - 7)) by lia. rewrite (part3 m _ (r - 7) E7) by (unfold per in Hr; lia). rewrite iter_0_rd. exists RS0. split; reflexivity.
  - replace (1 + per * S m) with (1 + per * m + 7 + (3 * k + 3)) by (unfold per; lia). rewrite (part3 m _ _ E7) by lia. apply writes.
Qed.
Lemma all_periods m : LL (1 + per * m) = LS (2 * m) (mix k item m 0) (WP m) [RS0].
Proof.
  induction m as [|m IH]; [|now apply period]. rewrite Nat.mul_0_r. rewrite mix_0. rewrite En. reflexivity.
Qed.
Lemma starves t : 1 <= t -> is_at See (seq_run k item iw w vw ew n unlucky t) 1.
Proof.
  intros Ht. apply (at_reader iw w vw ew k n item Hw Hv Hi Hk). pose proof (Nat.div_mod (t - 1) per ltac:(unfold per; lia)) as D. pose proof (Nat.mod_upper_bound (t - 1) per ltac:(unfold per; lia)) as U.
  destruct (proj1 (period _ (all_periods ((t - 1) / per))) _ U) as (x & X & P). exists x. replace (1 + per * ((t - 1) / per) + (t - 1) mod per) with t in X by lia. rewrite X. auto.
Qed.
Lemma unlucky_writes v : exists t, is_at (Pause v) (seq_run k item iw w vw ew n unlucky t) 0.
Proof. exists (1 + per * v). apply (at_writer iw w vw ew k n item Hw Hv Hi Hk). now rewrite all_periods. Qed.
End Starve.
Lemma unlucky_fair : fair 2 unlucky.
Proof.
  intros i Hi' t. destruct i as [|[|i]]; [| |lia].
  - exists (1 + per * t + 0). split; [unfold per; nia|]. rewrite unlucky_at by (unfold per; lia). reflexivity.
  - exists (1 + per * t + 4). split; [unfold per; nia|]. rewrite unlucky_at by (unfold per; lia). reflexivity.
Qed.
End Live.
