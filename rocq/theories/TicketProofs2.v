From Verif Require Import Base BaseLemmas BitModel ConcModel AtomicModel WaitModel WaitSpec WaitProofs WaitProofs2 TicketSpec TicketProofs.
Open Scope nat_scope.

Section Ticket.
Variables iw w ew : N.
Hypothesis Hw : (w <= ew)%N.
Variables (n : nat) (sched : nat -> nat * bool).
Notation R := (R w n sched).

Lemma is_at_gs l i s : is_at l (gs iw w ew s) i <-> exists k, nth_error (folk s) i = Some k /\ place (gt iw w ew k) = l.
Proof.
  unfold is_at, gs. cbn [threads]. rewrite nth_error_map. destruct (nth_error (folk s) i) as [k|]; cbn [option_map].
  - split; [intros (t & [= <-] & E)|intros (k' & [= <-] & E)]; eauto.
  - split; intros (x & E & _); discriminate.
Qed.
Lemma within_k k : place (gt iw w ew k) = Within -> exists g, k = GIn g.
Proof. destruct k; try discriminate. eauto. Qed.
Lemma at_within t i : is_at Within (ticket_run iw w ew n sched t) i <-> exists g, nth_error (folk (R t)) i = Some (GIn g).
Proof.
  rewrite ticket_run_R, is_at_gs by exact Hw. split.
  - intros (k & H & P). apply within_k in P. destruct P as [g ->]. eauto.
  - intros (g & H). eexists. split; [exact H|reflexivity].
Qed.

Section Few.
Hypothesis Hn : (N.of_nat n <= 2 ^ w)%N.
Lemma ticket_excludes t i j :
  is_at Within (ticket_run iw w ew n sched t) i -> is_at Within (ticket_run iw w ew n sched t) j -> i = j.
Proof.
  intros X Y. apply at_within in X. apply at_within in Y. destruct X as [g X], Y as [h Y].
  destruct (inv_R w ew Hw n sched Hn t) as (ND & _ & FR & _).
  pose proof (FR i _ g X eq_refl) as ->. pose proof (FR j _ h Y eq_refl) as ->.
  apply (tickets_inj _ ND i j _ _ (served (R t)) X Y); reflexivity.
Qed.
Lemma number_looking t i : has_number (ticket_run iw w ew n sched t) i -> exists g, looking i g (R t).
Proof.
  intros (k & H). rewrite ticket_run_R, is_at_gs in H by exact Hw. destruct H as (q & H & P).
  destruct q as [| | |g|g|g|g v|g|g|g|v]; try discriminate; exists g; eexists; (split; [exact H|reflexivity]).
Qed.
Lemma ticket_in_order i j t1 t : t1 <= t -> has_number (ticket_run iw w ew n sched t1) i ->
  is_at Outside (ticket_run iw w ew n sched t1) j ->
  (forall u, t1 <= u <= t -> ~ is_at Within (ticket_run iw w ew n sched u) i) ->
  ~ is_at Within (ticket_run iw w ew n sched t) j.
Proof.
  intros L Hi Hj No. apply number_looking in Hi. destruct Hi as [g Hi].
  rewrite ticket_run_R, is_at_gs in Hj by exact Hw. destruct Hj as (k & Hk & Pk).
  assert (k = GOut) as -> by (destruct k; try discriminate; reflexivity).
  assert (K : forall d, t1 + d <= t -> looking i g (R (t1 + d)) /\
                exists q, nth_error (folk (R (t1 + d))) j = Some q /\ forall h, ghost q = Some h -> (g < h)%N).
  { induction d as [|d IH]; intros Ld.
    - rewrite Nat.add_0_r. split; [exact Hi|]. exists GOut. split; [exact Hk|discriminate].
    - destruct (IH ltac:(lia)) as [IL (q & Hq & Gq)]. rewrite Nat.add_succ_r. split.
      + destruct (looking_step w n sched i g _ IL) as [X|X]; [exact X|]. exfalso. apply (No (S (t1 + d)) ltac:(lia)). apply at_within. eauto.
      + cbn [TicketProofs.R]. eexists. split; [apply after_gstep; exact Hq|]. intros h.
        destruct (Nat.eqb (fst (sched (t1 + d))) j); [|apply Gq].
        pose proof (looking_range w ew Hw n sched Hn i g _ IL) as B.
        destruct q as [| | |x|x|x|x v|x|x|x|v]; cbn [gkstep snd]; try (destruct (snd (sched (t1 + d)))); try (destruct (v =? _)%N); cbn [ghost];
          intros X; try discriminate X; try (injection X as <-; apply Gq; reflexivity).
        all: injection X as <-; lia. }
  destruct (K (t - t1) ltac:(lia)) as [IL (q & Hq & Gq)]. replace (t1 + (t - t1)) with t in * by lia.
  intros X. apply at_within in X. destruct X as [h X]. rewrite Hq in X. injection X as ->.
  specialize (Gq h eq_refl). pose proof (looking_range w ew Hw n sched Hn i g _ IL) as B.
  destruct (inv_R w ew Hw n sched Hn t) as (_ & _ & FR & _). pose proof (FR j _ h Hq eq_refl). lia.
Qed.

Lemma ticket_enters : fair n sched -> leaves Within n (ticket_run iw w ew n sched) ->
  forall i l t, ticket_waits l -> is_at l (ticket_run iw w ew n sched t) i ->
  exists t', t <= t' /\ is_at Within (ticket_run iw w ew n sched t') i.
Proof.
  intros F Lv i l t W At. rewrite ticket_run_R, is_at_gs in At by exact Hw. destruct At as (k & Hk & P).
  assert (LV : forall j g t, nth_error (folk (R t)) j = Some (GIn g) -> exists t', t <= t' /\ nth_error (folk (R t')) j <> Some (GIn g)).
  { intros j g u Hj. destruct (Lv j u) as (u' & Lu & Nu).
    - destruct (inv_R w ew Hw n sched Hn u) as (_ & _ & _ & L & _). rewrite <- L. apply nth_error_Some. congruence.
    - apply at_within. eauto.
    - exists u'. split; [exact Lu|]. intros X. apply Nu. apply at_within. eauto. }
  assert (LK : forall u g, t <= u -> looking i g (R u) -> exists t', t <= t' /\ is_at Within (ticket_run iw w ew n sched t') i).
  { intros u g Lu X. destruct (comes_in w ew Hw n sched Hn F LV i g u X) as (t' & L' & E). exists t'. split; [lia|]. apply at_within. eauto. }
  assert (DR : nth_error (folk (R t)) i = Some GDraw0 \/ nth_error (folk (R t)) i = Some GDraw1 -> exists t', t <= t' /\ is_at Within (ticket_run iw w ew n sched t') i).
  { intros X. destruct (draws w ew Hw n sched Hn F LV i t X) as (u & g & Lu & E). eauto. }
  destruct k as [| | |g|g|g|g v|g|g|g|v]; cbn in P; subst l.
  - destruct W as [|[? ?]]; discriminate.
  - auto.
  - auto.
  - apply (LK t g); [lia|]. eexists. split; [exact Hk|reflexivity].
  - apply (LK t g); [lia|]. eexists. split; [exact Hk|reflexivity].
  - apply (LK t g); [lia|]. eexists. split; [exact Hk|reflexivity].
  - apply (LK t g); [lia|]. eexists. split; [exact Hk|reflexivity].
  - destruct W as [|[? ?]]; discriminate.
  - destruct W as [|[? ?]]; discriminate.
  - destruct W as [|[? ?]]; discriminate.
  - destruct W as [|[? ?]]; discriminate.
Qed.
End Few.

(** Threads that end what they do of their own at once. *)
Lemma eager_ticket : fair n sched -> (forall t, snd (sched t) = true) -> leaves Within n (ticket_run iw w ew n sched).
Proof.
  intros F G i t Hi At. destruct (F i Hi t) as (t0 & L0 & E0). destruct (next_turn sched i t t0 L0 E0) as (t1 & L1 & E1 & N1).
  exists (S t1). split; [lia|]. apply at_within in At. destruct At as (g & Hk).
  assert (K : forall d, t + d <= t1 -> nth_error (folk (R (t + d))) i = Some (GIn g)).
  { induction d as [|d IH]; intros Ld; [now rewrite Nat.add_0_r|]. rewrite Nat.add_succ_r. cbn [TicketProofs.R].
    rewrite (after_gstep _ _ _ _ _ _ (IH ltac:(lia))). destruct (Nat.eqb_spec (fst (sched (t + d))) i) as [X|X]; [|reflexivity].
    exfalso. apply (N1 (t + d)); [lia|exact X]. }
  specialize (K (t1 - t) ltac:(lia)). replace (t + (t1 - t)) with t1 in K by lia.
  intros X. apply at_within in X. destruct X as (k & E). cbn [TicketProofs.R] in E. rewrite (after_gstep _ _ _ _ _ _ K), E1, Nat.eqb_refl, G in E. discriminate.
Qed.
End Ticket.

(** ** More threads than numbers *)
Section Many.
Variables (w : N) (n : nat).
Let M := N.to_nat (2 ^ w).
Hypothesis Hn : (2 ^ w < N.of_nat n)%N.
Definition crowded (t : nat) : nat * bool :=
  if t <? 4 * (M + 1) then (t / 4, true) else if t <? 4 * (M + 1) + 3 then (0, true) else (M, true).
Lemma gstep_mid D V a k b go i : i = length a ->
  gstep w (G D V (a ++ k :: b)) i go = (let '(D', V', k') := gkstep w D V k go in G D' V' (a ++ k' :: b)).
Proof.
  intros ->. unfold gstep. cbn [folk drawn served]. rewrite nth_error_app2, Nat.sub_diag by lia. cbn [nth_error].
  destruct (gkstep w D V k go) as [[D' V'] k']. f_equal. induction a as [|x a IH]; cbn; congruence.
Qed.
Definition looked (m : nat) : list gk := map (fun i => GLook0 (N.of_nat i)) (seq 0 m).
Lemma crowd_draws m : m <= M + 1 -> R w n crowded (4 * m) = G (N.of_nat m) 0 (looked m ++ repeat GOut (n - m)).
Proof.
  induction m as [|m IH]; intros L.
  - cbn. now rewrite Nat.sub_0_r.
  - replace (4 * S m) with (S (S (S (S (4 * m))))) by lia. cbn [R].
    assert (Q : forall r, r < 4 -> crowded (r + m * 4) = (m, true)).
    { intros r Hr. unfold crowded. destruct (Nat.ltb_spec (r + m * 4) (4 * (M + 1))) as [_|X]; [|lia].
      rewrite Nat.div_add, Nat.div_small by lia. reflexivity. }
    replace (4 * m) with (0 + m * 4) by lia. rewrite (Q 0) by lia.
    change (S (0 + m * 4)) with (1 + m * 4). rewrite (Q 1) by lia.
    change (S (1 + m * 4)) with (2 + m * 4). rewrite (Q 2) by lia.
    change (S (2 + m * 4)) with (3 + m * 4). rewrite (Q 3) by lia.
    replace (0 + m * 4) with (4 * m) by lia. rewrite IH by lia. cbn [fst snd].
    assert (0 < n - m) by (unfold M in L; lia). replace (n - m) with (S (n - S m)) by lia. cbn [repeat].
    assert (E : m = length (looked m)) by (unfold looked; now rewrite map_length, seq_length).
    do 4 (rewrite gstep_mid by exact E; cbn -[looked N.add N.of_nat]).
    unfold looked. rewrite seq_S, map_app, <- app_assoc. cbn [map app plus]. f_equal; lia.
Qed.
Lemma gsplit : looked (M + 1) = [GLook0 0] ++ map (fun i => GLook0 (N.of_nat i)) (seq 1 (M - 1)) ++ [GLook0 (2 ^ w)%N].
Proof.
  assert (M <> 0) by (unfold M; pose proof (N.pow_nonzero 2 w ltac:(lia)); lia).
  unfold looked. replace (M + 1) with (S (M - 1 + 1)) by lia. cbn [seq map app]. f_equal. rewrite seq_app, map_app. cbn [seq map].
  replace (1 + (M - 1)) with M by lia. unfold M. now rewrite N2Nat.id.
Qed.
Lemma ticket_crowd iw ew : (w <= ew)%N ->
  exists sched t i j, i <> j /\ is_at Within (ticket_run iw w ew n sched t) i /\ is_at Within (ticket_run iw w ew n sched t) j.
Proof.
  intros Hw. assert (M0 : M <> 0) by (unfold M; pose proof (N.pow_nonzero 2 w ltac:(lia)); lia).
  exists crowded, (S (S (S (S (S (S (4 * (M + 1)))))))), 0, M. split; [congruence|].
  rewrite !(ticket_run_R iw w ew Hw).
  enough (E : exists a b, R w n crowded (S (S (S (S (S (S (4 * (M + 1)))))))) = G (N.of_nat (M + 1)) 0 (GIn 0 :: a ++ GIn (2 ^ w) :: b) /\ length a = M - 1).
  { destruct E as (a & b & -> & La). split; apply is_at_gs; cbn [folk].
    - exists (GIn 0). auto.
    - exists (GIn (2 ^ w)). split; [|reflexivity]. change (GIn 0 :: a ++ GIn (2 ^ w) :: b) with ((GIn 0 :: a) ++ GIn (2 ^ w) :: b).
      rewrite nth_error_app2 by (cbn; lia). replace (M - length (GIn 0 :: a)) with 0 by (cbn; lia). reflexivity. }
  set (a := map (fun i => GLook0 (N.of_nat i)) (seq 1 (M - 1))). exists a, (repeat GOut (n - (M + 1))).
  assert (La : length a = M - 1) by (unfold a; now rewrite map_length, seq_length). split; [|exact La].
  assert (Q1 : forall r, r < 3 -> crowded (r + 4 * (M + 1)) = (0, true)).
  { intros r Hr. unfold crowded. destruct (Nat.ltb_spec (r + 4 * (M + 1)) (4 * (M + 1))) as [X|_]; [lia|].
    destruct (Nat.ltb_spec (r + 4 * (M + 1)) (4 * (M + 1) + 3)) as [_|X]; [reflexivity|lia]. }
  assert (Q2 : forall r, 3 <= r -> crowded (r + 4 * (M + 1)) = (M, true)).
  { intros r Hr. unfold crowded. destruct (Nat.ltb_spec (r + 4 * (M + 1)) (4 * (M + 1))) as [X|_]; [lia|].
    destruct (Nat.ltb_spec (r + 4 * (M + 1)) (4 * (M + 1) + 3)) as [X|_]; [lia|reflexivity]. }
  pose proof (crowd_draws (M + 1) ltac:(lia)) as E. rewrite gsplit in E. fold a in E. rewrite <- !app_assoc in E. cbn [app] in E.
  remember (4 * (M + 1)) as T eqn:ET. cbn [R].
  rewrite (Q1 0 ltac:(lia) : crowded T = _), (Q1 1 ltac:(lia) : crowded (S T) = _), (Q1 2 ltac:(lia) : crowded (S (S T)) = _).
  rewrite (Q2 3 ltac:(lia) : crowded (S (S (S T))) = _), (Q2 4 ltac:(lia) : crowded (S (S (S (S T)))) = _), (Q2 5 ltac:(lia) : crowded (S (S (S (S (S T))))) = _).
  rewrite E. cbn [fst snd]. pose proof (N.pow_nonzero 2 w ltac:(lia)) as P.
  assert (Z : (0 mod 2 ^ w)%N = 0%N) by (now apply N.mod_0_l).
  change (GLook0 0 :: a ++ GLook0 (2 ^ w) :: repeat GOut (n - (M + 1))) with ([] ++ GLook0 0 :: (a ++ GLook0 (2 ^ w) :: repeat GOut (n - (M + 1)))).
  rewrite gstep_mid by reflexivity. cbn [gkstep]. rewrite gstep_mid by reflexivity. cbn [gkstep]. rewrite gstep_mid by reflexivity. cbn [gkstep].
  rewrite N.eqb_refl. cbn [app].
  change (GIn 0 :: a ++ GLook0 (2 ^ w) :: repeat GOut (n - (M + 1))) with ((GIn 0 :: a) ++ GLook0 (2 ^ w) :: repeat GOut (n - (M + 1))).
  assert (LM : M = length (GIn 0 :: a)) by (cbn; lia).
  rewrite gstep_mid by exact LM. cbn [gkstep]. rewrite gstep_mid by exact LM. cbn [gkstep]. rewrite gstep_mid by exact LM. cbn [gkstep].
  rewrite N.mod_same, Z by exact P. reflexivity.
Qed.
End Many.
