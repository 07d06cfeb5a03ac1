(** Lemmas about atomic<T> for signed T, and runs in which nothing overflows. *)
From Verif Require Import Base BaseLemmas BitModel BitLemmas ConcModel ConcSpec ConcProofs AtomicModel AtomicSpec AtomicProofs AtomicSignedSpec.
From Coq Require Import Permutation.
Open Scope N_scope.

Lemma half w : 0 < w -> 2 ^ w = 2 * 2 ^ (w - 1).
Proof. intros H. rewrite <- N.pow_succ_r'. f_equal. lia. Qed.
Lemma top_bit w v : 0 < w -> v < 2 ^ w -> N.testbit v (w - 1) = negb (v <? 2 ^ (w - 1)).
Proof.
  intros Hw Hv. pose proof (half w Hw). rewrite N.testbit_odd, N.shiftr_div_pow2. pose proof (N.pow_nonzero 2 (w - 1) ltac:(lia)).
  pose proof (N.div_mod v (2 ^ (w - 1)) ltac:(lia)) as D. pose proof (N.mod_lt v (2 ^ (w - 1)) ltac:(lia)) as M.
  destruct (N.ltb_spec v (2 ^ (w - 1))).
  - rewrite N.div_small by lia. reflexivity.
  - replace (v / 2 ^ (w - 1)) with 1; [reflexivity|]. nia.
Qed.
Lemma value_signed w v : 0 < w -> v < 2 ^ w -> value w true v = signed w v.
Proof.
  intros Hw Hv. unfold value, signed. rewrite top_bit by assumption. cbn [andb]. destruct (v <? 2 ^ (w - 1)); cbn [negb]; [reflexivity|]. now rewrite N2Z.inj_pow.
Qed.
Lemma overflows_fits iw w x : 0 < w -> iw <= w -> overflows iw w true x = false <-> fits w x.
Proof.
  intros Hw Hi. unfold overflows, fits. destruct (N.leb_spec iw w); [|lia]. cbn [andb]. rewrite orb_false_iff, Z.ltb_ge, Z.leb_gt, N2Z.inj_pow.
  replace (Z.of_N (w - 1)) with (Z.of_N w - 1)%Z by lia. reflexivity.
Qed.
Lemma signed_1 w : 1 < w -> signed w 1 = 1%Z.
Proof. intros H. unfold signed. replace w with (N.succ (w - 1)) at 1 by lia. destruct (N.ltb_spec 1 (2 ^ (N.succ (w - 1) - 1))) as [L|L]; [reflexivity|].
  replace (N.succ (w - 1) - 1) with (N.succ (w - 2)) in L by lia. rewrite N.pow_succ_r' in L. pose proof (N.pow_nonzero 2 (w - 2) ltac:(lia)). lia. Qed.

Lemma one_call iw w op p f m : acode iw w w true true op = Do p (fun r => ret (to_t w) (f r)) ->
  run_threads w (acode iw w w true true) [0; 0; 0] m (start [[op]]) =
  match f (snd (exec_prim w p m)) with None => None | Some v => Some (fst (exec_prim w p m), [Thread None []], [Inv 0 op; Res 0 op (Some (wrap w v))]) end.
Proof.
  intros E. cbn -[acode exec_prim]. rewrite E. cbn -[exec_prim]. destruct (exec_prim w p m) as [m' r]. cbn [fst snd]. destruct (f r); reflexivity.
Qed.


(** ** The same calls where int is wider than everything *)
Section Wider.
Variables (iw w ew : N) (sg esg : bool).
Definition wide : N := N.max w ew + 1.
Notation code := (acode iw w ew sg esg).
Notation code' := (acode wide w ew sg esg).
Lemma plus_wide k s a b : k <= N.max w ew -> plus iw k s a b = None \/ plus iw k s a b = plus wide k s a b.
Proof.
  intros Hk. unfold plus. destruct (overflows iw k s _); [now left|right]. unfold overflows. destruct (N.leb_spec wide k) as [X|X]; [unfold wide in X; lia|]. now rewrite andb_false_r.
Qed.
Lemma minus_wide k s a b : k <= N.max w ew -> minus iw k s a b = None \/ minus iw k s a b = minus wide k s a b.
Proof.
  intros Hk. unfold minus. destruct (overflows iw k s _); [now left|right]. unfold overflows. destruct (N.leb_spec wide k) as [X|X]; [unfold wide in X; lia|]. now rewrite andb_false_r.
Qed.
(** A call of the one and of the other. *)
Definition alike (p q : prog (option N)) : Prop := p = Bad \/ p = q.
Definition likely (p q : prog (option N)) : Prop := exists pr k k', p = Do pr k /\ q = Do pr k' /\ forall r, alike (k r) (k' r).
Lemma ret_alike (f : N -> N) a b : a = None \/ a = b -> alike (ret f a) (ret f b).
Proof. intros [->| ->]; [now left|now right]. Qed.
Lemma code_likely op : likely (code op) (code' op).
Proof.
  destruct op; do 3 eexists; (split; [reflexivity|]); (split; [reflexivity|]); intros r; try (right; reflexivity); apply ret_alike; first [apply plus_wide|apply minus_wide]; lia.
Qed.
Definition sim (t t' : thread aop (option N)) : Prop :=
  todo t = todo t' /\
  match cur t, cur t' with
  | None, None => True
  | Some (op, p), Some (op', q) => op = op' /\ (alike p q \/ likely p q)
  | _, _ => False
  end.
Lemma Forall2_rd {A B} (P : A -> B -> Prop) l l' i : Forall2 P l l' -> match rd l i, rd l' i with Some x, Some y => P x y | None, None => True | _, _ => False end.
Proof.
  intros H. rewrite !rd_nth_error. generalize (N.to_nat i). induction H as [|x y l l' E H IH]; intros [|j]; cbn; auto. apply IH.
Qed.
Lemma Forall2_wr {A B} (P : A -> B -> Prop) l l' i x y m : Forall2 P l l' -> P x y -> wr l i x = Some m -> exists m', wr l' i y = Some m' /\ Forall2 P m m'.
Proof.
  intros H Pxy. unfold wr. assert (E : len l = len l') by (unfold len; f_equal; clear - H; induction H; cbn; congruence). rewrite <-E. destruct (i <? len l); [|discriminate]. intros [= <-]. eexists. split; [reflexivity|].
  generalize (N.to_nat i). clear E i. induction H as [|a b l l' E H IH]; intros [|j]; cbn [set_nth]; constructor; auto.
Qed.
Lemma sim_step i mem t t' mem1 t1 es : sim t t' -> tstep ew code i mem t = Some (mem1, t1, es) -> exists t1', tstep ew code' i mem t' = Some (mem1, t1', es) /\ sim t1 t1'.
Proof.
  destruct t as [c td], t' as [c' td']. intros [E S]. cbn [cur todo] in *. subst td'. unfold tstep. cbn [cur todo].
  destruct c as [[op p]|], c' as [[op' q]|]; try contradiction S.
  - destruct S as [<- S]. unfold alike in S. destruct S as [[->|E]|(pr & k & k' & -> & -> & K)]; [discriminate|subst q|].
    + destruct p as [o| |pr k]; [|discriminate|].
      * intros [= <- <- <-]. eexists. split; [reflexivity|]. split; [reflexivity|exact I].
      * destruct (exec_prim ew pr mem) as [m' r]. intros [= <- <- <-]. eexists. split; [reflexivity|]. split; [reflexivity|]. split; [reflexivity|]. left. now right.
    + destruct (exec_prim ew pr mem) as [m' r]. intros [= <- <- <-]. eexists. split; [reflexivity|]. split; [reflexivity|]. split; [reflexivity|]. left. apply K.
  - destruct td as [|op td]; intros [= <- <- <-]; (eexists; split; [reflexivity|]); (split; [reflexivity|]); cbn [cur]; try exact I. split; [reflexivity|]. right. apply code_likely.
Qed.
Lemma sim_run sched : forall mem ts ts' mem1 ts1 h, Forall2 sim ts ts' -> run_threads ew code sched mem ts = Some (mem1, ts1, h) ->
  exists ts1', run_threads ew code' sched mem ts' = Some (mem1, ts1', h) /\ Forall2 sim ts1 ts1'.
Proof.
  induction sched as [|i sched IH]; intros mem ts ts' mem1 ts1 h S E; cbn [run_threads] in *.
  - injection E as <- <- <-. eauto.
  - pose proof (Forall2_rd _ _ _ i S) as R. destruct (rd ts i) as [t|], (rd ts' i) as [t'|]; try contradiction R; [|eauto].
    destruct (tstep ew code i mem t) as [[[m2 t2] es]|] eqn:Et; [|discriminate]. destruct (sim_step _ _ _ _ _ _ _ R Et) as (t2' & -> & S2).
    destruct (wr ts i t2) as [ts2|] eqn:Ew; [|discriminate]. destruct (Forall2_wr _ _ _ _ _ _ _ S S2 Ew) as (ts2' & -> & S3).
    destruct (run_threads ew code sched m2 ts2) as [[[m3 ts3] h3]|] eqn:Er; [|discriminate]. injection E as <- <- <-.
    destruct (IH _ _ _ _ _ _ S3 Er) as (ts3' & -> & S4). eauto.
Qed.
Lemma sim_start programs : Forall2 sim (start programs) (start programs).
Proof. unfold start. induction programs; cbn [map]; constructor; [|assumption]. split; [reflexivity|exact I]. Qed.
Lemma sim_finished ts ts' : Forall2 sim ts ts' -> finished ts -> finished ts'.
Proof.
  intros S F. induction S as [|[c td] [c' td'] ts ts' [E S] _ IH]; [exact F|]. inversion F as [|? ? [F1 F2] F3]; subst. constructor; [|now apply IH]. cbn in *. subst. destruct c'; [contradiction S|auto].
Qed.
End Wider.

Section Defined.
Variables (iw w ew : N) (sg esg : bool).
Hypotheses (Hw : 0 < w) (Hew : w <= ew).
Lemma defined_linearizable sched mem m programs mem' ts' h : word_holds w ew mem m -> Forall (Forall (fun op => argument op < 2 ^ w)) programs ->
  run_threads ew (acode iw w ew sg esg) sched mem (start programs) = Some (mem', ts', h) ->
  exists m', word_holds w ew mem' m' /\ linearizable (aspec w) m h m' /\
    (finished ts' -> Permutation (map fst (responses h)) (concat programs) /\ exists order, Permutation order (responses h) /\ legal (aspec w) m order m').
Proof.
  intros HR Hp E. destruct (sim_run iw w ew sg esg sched mem _ _ mem' ts' h (sim_start _) E) as (ts1 & E1 & S1).
  destruct (threads_linearizable ew (acode (wide w ew) w ew sg esg) (aspec w) (call_ok (wide w ew) w ew sg esg) (word_holds w ew)) with (sched := sched) (mem := mem) (m := m) (programs := programs) as (mem2 & ts2 & h2 & m2 & E2 & R2 & L2 & F2).
  - intros op Hop. exact (single (wide w ew) w ew sg esg Hw Hew op Hop).
  - exact HR.
  - eapply Forall_impl; [|exact Hp]. intros p. apply Forall_impl. intros op Ha. split; [exact Ha|]. intros _. unfold wide. split; right; lia.
  - rewrite E1 in E2. injection E2 as <- <- <-. exists m2. split; [exact R2|]. split; [exact L2|]. intros F. apply F2. now apply (sim_finished ts').
Qed.
End Defined.

(** ** Counters that stay in range *)
Section Counter.
Variables (iw w : N).
Hypothesis Hw : 1 < w.
Notation code := (acode iw w w true true).
Definition okop (op : aop) : Prop := argument op < 2 ^ w /\ change w op <> None.
Lemma pow_half : 2 ^ w = 2 * 2 ^ (w - 1).
Proof. apply half. lia. Qed.
Lemma signed_bounds v : v < 2 ^ w -> fits w (signed w v).
Proof. intros H. pose proof pow_half. unfold signed, fits. destruct (N.ltb_spec v (2 ^ (w - 1))); lia. Qed.
(** The only value in range that is congruent to a sum is the sum. *)
Lemma signed_unique v x : v < 2 ^ w -> fits w x -> (exists q, Z.of_N v = x + q * Z.of_N (2 ^ w))%Z -> signed w v = x.
Proof.
  intros Hv Hx (q & E). pose proof pow_half as P. pose proof (signed_bounds v Hv) as B. clear B. unfold fits in *. unfold signed. rewrite P in *. generalize dependent (2 ^ (w - 1)). intros H Hv Hx E _. rewrite N2Z.inj_mul in *. change (Z.of_N 2) with 2%Z in *.
  destruct (N.ltb_spec v H).
  - assert (q = 0)%Z by nia. subst q. lia.
  - assert (q = 1)%Z by nia. subst q. lia.
Qed.
Lemma signed_cong v : exists q, (Z.of_N v = signed w v + q * Z.of_N (2 ^ w))%Z.
Proof. unfold signed. destruct (v <? 2 ^ (w - 1)); [exists 0%Z|exists 1%Z]; lia. Qed.
Lemma mod_cong a : exists q, (Z.of_N (a mod 2 ^ w) = Z.of_N a + q * Z.of_N (2 ^ w))%Z.
Proof. pose proof (N.pow_nonzero 2 w ltac:(lia)). pose proof (N.div_mod a (2 ^ w) ltac:(lia)). exists (- Z.of_N (a / 2 ^ w))%Z. nia. Qed.
Lemma signed_add m v : fits w (signed w m + signed w v) -> signed w ((m + v) mod 2 ^ w) = (signed w m + signed w v)%Z.
Proof.
  intros F. pose proof (N.pow_nonzero 2 w ltac:(lia)). apply signed_unique; [apply N.mod_lt; lia|exact F|].
  destruct (mod_cong (m + v)) as (q & E), (signed_cong m) as (q1 & E1), (signed_cong v) as (q2 & E2). exists (q + q1 + q2)%Z. rewrite E, N2Z.inj_add. nia.
Qed.
Lemma signed_sub m v : v < 2 ^ w -> fits w (signed w m - signed w v) -> signed w ((m + (2 ^ w - v)) mod 2 ^ w) = (signed w m - signed w v)%Z.
Proof.
  intros Hv F. pose proof (N.pow_nonzero 2 w ltac:(lia)). apply signed_unique; [apply N.mod_lt; lia|exact F|].
  destruct (mod_cong (m + (2 ^ w - v))) as (q & E), (signed_cong m) as (q1 & E1), (signed_cong v) as (q2 & E2). exists (q + q1 - q2 + 1)%Z. rewrite E, N2Z.inj_add, N2Z.inj_sub by lia. nia.
Qed.
(** A call whose change keeps the value in range is defined and makes that change. *)
Lemma change_ok op m d : okop op -> change w op = Some d -> m < 2 ^ w -> fits w (signed w m + d) ->
  exists p k o, code op = Do p k /\ k (snd (exec_prim w p m)) = Ret o /\ fst (exec_prim w p m) < 2 ^ w /\ signed w (fst (exec_prim w p m)) = (signed w m + d)%Z.
Proof.
  intros [Ha _] Hd Hm F. pose proof pow_half as P. assert (T : 1 < 2 ^ w) by (apply N.pow_gt_1; lia).
  assert (Te : forall v, v < 2 ^ w -> wrap w (to_elem w w true v) = v).
  { intros v Hv. unfold to_elem, wrap. destruct (true && _); [|now apply N.mod_small]. replace (v + 2 ^ w - 2 ^ w) with v by lia. rewrite N.mod_mod by lia. now apply N.mod_small. }
  assert (S1 : signed w 1 = 1%Z) by now apply signed_1.
  assert (Pl : forall b, b < 2 ^ w -> fits w (signed w m + signed w b) -> exists v, plus iw w true m b = Some v).
  { intros b Hb Fb. unfold plus. rewrite !value_signed by (try assumption; lia). destruct (N.leb_spec iw w) as [Hi|Hi].
    - rewrite (proj2 (overflows_fits iw w _ ltac:(lia) Hi) Fb). eauto.
    - unfold overflows. destruct (N.leb_spec iw w); [lia|]. cbn [andb]. eauto. }
  assert (Mi : forall b, b < 2 ^ w -> fits w (signed w m - signed w b) -> exists v, minus iw w true m b = Some v).
  { intros b Hb Fb. unfold minus. rewrite !value_signed by (try assumption; lia). destruct (N.leb_spec iw w) as [Hi|Hi].
    - rewrite (proj2 (overflows_fits iw w _ ltac:(lia) Hi) Fb). eauto.
    - unfold overflows. destruct (N.leb_spec iw w); [lia|]. cbn [andb]. eauto. }
  assert (W : wrap w m = m) by now apply N.mod_small. assert (W1 : wrap w 1 = 1) by now apply N.mod_small.
  assert (Md : forall a, a mod 2 ^ w < 2 ^ w) by (intros a; apply N.mod_lt; lia).
  assert (Ad : forall b, b < 2 ^ w -> fits w (signed w m + signed w b) -> wrap w (m + b) < 2 ^ w /\ signed w (wrap w (m + b)) = (signed w m + signed w b)%Z) by (intros b Hb Fb; split; [apply Md|now apply signed_add]).
  assert (Sb : forall b, b < 2 ^ w -> fits w (signed w m - signed w b) -> wrap w (m + 2 ^ w - b) < 2 ^ w /\ signed w (wrap w (m + 2 ^ w - b)) = (signed w m - signed w b)%Z).
  { intros b Hb Fb. split; [apply Md|]. unfold wrap. replace (m + 2 ^ w - b) with (m + (2 ^ w - b)) by lia. now apply signed_sub. }
  destruct op as [|v|v|v|v|v|v|v| | | | |v|v|v|v|v|v]; try discriminate Hd; cbn [argument] in Ha; injection Hd as <-; unfold acode, to_t; do 2 eexists.
  - exists (Some m). split; [reflexivity|]. cbn [exec_prim fst snd]. rewrite W, Z.add_0_r. auto.
  - exists (Some m). split; [reflexivity|]. cbn [exec_prim fst snd]. rewrite W, Te by assumption. auto.
  - exists (Some m). split; [reflexivity|]. cbn [exec_prim fst snd]. rewrite W, Te by assumption. replace (signed w m + - signed w v)%Z with (signed w m - signed w v)%Z in * by lia. auto.
  - destruct (Pl v Ha F) as (y & Y). exists (Some (wrap w y)). split; [reflexivity|]. cbn [exec_prim fst snd]. rewrite W, Te, Y by assumption. cbn [ret]. auto.
  - replace (signed w m + - signed w v)%Z with (signed w m - signed w v)%Z in * by lia. destruct (Mi v Ha F) as (y & Y). exists (Some (wrap w y)). split; [reflexivity|]. cbn [exec_prim fst snd]. rewrite W, Te, Y by assumption. cbn [ret]. auto.
  - rewrite <-S1 in F |- *. destruct (Pl 1 T F) as (y & Y). exists (Some (wrap w y)). split; [reflexivity|]. cbn [exec_prim fst snd]. rewrite W1, Y by assumption. cbn [ret]. auto.
  - rewrite <-S1 in F |- *. exists (Some m). split; [reflexivity|]. cbn [exec_prim fst snd]. rewrite W, W1 by assumption. auto.
  - replace (signed w m + -1)%Z with (signed w m - signed w 1)%Z in * by lia. destruct (Mi 1 T F) as (y & Y). exists (Some (wrap w y)). split; [reflexivity|]. cbn [exec_prim fst snd]. rewrite W1, Y by assumption. cbn [ret]. auto.
  - replace (signed w m + -1)%Z with (signed w m - signed w 1)%Z in * by lia. exists (Some m). split; [reflexivity|]. cbn [exec_prim fst snd]. rewrite W, W1 by assumption. auto.
Qed.
(** What is still to come. *)
Definition todo1 (t : thread aop (option N)) : list aop := match cur t with Some (op, Do _ _) => [op] | _ => [] end ++ todo t.
Definition good1 (t : thread aop (option N)) : Prop :=
  Forall okop (todo t) /\ match cur t with None => True | Some (op, Ret _) => True | Some (op, p) => okop op /\ p = code op end.
Definition inv (c : Z) (m : N) (ts : list (thread aop (option N))) : Prop :=
  let l := flat_map todo1 ts in
  m < 2 ^ w /\ Forall good1 ts /\ (signed w m + net w l = c)%Z /\ (signed w m + ups w l < Z.of_N (2 ^ (w - 1)))%Z /\ (- Z.of_N (2 ^ (w - 1)) <= signed w m + downs w l)%Z.
Lemma total_cons f op d l : change w op = Some d -> total f w (op :: l) = (f d + total f w l)%Z.
Proof. intros E. unfold total. cbn [fold_right]. now rewrite E. Qed.
Lemma total_app f a b : total f w (a ++ b) = (total f w a + total f w b)%Z.
Proof. unfold total. induction a as [|op a IH]; cbn [app fold_right]; [lia|]. rewrite IH. destruct (change w op); lia. Qed.
Lemma total_perm' f a b : Permutation a b -> total f w a = total f w b.
Proof.
  intros H. unfold total. induction H; cbn [fold_right]; [reflexivity| | |congruence].
  - destruct (change w x); rewrite IHPermutation; reflexivity.
  - destruct (change w x), (change w y); lia.
Qed.
Lemma ups_pos l : (0 <= ups w l)%Z.
Proof. unfold ups, total. induction l as [|op l IH]; cbn [fold_right]; [lia|]. destruct (change w op); lia. Qed.
Lemma downs_neg l : (downs w l <= 0)%Z.
Proof. unfold downs, total. induction l as [|op l IH]; cbn [fold_right]; [lia|]. destruct (change w op); lia. Qed.
Lemma good_rd ts i t : Forall good1 ts -> rd ts i = Some t -> good1 t.
Proof. intros H E. rewrite rd_nth_error in E. apply nth_error_In in E. rewrite Forall_forall in H. auto. Qed.
(** A step that leaves the list of what is to come as it is. *)
Lemma inv_same c m ts i t t' ts' : inv c m ts -> rd ts i = Some t -> wr ts i t' = Some ts' -> good1 t' -> todo1 t' = todo1 t -> inv c m ts'.
Proof.
  intros (H1 & H2 & H3 & H4 & H5) R Wr G E. destruct (flat_map_perm todo1 ts i t t' ts' R Wr) as (r & P1 & P2). rewrite E in P2.
  assert (P : Permutation (flat_map todo1 ts') (flat_map todo1 ts)) by (rewrite P2, P1; reflexivity).
  unfold inv, net, ups, downs in *. rewrite !(total_perm' _ _ _ P). repeat split; try assumption. exact (Forall_wr _ _ _ _ _ H2 G Wr).
Qed.
Lemma inv_run c sched : forall m ts, inv c m ts -> exists m' ts' h, run_threads w code sched m ts = Some (m', ts', h) /\ inv c m' ts'.
Proof.
  induction sched as [|i sched IH]; intros m ts I; cbn [run_threads]; [eauto 8|].
  destruct (rd ts i) as [t|] eqn:R; [|eauto]. assert (G : good1 t) by (eapply good_rd; [apply I|exact R]).
  assert (Step : exists m1 t1 es, tstep w code i m t = Some (m1, t1, es) /\ forall ts1, wr ts i t1 = Some ts1 -> inv c m1 ts1).
  { destruct t as [cu td]. destruct G as [Gt Gc]. cbn [cur todo] in *. unfold tstep. cbn [cur todo]. destruct cu as [[op p]|].
    - destruct p as [o| |p k].
      + do 3 eexists. split; [reflexivity|]. intros ts1 Wr. eapply inv_same; [exact I|exact R|exact Wr|split; [exact Gt|exact Logic.I]|reflexivity].
      + destruct Gc as [_ X]. destruct op; discriminate X.
      + destruct Gc as [Ok X]. destruct (change w op) as [d|] eqn:Ed; [|exfalso; apply (proj2 Ok), Ed].
        assert (B : forall l, Permutation (flat_map todo1 ts) (op :: l) -> fits w (signed w m + d)).
        { intros l P. destruct I as (_ & _ & _ & U & D). unfold ups, downs in *. rewrite (total_perm' (Z.max 0) _ _ P) in U. rewrite (total_perm' (Z.min 0) _ _ P) in D. rewrite (total_cons (Z.max 0) _ _ _ Ed) in U. rewrite (total_cons (Z.min 0) _ _ _ Ed) in D.
          pose proof (ups_pos l) as X1. pose proof (downs_neg l) as X2. unfold ups, downs in *. unfold fits. clear - U D X1 X2. generalize dependent (total (Z.max 0) w l). generalize dependent (total (Z.min 0) w l). generalize dependent (Z.of_N (2 ^ (w - 1))). intros. lia. }
        assert (Perm : forall t1 ts1, todo1 t1 = td -> wr ts i t1 = Some ts1 -> exists l, Permutation (flat_map todo1 ts) (op :: l) /\ Permutation (flat_map todo1 ts1) l).
        { intros t1 ts1 E Wr. destruct (flat_map_perm todo1 ts i _ t1 ts1 R Wr) as (r & P1 & P2). exists (td ++ r). rewrite E in P2. split; [exact P1|exact P2]. }
        assert (F : fits w (signed w m + d)).
        { destruct (wr_rd_Some ts i _ (Thread None td) R) as (ts1 & Wr). destruct (Perm (Thread None td) ts1 eq_refl Wr) as (l & P & _). eapply B, P. }
        destruct (change_ok op m d Ok Ed (proj1 I) F) as (p' & k' & o & Ec & Ek & Lt & Sg). rewrite <-X in Ec. injection Ec as <- <-.
        destruct (exec_prim w p m) as [m1 r]. cbn [fst snd] in *. do 3 eexists. split; [reflexivity|]. rewrite Ek. intros ts1 Wr.
        destruct (Perm (Thread (Some (op, Ret o)) td) ts1 eq_refl Wr) as (l & P1 & P2). destruct I as (I1 & I2 & I3 & I4 & I5).
        unfold inv, net, ups, downs in *. rewrite (total_perm' (fun d => d) _ _ P1) in I3. rewrite (total_perm' (Z.max 0) _ _ P1) in I4. rewrite (total_perm' (Z.min 0) _ _ P1) in I5. rewrite !(total_perm' _ _ _ P2), Sg. rewrite (total_cons (fun d => d) _ _ _ Ed) in I3. rewrite (total_cons (Z.max 0) _ _ _ Ed) in I4. rewrite (total_cons (Z.min 0) _ _ _ Ed) in I5.
        split; [exact Lt|]. split; [apply (Forall_wr _ _ _ _ _ I2) in Wr; [exact Wr|split; [exact Gt|exact Logic.I]]|].
        split; [lia|]. clear - I4 I5. generalize dependent (total (Z.max 0) w l). generalize dependent (total (Z.min 0) w l). generalize dependent (Z.of_N (2 ^ (w - 1))). intros. split; lia.
    - destruct td as [|op td].
      + do 3 eexists. split; [reflexivity|]. intros ts1 Wr. eapply inv_same; [exact I|exact R|exact Wr|split; [exact Gt|exact Logic.I]|reflexivity].
      + do 3 eexists. split; [reflexivity|]. intros ts1 Wr. inversion Gt; subst. eapply inv_same; [exact I|exact R|exact Wr| |].
        * split; [assumption|]. cbn [cur]. destruct (acode iw w w true true op) eqn:Ec; auto.
        * unfold todo1. cbn [cur todo]. destruct op; reflexivity. }
  destruct Step as (m1 & t1 & es & E & K). rewrite E. destruct (wr_rd_Some ts i _ t1 R) as (ts1 & Wr). rewrite Wr.
  destruct (IH m1 ts1 (K ts1 Wr)) as (m2 & ts2 & h & -> & I2). eauto 8.
Qed.
Lemma counter_run sched m programs : m < 2 ^ w -> Forall (Forall okop) programs ->
  (signed w m + ups w (concat programs) < Z.of_N (2 ^ (w - 1)))%Z -> (- Z.of_N (2 ^ (w - 1)) <= signed w m + downs w (concat programs))%Z ->
  exists m' ts' h, run_threads w code sched m (start programs) = Some (m', ts', h) /\ (finished ts' -> m' < 2 ^ w /\ signed w m' = (signed w m + net w (concat programs))%Z).
Proof.
  intros Hm Ok U D. assert (S0 : flat_map todo1 (start programs) = concat programs) by (clear; unfold start; induction programs as [|p ps IH]; cbn [map flat_map concat]; [reflexivity|]; now rewrite IH).
  destruct (inv_run (signed w m + net w (concat programs))%Z sched m (start programs)) as (m' & ts' & h & E & I).
  - unfold inv. rewrite S0. repeat split; try assumption. clear - Ok. unfold start. induction Ok as [|p ps H Ok IH]; cbn [map]; constructor; [|exact IH]. split; [exact H|exact I].
  - exists m', ts', h. split; [exact E|]. intros F. destruct I as (I1 & _ & I3 & _). split; [exact I1|].
    assert (E0 : flat_map todo1 ts' = []). { clear - F. induction F as [|t ts [A B] _ IH]; [reflexivity|]. cbn [flat_map]. unfold todo1 at 1. now rewrite A, B, IH. }
    rewrite E0 in I3. unfold net at 1, total at 1 in I3. cbn [fold_right] in I3. lia.
Qed.
End Counter.
