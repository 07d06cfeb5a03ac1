(** Proofs about shared latched and cached values. *)
From Verif Require Import Base LatchedModel LatchedSpec LatchedProofs LatchThreadModel LatchThreadSpec.

Section P.
Context {V : Type}.
Variable out : nat -> option V.
Implicit Types (t u : thread V) (l : list (thread V)).

Lemma put_same : forall l i t, i < length l -> nth_error (put l i t) i = Some t.
Proof. induction l as [|x l IH]; intros [|i] t H; cbn in *; try lia; [reflexivity|apply IH; lia]. Qed.
Lemma put_other : forall l i j t, i <> j -> nth_error (put l i t) j = nth_error l j.
Proof. induction l as [|x l IH]; intros [|i] [|j] t H; cbn; try reflexivity; try congruence. apply IH. congruence. Qed.
Lemma put_length : forall l i t, length (put l i t) = length l.
Proof. induction l as [|x l IH]; intros [|i] t; cbn; try reflexivity. now rewrite IH. Qed.
Lemma put_put : forall l i t u, put (put l i t) i u = put l i u.
Proof. induction l as [|x l IH]; intros [|i] t u; cbn; try reflexivity. now rewrite IH. Qed.
Lemma put_id : forall l i t, nth_error l i = Some t -> put l i t = l.
Proof. induction l as [|x l IH]; intros [|i] t H; cbn in *; try reflexivity; [now injection H as ->|now rewrite IH]. Qed.
Lemma nth_lt : forall l i t, nth_error l i = Some t -> i < length l.
Proof. intros l i t H. apply nth_error_Some. congruence. Qed.
Lemma put_cases : forall l i j t u, nth_error (put l i t) j = Some u -> (i = j /\ u = t) \/ (i <> j /\ nth_error l j = Some u).
Proof.
  intros l i j t u H. destruct (Nat.eq_dec i j) as [->|N].
  - left. split; [reflexivity|]. rewrite put_same in H; [congruence|]. rewrite <- (put_length l j t). eapply nth_lt, H.
  - right. rewrite put_other in H by exact N. auto.
Qed.
Lemma run_app : forall a b s, run out s (a ++ b) = match run out s a with Some s' => run out s' b | None => None end.
Proof. induction a as [|i a IH]; intros b s; cbn; [reflexivity|]. destruct (sys_step out s i); [apply IH|reflexivity]. Qed.

(** ** Invariants *)
Section Inv.
Variable I : memory V -> list (thread V) -> Prop.
Hypothesis keeps : forall m l i t, I m l -> nth_error l i = Some t -> exists m' t', step1 out m t = Some (m', t') /\ I m' (put l i t').
Lemma run_inv : forall sched s, I (fst s) (snd s) -> exists s', run out s sched = Some s' /\ I (fst s') (snd s').
Proof.
  induction sched as [|i r IH]; intros s H; cbn; [eauto|]. unfold sys_step. destruct (nth_error (snd s) i) as [t|] eqn:E; [|apply IH, H].
  destruct (keeps _ _ _ _ H E) as (m' & t' & -> & K). apply IH. exact K.
Qed.
End Inv.

(** No call changes anything. *)
Definition quiet (h : option V) (t : thread V) : Prop :=
  Forall (fun o => changes h o = false) (todo t) /\ (at_ t = Start \/ at_ t = Load /\ (exists r, todo t = Access :: r) /\ h <> None).
Lemma quiet_step : forall h m t, held m = h -> quiet h t -> exists t', step1 out m t = Some (m, t') /\ quiet h t'.
Proof.
  intros h m [p [|o r] rs] E (F & K); unfold step1; cbn [todo at_] in *; [exists (Thread p [] rs); split; [reflexivity|split; assumption]|].
  inversion_clear F as [|? ? F0 F1]. unfold changes in F0.
  destruct K as [->|(-> & (r' & K) & N)].
  - destruct o; try discriminate.
    + unfold test. rewrite E. destruct h as [v|]; [|discriminate]. eexists. split; [reflexivity|]. split; [constructor; [reflexivity|exact F1]|].
      right. cbn. repeat split; [eauto|discriminate].
    + eexists. split; [reflexivity|]. split; [exact F1|]. left. reflexivity.
  - rewrite E. destruct h as [v|]; [|congruence]. injection K as -> _. eexists. split; [reflexivity|]. split; [exact F1|left; reflexivity].
Qed.
Lemma quiet_access : forall h t, quiet h t -> next_access t <> Writes.
Proof.
  intros h [p [|o r] rs] (F & K); unfold next_access; cbn [todo at_] in *; [discriminate|]. inversion_clear F as [|? ? F0 F1].
  destruct K as [->|(-> & _)]; [destruct o; discriminate|discriminate].
Qed.
Lemma quiet_safe : forall h progs, (forall i p, nth_error progs i = Some p -> Forall (fun o => changes h o = false) p) -> safe out (begin h progs).
Proof.
  intros h progs H sched. destruct (run_inv (fun m l => held m = h /\ forall i t, nth_error l i = Some t -> quiet h t)) with (sched := sched) (s := begin h progs) as (s' & R & _ & Q).
  - intros m l i t (E & Q) T. destruct (quiet_step h m t E (Q _ _ T)) as (t' & S & Q'). exists m, t'. split; [exact S|]. split; [exact E|].
    intros j u U. apply put_cases in U. destruct U as [(-> & ->)|(_ & U)]; [exact Q'|eapply Q, U].
  - split; [reflexivity|]. intros i t T. cbn [begin snd] in T. rewrite nth_error_map in T. destruct (nth_error progs i) as [p|] eqn:P; [|discriminate].
    injection T as <-. split; [exact (H _ _ P)|left; reflexivity].
  - exists s'. split; [exact R|]. intros (i & j & t & u & _ & T & _ & W & _). exact (quiet_access _ _ (Q _ _ T) W).
Qed.

(** Only one thread makes calls. *)
Definition sound (m : memory V) (t : thread V) : Prop := at_ t = Load -> held m <> None.
Lemma sound_step : forall m t, sound m t -> exists m' t', step1 out m t = Some (m', t') /\ sound m' t'.
Proof.
  intros m [p [|o r] rs] H; unfold step1; cbn [todo at_] in *; [eauto|]. unfold sound in *. cbn [at_] in H.
  destruct p as [| | | |v|]; [destruct o| | | | |]; try (eexists _, _; split; [reflexivity|]; unfold test; cbn; try congruence; destruct (held m); cbn; congruence).
  - eexists _, _. split; [reflexivity|]. destruct (out (calls m)); cbn; congruence.
  - destruct (held m) as [v|]; [|exfalso; now apply H]. eexists _, _. split; [reflexivity|]. cbn. discriminate.
Qed.
Lemma alone_safe : forall h progs i, (forall j q, j <> i -> nth_error progs j = Some q -> q = []) -> safe out (begin h progs).
Proof.
  intros h progs i H sched.
  destruct (run_inv (fun m l => (forall t, nth_error l i = Some t -> sound m t) /\ (forall j t, j <> i -> nth_error l j = Some t -> todo t = [])))
    with (sched := sched) (s := begin h progs) as (s' & R & _ & Q).
  - intros m l k t (S & Q) T. destruct (Nat.eq_dec k i) as [->|N].
    + destruct (sound_step m t (S _ T)) as (m' & t' & E & S'). exists m', t'. split; [exact E|]. split.
      * intros u U. rewrite put_same in U by (eapply nth_lt, T). injection U as <-. exact S'.
      * intros j u N U. rewrite put_other in U by congruence. eapply Q; eassumption.
    + pose proof (Q _ _ N T) as E. exists m, t. unfold step1. rewrite E. split; [reflexivity|]. rewrite (put_id _ _ _ T). split; assumption.
  - cbn [begin fst snd]. split.
    + intros t T. rewrite nth_error_map in T. destruct (nth_error progs i) as [p|] eqn:P; [|discriminate]. injection T as <-. unfold sound. cbn. discriminate.
    + intros j t N T. rewrite nth_error_map in T. destruct (nth_error progs j) as [p|] eqn:P; [|discriminate]. injection T as <-. cbn. exact (H _ _ N P).
  - exists s'. split; [exact R|]. intros (j & k & t & u & N & T & U & W & A). unfold next_access in W, A. destruct (Nat.eq_dec j i) as [->|M].
    + rewrite (Q k u (not_eq_sym N) U) in A. destruct A; discriminate.
    + rewrite (Q j t M T) in W. discriminate.
Qed.

Lemma find_change : forall (h : option V) (progs : list (list op)),
  (exists i p o, nth_error progs i = Some p /\ In o p /\ changes h o = true) \/ (forall i p, nth_error progs i = Some p -> Forall (fun o => changes h o = false) p).
Proof.
  intros h. induction progs as [|p r IH]; [right; intros [|i] p; discriminate|].
  destruct (existsb (changes h) p) eqn:E.
  - left. apply existsb_exists in E. destruct E as (o & I & C). exists 0, p, o. auto.
  - destruct IH as [(i & q & o & K)|K]; [left; exists (S i), q, o; exact K|right]. intros [|i] q Q; [|exact (K _ _ Q)]. injection Q as <-.
    apply Forall_forall. intros o I. destruct (changes h o) eqn:C; [|reflexivity]. rewrite <- E. symmetry. apply existsb_exists. eauto.
Qed.
Lemma no_conflict_safe : forall h progs, ~ conflict h progs -> safe out (begin h progs).
Proof.
  intros h progs H. destruct (find_change h progs) as [(i & p & o & P & I & C)|K]; [|apply quiet_safe, K].
  apply alone_safe with (i := i). intros j q N Q. destruct q as [|o' q]; [reflexivity|]. exfalso. apply H. exists i, j, p, (o' :: q), o.
  repeat split; try assumption; congruence.
Qed.

(** ** To a race *)
Lemma go_step : forall h l i t t', nth_error l i = Some t -> step1 out (Memory h 0) t = Some (Memory h 0, t') ->
  sys_step out (Memory h 0, l) i = Some (Memory h 0, put l i t').
Proof. intros h l i t t' T S. unfold sys_step. cbn [fst snd]. now rewrite T, S. Qed.
Lemma to_change : forall h i pre o post rs l, nth_error l i = Some (Thread Start (pre ++ o :: post) rs) ->
  Forall (fun o => changes h o = false) pre -> changes h o = true ->
  exists sched t, run out (Memory h 0, l) sched = Some (Memory h 0, put l i t) /\ next_access t = Writes.
Proof.
  intros h i. induction pre as [|x pre IH]; intros o post rs l T F C.
  - cbn [app] in T. unfold changes in C. destruct o.
    + destruct h as [v|]; [discriminate|]. exists [i], (Thread Clear (Access :: post) rs). split; [|reflexivity]. cbn [run].
      rewrite (go_step None _ _ _ (Thread Clear (Access :: post) rs) T eq_refl). reflexivity.
    + discriminate.
    + exists [], (Thread Start (Reset :: post) rs). cbn. rewrite (put_id _ _ _ T). auto.
    + exists [], (Thread Start (Refresh :: post) rs). cbn. rewrite (put_id _ _ _ T). auto.
  - inversion_clear F as [|? ? F0 F1]. cbn [app] in T. unfold changes in F0. pose proof (nth_lt _ _ _ T) as LT. destruct x; try discriminate.
    + destruct h as [v|]; [|discriminate]. set (t1 := Thread Load (Access :: pre ++ o :: post) rs). set (t2 := Thread Start (pre ++ o :: post) (rs ++ [Got v])).
      destruct (IH o post (rs ++ [Got v]) (put (put l i t1) i t2)) as (sched & t & R & W); [apply put_same; now rewrite put_length|exact F1|exact C|].
      exists (i :: i :: sched), t. split; [|exact W]. cbn [run]. rewrite (go_step (Some v) _ _ _ t1 T eq_refl).
      rewrite (go_step (Some v) _ _ t1 t2 (put_same _ _ _ LT) eq_refl), R. now rewrite !put_put.
    + set (t2 := Thread Start (pre ++ o :: post) (rs ++ [Says (match h with Some _ => true | None => false end)])).
      destruct (IH o post (rs ++ [Says (match h with Some _ => true | None => false end)]) (put l i t2)) as (sched & t & R & W); [now apply put_same|exact F1|exact C|].
      exists (i :: sched), t. split; [|exact W]. cbn [run]. rewrite (go_step h _ _ _ t2 T eq_refl), R. now rewrite put_put.
Qed.
Lemma first_change : forall (h : option V) p o, In o p -> changes h o = true ->
  exists pre o' post, p = pre ++ o' :: post /\ Forall (fun o => changes (V := V) h o = false) pre /\ changes h o' = true.
Proof.
  intros h. induction p as [|x p IH]; intros o I C; [contradiction|]. destruct (changes h x) eqn:E.
  - exists [], x, p. auto.
  - destruct I as [->|I]; [congruence|]. destruct (IH o I C) as (pre & o' & post & -> & F & K). exists (x :: pre), o', post. auto.
Qed.
Lemma conflict_races : forall h progs, conflict h progs -> exists sched s', run out (begin h progs) sched = Some s' /\ races s'.
Proof.
  intros h progs (i & j & p & q & o & N & P & Q & I & C & NE). destruct (first_change h p o I C) as (pre & o' & post & -> & F & K).
  assert (T : nth_error (snd (begin h progs)) i = Some (Thread Start (pre ++ o' :: post) [])) by (cbn [begin snd]; now rewrite nth_error_map, P).
  destruct (to_change h i pre o' post [] _ T F K) as (sched & t & R & W). exists sched, (Memory h 0, put (snd (begin h progs)) i t).
  split; [exact R|]. exists i, j, t, (Thread Start q []). cbn [snd]. repeat split.
  - exact N.
  - apply put_same. eapply nth_lt, T.
  - rewrite put_other by exact N. cbn [begin snd]. now rewrite nth_error_map, Q.
  - exact W.
  - destruct q as [|[] q]; [congruence|cbn; auto..].
Qed.
Lemma safe_iff : forall h progs, safe out (begin h progs) <-> ~ conflict h progs.
Proof.
  split; [|apply no_conflict_safe]. intros S C. destruct (conflict_races _ _ C) as (sched & s' & R & X). destruct (S sched) as (s2 & R2 & Y). congruence.
Qed.

(** ** A value that is there *)
Definition at_calls (v : V) (p : list op) (t : thread V) : Prop :=
  exists k, k <= length p /\ todo t = skipn k p /\ results t = firstn k (steady v p) /\ (at_ t = Start \/ at_ t = Load /\ nth_error p k = Some Access).
Definition left (t : thread V) : nat := 2 * length (todo t) - match at_ t with Load => 1 | _ => 0 end.
Lemma firstn_snoc : forall A (x : list A) k a, nth_error x k = Some a -> firstn (S k) x = firstn k x ++ [a].
Proof. induction x as [|b x IH]; intros [|k] a H; cbn in *; try discriminate; [now injection H as ->|f_equal; now apply IH]. Qed.
Lemma skipn_nth : forall A (x : list A) k a r, skipn k x = a :: r -> nth_error x k = Some a /\ skipn (S k) x = r /\ k < length x.
Proof.
  induction x as [|b x IH]; intros [|k] a r H; cbn in *; try discriminate; [injection H as -> ->; repeat split; lia|].
  destruct (IH k a r H) as (E & F & G). repeat split; [exact E|exact F|lia].
Qed.
Lemma steady_step : forall v p m t, Forall (fun o => is_const o = true) p -> held m = Some v -> at_calls v p t ->
  exists t', step1 out m t = Some (m, t') /\ at_calls v p t' /\ left t' <= left t - 1.
Proof.
  intros v p m [ph td rs] F H (k & L & T & R & K). cbn [todo results at_] in *. unfold step1. cbn [todo at_].
  destruct td as [|o td].
  { eexists. split; [reflexivity|]. split; [exists k; auto|]. unfold left. cbn. destruct ph; lia. }
  symmetry in T. destruct (skipn_nth _ _ _ _ _ T) as (E & T' & L').
  assert (C : is_const o = true) by (exact (proj1 (Forall_forall _ _) F _ (nth_error_In _ _ E))).
  assert (N : nth_error (steady v p) k = Some (match o with HasValue => Says true | _ => Got v end)).
  { unfold steady. rewrite nth_error_map, E. reflexivity. }
  destruct K as [->|(-> & K)].
  - destruct o; try discriminate.
    + unfold test. rewrite H. eexists. split; [reflexivity|]. split; [|unfold left; cbn; lia]. exists k. cbn. repeat split; auto.
    + rewrite H. eexists. split; [reflexivity|]. split; [|unfold left; cbn; lia]. exists (S k). cbn [ends todo results at_ tl].
      repeat split; [lia|now rewrite T'|now rewrite R, (firstn_snoc _ _ _ _ N)|auto].
  - rewrite H. rewrite E in K. injection K as ->. eexists. split; [reflexivity|]. split; [|unfold left; cbn; lia]. exists (S k). cbn [ends todo results at_ tl].
    repeat split; [lia|now rewrite T'|now rewrite R, (firstn_snoc _ _ _ _ N)|auto].
Qed.
Lemma shared_run : forall v progs, (forall i p, nth_error progs i = Some p -> Forall (fun o => is_const o = true) p) ->
  forall sched m l n, held m = Some v -> calls m = n -> length l = length progs ->
  (forall i p t, nth_error progs i = Some p -> nth_error l i = Some t -> at_calls v p t) ->
  exists s', run out (m, l) sched = Some s' /\ held (fst s') = Some v /\ calls (fst s') = n /\ length (snd s') = length progs /\
    forall i p t, nth_error progs i = Some p -> nth_error l i = Some t ->
      exists t', nth_error (snd s') i = Some t' /\ at_calls v p t' /\ left t' <= left t - count_occ Nat.eq_dec sched i.
Proof.
  intros v progs F. induction sched as [|j r IH]; intros m l n H C L K.
  - exists (m, l). cbn. repeat split; auto. intros i p t P T. exists t. repeat split; [exact T|exact (K _ _ _ P T)|lia].
  - cbn [run]. unfold sys_step. cbn [fst snd]. destruct (nth_error l j) as [t|] eqn:T.
    + assert (LT : j < length progs) by (rewrite <- L; eapply nth_lt, T).
      destruct (nth_error progs j) as [p|] eqn:P; [|apply nth_error_None in P; lia].
      destruct (steady_step v p m t (F _ _ P) H (K _ _ _ P T)) as (t' & S & A & M). rewrite S.
      destruct (IH m (put l j t') n H C) as (s' & R & H' & C' & L' & Q); [now rewrite put_length| |].
      { intros i q u Q U. apply put_cases in U. destruct U as [(-> & ->)|(_ & U)]; [rewrite P in Q; injection Q as <-; exact A|exact (K _ _ _ Q U)]. }
      exists s'. repeat split; auto. intros i q u QQ U. cbn [count_occ]. destruct (Nat.eq_dec j i) as [->|N].
      * destruct (Q i q t' QQ) as (t2 & E2 & A2 & M2); [apply put_same; lia|]. exists t2. repeat split; auto. rewrite T in U. injection U as <-. lia.
      * destruct (Q i q u QQ) as (t2 & E2 & A2 & M2); [now rewrite put_other|]. exists t2. repeat split; auto.
    + destruct (IH m l n H C L K) as (s' & R & H' & C' & L' & Q). exists s'. repeat split; auto. intros i q u QQ U.
      destruct (Q i q u QQ U) as (t2 & E2 & A2 & M2). exists t2. repeat split; auto. cbn [count_occ]. destruct (Nat.eq_dec j i) as [->|N]; [congruence|exact M2].
Qed.

(** ** One call at a time *)
Fixpoint go (k : nat) (m : memory V) (t : thread V) : option (memory V * thread V) :=
  match k with 0 => Some (m, t) | S k' => match step1 out m t with Some (m', t') => go k' m' t' | None => None end end.
Lemma solo : forall k m l i t s1, nth_error l i = Some t -> run out (m, l) (repeat i k) = Some s1 ->
  exists t', snd s1 = put l i t' /\ go k m t = Some (fst s1, t').
Proof.
  induction k as [|k IH]; intros m l i t s1 T R; cbn [repeat run] in R.
  - injection R as <-. exists t. rewrite (put_id _ _ _ T). auto.
  - unfold sys_step in R. cbn [fst snd] in R. rewrite T in R. cbn [go]. destruct (step1 out m t) as [[m' t']|] eqn:S; [|discriminate].
    destruct (IH _ _ _ t' _ (put_same _ _ _ (nth_lt _ _ _ T)) R) as (t2 & E & G). exists t2. rewrite put_put in E. auto.
Qed.
Lemma go_nil : forall k m ph rs, go k m (Thread ph [] rs) = Some (m, Thread ph [] rs).
Proof. induction k as [|k IH]; intros; [reflexivity|apply IH]. Qed.
Lemma step_shape : forall m t m' t', step1 out m t = Some (m', t') -> todo t <> [] ->
  (todo t' = tl (todo t) /\ at_ t' = Start) \/ (todo t' = todo t /\ at_ t' <> Start).
Proof.
  intros m [ph [|o r] rs] m' t' H N; [now destruct N|]. unfold step1 in H. cbn [todo at_] in H |- *.
  destruct ph as [| | | |v|]; [destruct o| | | | |]; try (injection H as <- <-; unfold test; cbn; first [left; split; reflexivity|right; split; [reflexivity|destruct (held m); discriminate]|right; split; [reflexivity|discriminate]]).
  - injection H as <- <-. destruct (out (calls m)); [right; split; [reflexivity|discriminate]|left; split; reflexivity].
  - destruct (held m); [|discriminate]. injection H as <- <-. left. split; reflexivity.
Qed.
Lemma shrinks : forall k m t m' t', go k m t = Some (m', t') -> at_ t' = Start -> todo t <> [] -> at_ t <> Start \/ k <> 0 -> length (todo t') < length (todo t).
Proof.
  induction k as [|k IH]; intros m t m' t' G A N K; cbn [go] in G.
  - injection G as <- <-. destruct K; [contradiction|congruence].
  - destruct (step1 out m t) as [[m1 t1]|] eqn:S; [|discriminate]. destruct (step_shape _ _ _ _ S N) as [(T & X)|(T & X)].
    + assert (L : length (todo t1) < length (todo t)) by (rewrite T; destruct (todo t); [congruence|cbn; lia]).
      destruct (todo t1) as [|o r] eqn:E.
      * destruct t1 as [ph1 td1 rs1]. cbn in E. subst td1. rewrite go_nil in G. injection G as <- <-. exact L.
      * destruct k as [|k]; [injection G as <- <-; rewrite E; exact L|]. enough (Q : length (todo t') < length (todo t1)) by (rewrite E in Q; lia).
        eapply IH; [exact G|exact A|rewrite E; discriminate|right; discriminate].
    + rewrite <- T. eapply IH; [exact G|exact A|rewrite T; exact N|left; exact X].
Qed.
Lemma finish : forall k m p rs m' rs', go k m (Thread Start p rs) = Some (m', Thread Start p rs') -> m' = m /\ rs' = rs.
Proof.
  intros k m p rs m' rs' G. destruct p as [|o p]; [rewrite go_nil in G; injection G as <- <-; auto|]. destruct k as [|k]; [injection G as <- <-; auto|].
  exfalso. pose proof (shrinks _ _ _ _ _ G eq_refl) as K. cbn [todo] in K. assert (o :: p <> []) by discriminate. assert (S k <> 0) by lia. specialize (K H (or_intror H0)). lia.
Qed.
Lemma whole : forall k m o p rs m' rs', go k m (Thread Start (o :: p) rs) = Some (m', Thread Start p rs') ->
  exists r, step (fun c => (S c, out c)) o (held m, calls m) = Some (r, (held m', calls m')) /\ rs' = rs ++ [r].
Proof.
  intros k [h c] o p rs m' rs' G.
  assert (B : forall m ph, go 0 m (Thread ph (o :: p) rs) <> Some (m', Thread Start p rs')).
  { intros m ph H. apply (f_equal (fun x => match x with Some (_, t) => length (todo t) | None => 0 end)) in H. cbn in H. lia. }
  unfold step, populate, deref. cbn [fst snd held calls].
  Ltac next B k G := destruct k as [|k]; [exfalso; exact (B _ _ G)|]; cbn [go] in G; unfold step1 at 1 in G; cbn [todo at_] in G; unfold test, goes, ends in G; cbn [todo at_ held calls tl results] in G.
  Ltac done_ G := apply finish in G; destruct G as (-> & ->); eexists; split; [reflexivity|reflexivity].
  destruct o.
  - next B k G. destruct h as [v|].
    + next B k G. done_ G.
    + next B k G. next B k G. destruct (out c) as [v|]; [|done_ G]. next B k G. next B k G. done_ G.
  - next B k G. done_ G.
  - next B k G. done_ G.
  - next B k G. next B k G. next B k G. next B k G. destruct (out c) as [v|]; [|done_ G]. next B k G. next B k G. done_ G.
Qed.
Lemma split_nth : forall A (x : list A) i a, nth_error x i = Some a -> x = firstn i x ++ a :: skipn (S i) x.
Proof. induction x as [|b x IH]; intros [|i] a H; cbn in *; try discriminate; [now injection H as ->|f_equal; now apply IH]. Qed.
Lemma put_split : forall l i t, i < length l -> put l i t = firstn i l ++ t :: skipn (S i) l.
Proof. induction l as [|x l IH]; intros [|i] t H; cbn in *; try lia; [reflexivity|f_equal; apply IH; lia]. Qed.
Lemma turns_run : forall s turns s', one_at_a_time out s turns s' -> (forall t, In t (snd s) -> at_ t = Start) ->
  exists rs, length rs = length (in_turn (map todo (snd s)) turns) /\
    history (fun c => (S c, out c)) (map snd (in_turn (map todo (snd s)) turns)) (held (fst s), calls (fst s)) = Some (rs, (held (fst s'), calls (fst s'))) /\
    length (snd s') = length (snd s) /\
    forall i t, nth_error (snd s) i = Some t -> exists t', nth_error (snd s') i = Some t' /\ results t' = results t ++ of_thread i (in_turn (map todo (snd s)) turns) rs.
Proof.
  intros s turns s' H. induction H as [s|s i k s1 o p rs rs' turns s2 T R T1 H IH]; intros A.
  - exists []. cbn. repeat split. intros i t E. exists t. now rewrite app_nil_r.
  - destruct s as [m l]. cbn [fst snd] in *. destruct (solo _ _ _ _ _ _ T R) as (t' & E & G). destruct s1 as [m1 l1]. cbn [fst snd] in *. subst l1.
    rewrite put_same in T1 by (eapply nth_lt, T). injection T1 as ->. destruct (whole _ _ _ _ _ _ _ G) as (r & S & ->).
    destruct IH as (rs2 & L & HH & LL & Q).
    { intros t I. destruct (In_nth_error _ _ I) as (j & J). apply put_cases in J. destruct J as [(-> & ->)|(_ & J)]; [reflexivity|apply A; eapply nth_error_In, J]. }
    assert (M : map todo (put l i (Thread Start p (rs ++ [r]))) = firstn i (map todo l) ++ p :: skipn (Datatypes.S i) (map todo l)).
    { rewrite put_split by (eapply nth_lt, T). rewrite map_app. cbn [map todo]. now rewrite firstn_map, skipn_map. }
    cbn [in_turn]. rewrite nth_error_map, T. cbn [option_map todo]. rewrite <- M. exists (r :: rs2). cbn [map snd history length].
    rewrite S. cbn [snd fst]. rewrite HH. cbn [fst snd]. split; [now rewrite L|]. split; [reflexivity|]. split; [now rewrite LL, put_length|].
    intros j t J. unfold of_thread. cbn [combine filter fst snd]. destruct (Nat.eq_dec i j) as [->|N].
    + rewrite Nat.eqb_refl. rewrite T in J. injection J as <-. destruct (Q j (Thread Start p (rs ++ [r]))) as (t2 & E2 & K2); [apply put_same; eapply nth_lt, T|].
      exists t2. split; [exact E2|]. rewrite K2. cbn [results map snd]. now rewrite <- app_assoc.
    + destruct (Nat.eqb_spec i j) as [X|_]; [contradiction|]. apply Q. now rewrite put_other.
Qed.
End P.
