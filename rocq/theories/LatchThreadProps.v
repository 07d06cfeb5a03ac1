(** C136 latched and cached values shared by threads. *)
From Verif Require Import Base LatchedModel LatchedSpec LatchedProofs LatchThreadModel LatchThreadSpec LatchThreadProofs.

(** Once the value is there, any number of threads can make const calls at any time: there is no race and no further call of
    the function, each thread gets that value from each of its calls, and a thread that gets enough turns makes all its calls. *)
Theorem C136_shared : forall V (out : nat -> option V) v progs sched, (forall p, In p progs -> forallb is_const p = true) ->
  exists s', run out (begin (Some v) progs) sched = Some s' /\ ~ races s' /\ calls (fst s') = 0 /\ held (fst s') = Some v /\
    forall i p, nth_error progs i = Some p -> exists t, nth_error (snd s') i = Some t /\
      (exists k, results t = firstn k (steady v p)) /\ (2 * length p <= count_occ Nat.eq_dec sched i -> results t = steady v p).
Proof.
  intros V out v progs sched F.
  assert (F' : forall i p, nth_error progs i = Some p -> Forall (fun o => is_const o = true) p).
  { intros i p P. apply Forall_forall. intros o I. exact (proj1 (forallb_forall _ _) (F _ (nth_error_In _ _ P)) _ I). }
  destruct (shared_run out v progs F' sched (Memory (Some v) 0) (snd (begin (Some v) progs)) 0 eq_refl eq_refl) as (s' & R & H & C & _ & Q).
  { cbn. apply map_length. }
  { intros i p t P T. cbn [begin snd] in T. rewrite nth_error_map, P in T. injection T as <-. exists 0. cbn. repeat split; [lia|now left]. }
  exists s'. split; [exact R|]. split.
  { destruct (proj2 (safe_iff out (Some v) progs)) with (sched := sched) as (s2 & R2 & N).
    - intros (i & j & p & q & o & _ & P & _ & I & X & _). pose proof (proj1 (Forall_forall _ _) (F' _ _ P) _ I) as Y. destruct o; discriminate.
    - change (begin (Some v) progs) with (Memory (Some v) 0, snd (begin (Some v) progs)) in R2. rewrite R in R2. injection R2 as <-. exact N. }
  split; [exact C|]. split; [exact H|]. intros i p P.
  destruct (Q i p (Thread Start p []) P) as (t & T & (k & K1 & K2 & K3 & K4) & L); [cbn [begin snd]; now rewrite nth_error_map, P|].
  exists t. split; [exact T|]. split; [exists k; exact K3|]. intros E. unfold left in L. cbn [todo at_] in L.
  assert (Z : length (todo t) = 0) by (destruct K4 as [X|(X & Y)]; rewrite X in L; [lia|]; rewrite K2, skipn_length in L |- *; assert (k < length p) by (apply nth_error_Some; congruence); lia).
  rewrite K2, skipn_length in Z. rewrite K3. apply firstn_all2. unfold steady. rewrite map_length. lia.
Qed.
Print Assumptions C136_shared.
(** Exactly: no schedule has a race (or looks at a value that is not there) unless one thread makes a call that can change
    the object, value(), * and -> included while there is no value, and another thread makes any call. *)
Theorem C136_exactly : forall V (out : nat -> option V) h progs, safe out (begin h progs) <-> ~ conflict h progs.
Proof. intros V out h progs. apply safe_iff. Qed.
Print Assumptions C136_exactly.
(** Calls that are kept from overlapping (by a lock, say) give what the same calls give to one thread. *)
Theorem C136_one_at_a_time : forall V (out : nat -> option V) progs turns s', one_at_a_time out (begin None progs) turns s' ->
  let order := in_turn progs turns in let rs := fst (expected out (map snd order) (0, 0)) in
  length rs = length order /\ forall i, i < length progs -> exists t, nth_error (snd s') i = Some t /\ results t = of_thread i order rs.
Proof.
  intros V out progs turns s' H order rs. destruct (turns_run out _ _ _ H) as (rs' & L & HH & _ & Q).
  { intros t I. cbn [begin snd] in I. apply in_map_iff in I. destruct I as (p & <- & _). reflexivity. }
  assert (M : map todo (snd (begin (V := V) None progs)) = progs) by (cbn [begin snd]; rewrite map_map; cbn [todo]; apply map_id).
  rewrite M in L, HH, Q. cbn [begin fst snd held calls] in HH.
  pose proof (history_ok out (map snd order) 0 0 : history (fun c => (S c, out c)) (map snd order) (None, 0) = _) as K. fold order in HH. rewrite K in HH. injection HH as E _ _. fold rs in E. subst rs'.
  split; [exact L|]. intros i LT. destruct (nth_error progs i) as [p|] eqn:P; [|apply nth_error_None in P; lia].
  destruct (Q i (Thread Start p [])) as (t & T & R); [cbn [begin snd]; now rewrite nth_error_map, P|]. exists t. auto.
Qed.
Print Assumptions C136_one_at_a_time.
(** FINDING: const calls of two threads race while there is no value yet, where const calls of the standard library do not: *)
Theorem C136_race_refuted : forall V (out : nat -> option V) progs i j p q, i <> j -> nth_error progs i = Some p -> nth_error progs j = Some q ->
  In Access p -> q <> [] -> exists sched s', run out (begin None progs) sched = Some s' /\ races s'.
Proof. intros V out progs i j p q N P Q I NE. apply conflict_races. exists i, j, p, q, Access. auto 6. Qed.
Print Assumptions C136_race_refuted.
(** and even if the race did no harm, two threads that look for the first time could both call the function, and get different values. *)
Theorem C136_twice_refuted : forall V (out : nat -> option V) progs i j p q v v', i <> j -> nth_error progs i = Some (Access :: p) -> nth_error progs j = Some (Access :: q) ->
  out 0 = Some v -> out 1 = Some v' -> exists sched s' t u, run out (begin None progs) sched = Some s' /\ calls (fst s') = 2 /\
    nth_error (snd s') i = Some t /\ nth_error (snd s') j = Some u /\ results t = [Got v] /\ results u = [Got v'].
Proof.
  intros V out progs i j p q v v' N P Q O O'.
  assert (T : nth_error (snd (begin (V := V) None progs)) i = Some (Thread Start (Access :: p) [])) by (cbn [begin snd]; now rewrite nth_error_map, P).
  assert (U : nth_error (snd (begin (V := V) None progs)) j = Some (Thread Start (Access :: q) [])) by (cbn [begin snd]; now rewrite nth_error_map, Q).
  change (begin (V := V) None progs) with (Memory (V := V) None 0, snd (begin (V := V) None progs)).
  revert T U. generalize (snd (begin (V := V) None progs)). intros l T U.
  pose proof (nth_lt _ _ _ T) as LT. pose proof (nth_lt _ _ _ U) as LU. pose proof (not_eq_sym N) as N'.
  exists [i; j; i; j; i; j; i; i; j; j]. 
  assert (S : forall m l i t m' t', nth_error l i = Some t -> step1 out m t = Some (m', t') -> sys_step out (m, l) i = Some (m', put l i t')).
  { intros m l0 i0 t m' t' A B. unfold sys_step. cbn [fst snd]. now rewrite A, B. }
  cbn [run].
  erewrite (S _ _ i _ _ _ T) by reflexivity. cbv beta iota.
  erewrite (S _ _ j) by (rewrite ?put_other by assumption; first [exact U|reflexivity]). cbv beta iota.
  Ltac look_up := repeat first [rewrite put_same by (rewrite ?put_length; assumption)|rewrite put_other by assumption]; reflexivity.
  repeat (erewrite S; [|look_up|unfold step1, test, goes, ends; cbn; rewrite ?O, ?O'; reflexivity]; cbv beta iota).
  eexists _, _, _. split; [reflexivity|]. cbn [fst snd calls]. split; [reflexivity|]. split; [look_up|]. split; [look_up|]. split; reflexivity.
Qed.
Print Assumptions C136_twice_refuted.
Example C136_example : run (fun c => Some (10 + c)) (begin (Some 5) [[Access; HasValue]; [Access; Access]]) [0; 1; 1; 0; 0; 1; 1]
  = Some (Memory (Some 5) 0, [Thread Start [] [Got 5; Says true]; Thread Start [] [Got 5; Got 5]])
  /\ ~ conflict (Some 5) [[Access; HasValue]; [Access; Access]] /\ conflict (@None nat) [[HasValue; Access]; [HasValue]] /\ ~ conflict (@None nat) [[Access; Reset; Access]; []]
  /\ exists s', one_at_a_time (fun c => Some (10 + c)) (begin None [[Access; Reset]; [Access]]) [0; 0; 1] s' /\ map results (snd s') = [[Got 10; Done]; [Got 11]].
Proof.
  split; [reflexivity|]. split; [|split; [|split]].
  - intros (i & j & p & q & o & _ & P & _ & I & C & _). destruct i as [|[|[|i]]]; try discriminate P; injection P as <-; cbn in I; destruct I as [<-|[<-|[]]]; discriminate C.
  - exists 0, 1, [HasValue; Access], [HasValue], Access. cbn. repeat split; try discriminate; auto.
  - intros (i & j & p & q & o & N & P & Q & I & _ & NE). destruct i as [|[|[|i]]]; try discriminate P; injection P as <-; [|contradiction I].
    destruct j as [|[|[|j]]]; try discriminate Q; [now apply N|]. injection Q as <-. now apply NE.
  - eexists. split.
    + eapply (NextCall _ _ 0 5); [reflexivity|vm_compute; reflexivity|reflexivity|]. eapply (NextCall _ _ 0 1); [reflexivity|vm_compute; reflexivity|reflexivity|].
      eapply (NextCall _ _ 1 5); [reflexivity|vm_compute; reflexivity|reflexivity|]. apply NoMore.
    + reflexivity.
Qed.
