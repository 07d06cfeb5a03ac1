From Verif Require Import Base BaseLemmas BitModel ConcModel AtomKindModel WaitModel WaitSpec WaitProofs.
Open Scope nat_scope.

(** ** The same leads-to, for an event *)
Lemma leads_event {S : Type} (st : nat -> S) (P : S -> Prop) (G : nat -> Prop) (mu : S -> nat) (sched : nat -> nat * bool) (h : nat) :
  (forall t, exists t', t <= t' /\ fst (sched t') = h) ->
  (forall t, P (st t) -> G t \/
     P (st (Datatypes.S t)) /\ mu (st (Datatypes.S t)) <= mu (st t) /\ (fst (sched t) = h -> mu (st (Datatypes.S t)) < mu (st t))) ->
  forall t, P (st t) -> exists t', t <= t' /\ G t'.
Proof.
  intros F H t HP.
  destruct (leads (fun t => (t, st t)) (fun x => P (snd x)) (fun x => G (fst x)) (fun x => mu (snd x)) sched h F) with (t := t) as (t' & L & E); [|exact HP|eauto].
  intros u Pu. cbn in *. destruct (H u Pu) as [X|X]; auto.
Qed.

(** ** The spin lock as a small machine *)
Inductive tk := KAway | KTry0 | KTry1 | KTryR (x : bool) | KHeld | KUn0 | KUn1 | KUnR.
Definition ct (k : tk) : waiter spin bool :=
  match k with
  | KAway => {| place := Away; running := None |}
  | KTry0 => {| place := Try; running := None |}
  | KTry1 => {| place := Try; running := Some (bcode (BExchange true)) |}
  | KTryR x => {| place := Try; running := Some (Ret (Some x)) |}
  | KHeld => {| place := Held; running := None |}
  | KUn0 => {| place := Unlock; running := None |}
  | KUn1 => {| place := Unlock; running := Some (bcode (BAssign false)) |}
  | KUnR => {| place := Unlock; running := Some (Ret (Some false)) |}
  end.
Definition cs (s : bool * list tk) : state spin bool := {| words := [to_elem (fst s)]; threads := map ct (snd s) |}.
Definition kstep (b : bool) (k : tk) (go : bool) : bool * tk :=
  match k with
  | KAway => (b, if go then KTry0 else KAway)
  | KTry0 => (b, KTry1)
  | KTry1 => (true, KTryR b)
  | KTryR x => (b, if x then KTry0 else KHeld)
  | KHeld => (b, if go then KUn0 else KHeld)
  | KUn0 => (b, KUn1)
  | KUn1 => (false, KUnR)
  | KUnR => (b, KAway)
  end.
Definition sstep (s : bool * list tk) (i : nat) (go : bool) : bool * list tk :=
  match nth_error (snd s) i with
  | None => s
  | Some k => let (b, k') := kstep (fst s) k go in (b, set_nth i k' (snd s))
  end.
Lemma map_set {X Y} (f : X -> Y) l : forall k v, map f (set_nth k v l) = set_nth k (f v) (map f l).
Proof. induction l as [|a l IH]; intros [|k] v; cbn; try reflexivity. now rewrite IH. Qed.
Lemma set_same {X} (l : list X) : forall i v, nth_error l i = Some v -> set_nth i v l = l.
Proof. induction l as [|a l IH]; intros [|i] v H; try discriminate; cbn in *; [now injection H as ->|now rewrite IH]. Qed.
Lemma simulates_spin ew s i go : (0 < ew)%N -> step bcode spin_act spin_after ew (cs s) i go = cs (sstep s i go).
Proof.
  intros Hw. destruct s as [b l]. unfold step, sstep, cs. cbn [fst snd threads words]. rewrite nth_error_map.
  destruct (nth_error l i) as [k|] eqn:E; [|reflexivity]. cbn [option_map].
  destruct k as [| | |x| | | |]; cbn; rewrite ?to_t_elem, ?wrap0, ?wrap1 by assumption.
  - destruct go; cbn; [now rewrite map_set|now rewrite set_same].
  - now rewrite map_set.
  - now rewrite map_set.
  - destruct x; cbn; now rewrite map_set.
  - destruct go; cbn; [now rewrite map_set|now rewrite set_same].
  - now rewrite map_set.
  - now rewrite map_set.
  - now rewrite map_set.
Qed.

Section Spin.
Variables (n : nat) (sched : nat -> nat * bool).
Fixpoint B (t : nat) : bool * list tk :=
  match t with O => (false, repeat KAway n) | S t => sstep (B t) (fst (sched t)) (snd (sched t)) end.
Lemma map_rep {X Y} (f : X -> Y) x m : map f (repeat x m) = repeat (f x) m.
Proof. induction m; cbn; congruence. Qed.
Lemma spin_run_B ew t : (0 < ew)%N -> spin_run ew n sched t = cs (B t).
Proof.
  intros Hw. unfold spin_run. induction t as [|t IH]; cbn [state_at B].
  - unfold start, cs. cbn. now rewrite map_rep.
  - rewrite IH. now apply simulates_spin.
Qed.

(** *** One holder if the word is set, none if not *)
Definition holder (k : tk) : bool := match k with KTryR false | KHeld | KUn0 | KUn1 => true | _ => false end.
Definition count (l : list tk) : nat := length (filter holder l).
Lemma count_set l : forall i k k', nth_error l i = Some k ->
  count (set_nth i k' l) + Nat.b2n (holder k) = count l + Nat.b2n (holder k').
Proof.
  unfold count. induction l as [|a l IH]; intros [|i] k k' H; try discriminate; cbn in *.
  - injection H as ->. destruct (holder k), (holder k'); cbn; lia.
  - specialize (IH i k k' H). destruct (holder a); cbn; lia.
Qed.
Lemma count_in l i k : nth_error l i = Some k -> holder k = true -> 1 <= count l.
Proof.
  intros H Hk. unfold count. assert (In k (filter holder l)) by (apply filter_In; split; [eapply nth_error_In; eauto|exact Hk]).
  destruct (filter holder l); [contradiction|cbn; lia].
Qed.
Definition good (s : bool * list tk) : Prop := count (snd s) = Nat.b2n (fst s) /\ length (snd s) = n.
Lemma good_step s i go : good s -> good (sstep s i go).
Proof.
  intros [C L]. unfold sstep. destruct (nth_error (snd s) i) as [k|] eqn:E; [|split; assumption].
  destruct s as [b l]. cbn [fst snd] in *.
  pose proof (count_set l i k) as CS. pose proof (count_in l i k E) as CI.
  destruct (kstep b k go) as [b' k'] eqn:K. specialize (CS k' E). split; cbn [fst snd]; [|now rewrite set_nth_length].
  destruct k as [| | |[]| | | |], go; cbn in K; injection K as <- <-; destruct b; cbn in *; try lia; specialize (CI eq_refl); lia.
Qed.
Lemma good_B t : good (B t).
Proof.
  induction t as [|t IH]; [|cbn [B]; now apply good_step]. split; cbn.
  - unfold count. induction n as [|m IHm]; cbn; [reflexivity|exact IHm].
  - apply repeat_length.
Qed.
Lemma has_holder s : good s -> fst s = true -> exists j k, j < n /\ nth_error (snd s) j = Some k /\ holder k = true.
Proof.
  intros [C L] H. rewrite H in C. cbn in C. unfold count in C. destruct (filter holder (snd s)) as [|k r] eqn:E; [discriminate|].
  assert (I : In k (filter holder (snd s))) by (rewrite E; left; reflexivity). apply filter_In in I. destruct I as [I Hk].
  apply In_nth_error in I. destruct I as [j Hj]. exists j, k. split; [|auto]. rewrite <- L. apply nth_error_Some. congruence.
Qed.

(** *** Progress *)
Hypothesis F : fair n sched.
Hypothesis leave : forall j t, nth_error (snd (B t)) j = Some KHeld -> exists t', t <= t' /\ nth_error (snd (B t')) j <> Some KHeld.
Definition got (t : nat) : Prop :=
  exists j, j < n /\ nth_error (snd (B t)) j = Some (KTryR false) /\ nth_error (snd (B (S t))) j = Some KHeld.
Definition is_k (ks : list tk) (j : nat) (s : bool * list tk) : Prop := exists k, nth_error (snd s) j = Some k /\ In k ks.
Definition tries : list tk := [KTry0; KTry1; KTryR true].

(** The thread after a step: the same, or the one that the step makes of it. *)
Lemma after_step s i go j k : nth_error (snd s) j = Some k ->
  nth_error (snd (sstep s i go)) j = Some (if Nat.eqb i j then snd (kstep (fst s) k go) else k).
Proof.
  intros H. unfold sstep. destruct (Nat.eqb_spec i j) as [->|N].
  - rewrite H. destruct (kstep (fst s) k go) as [b k'] eqn:K. cbn. rewrite nth_error_set_nth by (apply nth_error_Some; congruence). now rewrite Nat.eqb_refl.
  - destruct (nth_error (snd s) i) as [k0|] eqn:E; [|exact H]. destruct (kstep (fst s) k0 go) as [b k'] eqn:K. cbn.
    rewrite nth_error_set_nth by (apply nth_error_Some; congruence). destruct (Nat.eqb_spec j i) as [->|]; [congruence|exact H].
Qed.

Lemma word_step s i go : fst (sstep s i go) = match nth_error (snd s) i with Some k => fst (kstep (fst s) k go) | None => fst s end.
Proof. unfold sstep. destruct (nth_error (snd s) i) as [k|]; [|reflexivity]. now destruct (kstep (fst s) k go). Qed.
Lemma in_n t j k : nth_error (snd (B t)) j = Some k -> j < n.
Proof. intros H. destruct (good_B t) as [_ L]. rewrite <- L. apply nth_error_Some. congruence. Qed.

(** A thread that has read that the lock is free gets it. *)
Lemma s1 j t : nth_error (snd (B t)) j = Some (KTryR false) -> exists t', t <= t' /\ got t'.
Proof.
  intros H. pose proof (in_n t j _ H) as Hj.
  apply (leads_event B (fun s => nth_error (snd s) j = Some (KTryR false)) got (fun _ => 0) sched j (F j Hj)); [|exact H].
  clear t H. intros t H. cbn [B]. pose proof (after_step _ (fst (sched t)) (snd (sched t)) _ _ H) as E.
  destruct (Nat.eqb_spec (fst (sched t)) j) as [J|J].
  - left. exists j. split; [exact Hj|]. split; [exact H|exact E].
  - right. split; [exact E|]. split; [lia|congruence].
Qed.
Definition s1_at (t : nat) : Prop := exists j, nth_error (snd (B t)) j = Some (KTryR false).

(** The waiting thread after a step. *)
Lemma tries_step t i : is_k tries i (B t) -> s1_at (S t) \/ is_k tries i (B (S t)).
Proof.
  intros (k & Hk & I). cbn [B]. pose proof (after_step _ (fst (sched t)) (snd (sched t)) _ _ Hk) as E.
  destruct (Nat.eqb_spec (fst (sched t)) i) as [J|J]; [|right; exists k; split; assumption].
  destruct I as [<-|[<-|[<-|[]]]]; cbn in E.
  - right. exists KTry1. split; [exact E|cbn; auto].
  - destruct (fst (B t)); [right; exists (KTryR true); split; [exact E|cbn; auto]|left; exists i; exact E].
  - right. exists KTry0. split; [exact E|cbn; auto].
Qed.

Definition left_ (i : nat) (s : bool * list tk) : nat :=
  match nth_error (snd s) i with Some (KTryR true) => 3 | Some KTry0 => 2 | Some KTry1 => 1 | _ => 0 end.
Lemma s2 i t : fst (B t) = false -> is_k tries i (B t) -> exists t', t <= t' /\ s1_at t'.
Proof.
  intros Hb Hi. assert (Li : i < n) by (destruct Hi as (k & Hk & _); eapply in_n; eauto).
  destruct (leads_event B (fun s => fst s = false /\ is_k tries i s) (fun t => s1_at (S t)) (left_ i) sched i (F i Li)) with (t := t)
    as (t' & L & G); [|auto|exists (S t'); split; [lia|exact G]].
  clear t Hb Hi. intros t [Hb Hi]. destruct (tries_step t i Hi) as [G|Hi']; [left; exact G|].
  destruct (fst (B (S t))) eqn:Hb'.
  - left. cbn [B] in Hb'. rewrite word_step in Hb'. destruct (nth_error (snd (B t)) (fst (sched t))) as [k|] eqn:E; [|congruence].
    assert (k = KTry1) as -> by (destruct k as [| | |[]| | | |], (snd (sched t)); cbn in Hb'; congruence).
    exists (fst (sched t)). cbn [B]. rewrite (after_step _ _ _ _ _ E), Nat.eqb_refl, Hb. reflexivity.
  - right. split; [auto|]. destruct Hi as (k & Hk & I). unfold left_. rewrite Hk.
    pose proof (after_step _ (fst (sched t)) (snd (sched t)) _ _ Hk) as E. cbn [B]. rewrite E.
    destruct (Nat.eqb_spec (fst (sched t)) i) as [J|J].
    + destruct I as [<-|[<-|[<-|[]]]]; cbn; try (split; [lia|lia]).
      rewrite Hb. split; [lia|lia].
    + split; [lia|congruence].
Qed.

Definition gap (j : nat) (s : bool * list tk) : nat :=
  match nth_error (snd s) j with Some KUn0 => 2 | Some KUn1 => 1 | _ => 0 end.
Lemma s3 i j t : is_k [KUn0; KUn1] j (B t) -> is_k tries i (B t) -> exists t', t <= t' /\ s1_at t'.
Proof.
  intros Hj Hi. assert (Lj : j < n) by (destruct Hj as (k & Hk & _); eapply in_n; eauto).
  destruct (leads_event B (fun s => is_k [KUn0; KUn1] j s /\ is_k tries i s)
              (fun t => s1_at (S t) \/ fst (B (S t)) = false /\ is_k tries i (B (S t))) (gap j) sched j (F j Lj)) with (t := t)
    as (t' & L & G); [|auto|].
  - clear t Hi Hj. intros t [Hj Hi]. destruct (tries_step t i Hi) as [G|Hi']; [left; left; exact G|].
    destruct Hj as (k & Hk & I). pose proof (after_step _ (fst (sched t)) (snd (sched t)) _ _ Hk) as E.
    destruct (Nat.eqb_spec (fst (sched t)) j) as [J|J].
    + destruct I as [<-|[<-|[]]].
      * right. unfold gap. rewrite Hk. cbn [B]. rewrite E. cbn. split; [split; [exists KUn1; split; [exact E|cbn; auto]|exact Hi']|]. lia.
      * left. right. split; [|exact Hi']. cbn [B]. rewrite word_step, J, Hk. reflexivity.
    + right. unfold gap. rewrite Hk. cbn [B]. rewrite E. split; [split; [exists k; auto|exact Hi']|]. split; [lia|congruence].
  - destruct G as [G|[Gb Gi]]; [exists (S t'); split; [lia|exact G]|].
    destruct (s2 i (S t') Gb Gi) as (t2 & L2 & G2). exists t2. split; [lia|exact G2].
Qed.
Lemma s4 i j t : nth_error (snd (B t)) j = Some KHeld -> is_k tries i (B t) -> exists t', t <= t' /\ s1_at t'.
Proof.
  intros Hj Hi. destruct (leave j t Hj) as (t1 & L & N). remember (t1 - t) as d eqn:D. revert t L D Hj Hi.
  induction d as [|d IH]; intros t L D Hj Hi; [assert (t1 = t) as -> by lia; contradiction|].
  destruct (tries_step t i Hi) as [G|Hi']; [exists (S t); auto|].
  pose proof (after_step _ (fst (sched t)) (snd (sched t)) _ _ Hj) as E.
  assert (C : nth_error (snd (B (S t))) j = Some KHeld \/ nth_error (snd (B (S t))) j = Some KUn0).
  { cbn [B]. rewrite E. destruct (Nat.eqb (fst (sched t)) j); [|auto]. destruct (snd (sched t)); cbn; auto. }
  destruct C as [C|C].
  - destruct (IH (S t)) as (t' & L' & G); [lia|lia|exact C|exact Hi'|]. exists t'. split; [lia|exact G].
  - destruct (s3 i j (S t)) as (t' & L' & G); [exists KUn0; cbn; auto|exact Hi'|]. exists t'. split; [lia|exact G].
Qed.
Lemma some_gets i t : is_k [KTry0; KTry1; KTryR true; KTryR false] i (B t) -> exists t', t <= t' /\ got t'.
Proof.
  intros (k & Hk & I).
  assert (S1 : (exists t', t <= t' /\ s1_at t') -> exists t', t <= t' /\ got t').
  { intros (t1 & L1 & j & E). destruct (s1 j t1 E) as (t2 & L2 & E2). exists t2. split; [lia|exact E2]. }
  apply S1. assert (C : k = KTryR false \/ In k tries) by (cbn in *; intuition).
  destruct C as [->|C]; [exists t; split; [lia|exists i; exact Hk]|]. assert (Hi : is_k tries i (B t)) by (exists k; auto).
  destruct (fst (B t)) eqn:Hb; [|now apply (s2 i)].
  destruct (has_holder _ (good_B t) Hb) as (j & q & Lj & Hj & Hq).
  destruct q as [| | |[]| | | |]; try discriminate.
  - exists t. split; [lia|exists j; exact Hj].
  - apply (s4 i j); assumption.
  - apply (s3 i j); [exists KUn0; cbn; auto|exact Hi].
  - apply (s3 i j); [exists KUn1; cbn; auto|exact Hi].
Qed.
End Spin.

Lemma is_at_cs l i s : is_at l (cs s) i <-> exists k, nth_error (snd s) i = Some k /\ place (ct k) = l.
Proof.
  unfold is_at, cs. cbn. rewrite nth_error_map. destruct (nth_error (snd s) i) as [k|]; cbn.
  - split; [intros (t & [= <-] & E)|intros (k' & [= <-] & E)]; eauto.
  - split; intros (x & E & _); discriminate.
Qed.
Lemma held_k k : place (ct k) = Held -> k = KHeld.
Proof. now destruct k. Qed.

Lemma spin_some_enters ew n sched : (0 < ew)%N -> fair n sched -> leaves Held n (spin_run ew n sched) ->
  forall i t, is_at Try (spin_run ew n sched t) i ->
  exists j t', j < n /\ t <= t' /\ gets (spin_run ew n sched) j t'.
Proof.
  intros Hw F Lv i t At. rewrite spin_run_B in At by assumption. apply is_at_cs in At. destruct At as (k & Hk & P).
  destruct (some_gets n sched F) with (i := i) (t := t) as (t' & L' & j & Lj & E1 & E2).
  - intros j u Hj. destruct (Lv j u) as (u' & Lu & Nu).
    + destruct (good_B n sched u) as [_ L]. rewrite <- L. apply nth_error_Some. congruence.
    + rewrite spin_run_B by assumption. apply is_at_cs. exists KHeld. auto.
    + exists u'. split; [exact Lu|]. intros X. apply Nu. rewrite spin_run_B by assumption. apply is_at_cs. exists KHeld. auto.
  - exists k. split; [exact Hk|]. destruct k as [| | |[]| | | |]; cbn in *; try discriminate; auto.
  - exists j, t'. split; [exact Lj|]. split; [exact L'|]. unfold gets. rewrite !spin_run_B by assumption.
    split; apply is_at_cs; [exists (KTryR false)|exists KHeld]; split; try assumption; reflexivity.
Qed.

Lemma two_in_filter {X} (p : X -> bool) (l : list X) : forall i j x y, i <> j -> nth_error l i = Some x -> nth_error l j = Some y ->
  p x = true -> p y = true -> 2 <= length (filter p l).
Proof.
  induction l as [|a l IH]; intros [|i] [|j] x y N Hx Hy Px Py; try discriminate; try lia; cbn in *.
  - injection Hx as ->. rewrite Px. cbn. apply nth_error_In in Hy. assert (I : In y (filter p l)) by (apply filter_In; auto).
    destruct (filter p l); [contradiction|cbn; lia].
  - injection Hy as ->. rewrite Py. cbn. apply nth_error_In in Hx. assert (I : In x (filter p l)) by (apply filter_In; auto).
    destruct (filter p l); [contradiction|cbn; lia].
  - assert (2 <= length (filter p l)) by (apply (IH i j x y); auto). destruct (p a); cbn; lia.
Qed.
Lemma spin_excludes ew n sched t i j : (0 < ew)%N ->
  is_at Held (spin_run ew n sched t) i -> is_at Held (spin_run ew n sched t) j -> i = j.
Proof.
  intros Hw X Y. rewrite spin_run_B in X, Y by assumption. apply is_at_cs in X. apply is_at_cs in Y.
  destruct X as (x & X & Px), Y as (y & Y & Py). apply held_k in Px. apply held_k in Py. subst x y.
  destruct (Nat.eq_dec i j) as [|N]; [assumption|]. destruct (good_B n sched t) as [C _].
  pose proof (two_in_filter holder _ _ _ _ _ N X Y eq_refl eq_refl) as T. unfold count in C. destruct (fst (B n sched t)); cbn in C; lia.
Qed.

(** *** A thread that never gets it *)
Definition period : list (nat * bool) :=
  [(0, true); (0, true); (0, true); (0, true); (1, true); (1, true); (1, true); (0, true); (0, true); (0, true); (0, true)].
Definition unlucky (t : nat) : nat * bool := match t with O => (1, true) | S t => nth (t mod 11) period (0, true) end.
Fixpoint unlucky_from (m : nat) : bool * list tk :=
  match m with O => (false, [KAway; KTry0]) | S m => let x := nth m period (0, true) in sstep (unlucky_from m) (fst x) (snd x) end.
Lemma succ_mod t : S t mod 11 = if t mod 11 =? 10 then 0 else S (t mod 11).
Proof.
  pose proof (Nat.mod_upper_bound t 11 ltac:(lia)) as U. pose proof (Nat.div_mod t 11 ltac:(lia)) as E.
  destruct (Nat.eqb_spec (t mod 11) 10) as [H|H]; symmetry.
  - apply (Nat.mod_unique (S t) 11 (S (t / 11)) 0); lia.
  - apply (Nat.mod_unique (S t) 11 (t / 11) (S (t mod 11))); lia.
Qed.
Lemma unlucky_B t : B 2 unlucky (S t) = unlucky_from (t mod 11).
Proof.
  induction t as [|t IH]; [reflexivity|]. change (B 2 unlucky (S (S t))) with (sstep (B 2 unlucky (S t)) (fst (unlucky (S t))) (snd (unlucky (S t)))).
  rewrite IH, succ_mod. unfold unlucky. pose proof (Nat.mod_upper_bound t 11 ltac:(lia)) as U.
  clear IH. revert U. generalize (t mod 11). intros r U. do 11 (destruct r as [|r]; [reflexivity|]). lia.
Qed.
Lemma unlucky_fair : fair 2 unlucky.
Proof.
  intros i Hi t. assert (E : (11 * t) mod 11 = 0) by (rewrite Nat.mul_comm; apply Nat.mod_mul; lia).
  assert (E4 : (4 + t * 11) mod 11 = 4) by (rewrite Nat.mod_add by lia; reflexivity).
  destruct i as [|[|i]]; [| |lia].
  - exists (S (11 * t)). split; [lia|]. unfold unlucky. now rewrite E.
  - exists (S (4 + t * 11)). split; [lia|]. unfold unlucky. now rewrite E4.
Qed.
Lemma spin_starves ew : (0 < ew)%N -> exists sched, fair 2 sched /\ leaves Held 2 (spin_run ew 2 sched) /\
  forall t, 1 <= t -> is_at Try (spin_run ew 2 sched t) 1.
Proof.
  intros Hw. exists unlucky. split; [exact unlucky_fair|]. split.
  - intros i t _ _. exists (S (t * 11)). split; [lia|]. rewrite spin_run_B, unlucky_B by assumption.
    rewrite Nat.mod_mul by lia. intros X. apply is_at_cs in X. destruct X as (k & E & P). cbn in E.
    destruct i as [|[|i]]; cbn in E; [injection E as <-; discriminate..|]. destruct i; discriminate.
  - intros [|t] L; [lia|]. rewrite spin_run_B, unlucky_B by assumption. apply is_at_cs.
    pose proof (Nat.mod_upper_bound t 11 ltac:(lia)) as U.
    revert U. generalize (t mod 11). intros r U. do 11 (destruct r as [|r]; [eexists; split; [reflexivity|reflexivity]|]). lia.
Qed.

(** ** Schedules whose threads end what they do of their own at once *)
Lemma eager_spin ew n sched : (0 < ew)%N -> fair n sched -> (forall t, snd (sched t) = true) -> leaves Held n (spin_run ew n sched).
Proof.
  intros Hw F G i t Hi At. destruct (F i Hi t) as (t0 & L0 & E0). destruct (next_turn sched i t t0 L0 E0) as (t1 & L1 & E1 & N1).
  exists (S t1). split; [lia|]. rewrite spin_run_B by assumption. rewrite spin_run_B in At by assumption.
  apply is_at_cs in At. destruct At as (k & Hk & P). apply held_k in P. subst k.
  assert (K : forall d, t + d <= t1 -> nth_error (snd (B n sched (t + d))) i = Some KHeld).
  { induction d as [|d IH]; intros Ld; [now rewrite Nat.add_0_r|]. rewrite Nat.add_succ_r. cbn [B].
    rewrite (after_step _ _ _ _ _ (IH ltac:(lia))). destruct (Nat.eqb_spec (fst (sched (t + d))) i) as [X|X]; [|reflexivity].
    exfalso. apply (N1 (t + d)); [lia|exact X]. }
  specialize (K (t1 - t) ltac:(lia)). replace (t + (t1 - t)) with t1 in K by lia.
  intros X. apply is_at_cs in X. destruct X as (k & E & P). cbn [B] in E. rewrite (after_step _ _ _ _ _ K), E1, Nat.eqb_refl, G in E.
  cbn in E. injection E as <-. discriminate.
Qed.
Lemma other_place i m go a : i < 2 -> m <> i -> place_of i (astep a m go) = place_of i a.
Proof.
  intros Hi N. destruct m as [|[|m]]; [| |reflexivity]; (destruct i as [|[|i]]; [| |lia]); try lia; destruct a as [a0 a1 b c0 k0 c1 k1].
  - destruct c0, k0 as [| |o], go; reflexivity.
  - destruct c1, k1 as [| |o], go; reflexivity.
Qed.
Lemma eager_peterson ew sched : (0 < ew)%N -> fair 2 sched -> (forall t, snd (sched t) = true) -> leaves Inside 2 (peterson_run ew sched).
Proof.
  intros Hw F G i t Hi At. destruct (F i Hi t) as (t0 & L0 & E0). destruct (next_turn sched i t t0 L0 E0) as (t1 & L1 & E1 & N1).
  exists (S t1). split; [lia|]. rewrite peterson_run_A by assumption. rewrite peterson_run_A in At by assumption.
  apply is_at_conc in At. destruct At as (_ & P).
  assert (K : forall d, t + d <= t1 -> place_of i (A sched (t + d)) = Inside).
  { induction d as [|d IH]; intros Ld; [now rewrite Nat.add_0_r|]. rewrite Nat.add_succ_r. cbn [A]. specialize (IH ltac:(lia)).
    rewrite other_place; [exact IH|exact Hi|]. apply N1. lia. }
  specialize (K (t1 - t) ltac:(lia)). replace (t + (t1 - t)) with t1 in K by lia.
  intros X. apply is_at_conc in X. destruct X as (_ & E). cbn [A] in E. rewrite E1, G in E.
  pose proof (inv_A sched t1) as I. destruct (A sched t1) as [a0 a1 b c0 k0 c1 k1].
  destruct i as [|[|i]]; [| |lia]; unfold place_of in K, E; cbn in K; subst; unfold inv in I; cbn in I; rewrite !andb_true_iff in I.
  - destruct k0; cbn in I; (discriminate E || (exfalso; intuition discriminate)).
  - destruct k1; cbn in I; (discriminate E || (exfalso; intuition discriminate)).
Qed.
