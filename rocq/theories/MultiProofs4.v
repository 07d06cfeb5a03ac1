(** Calls performed one after the other are an execution, whatever their memory orders. *)
From Coq Require Import Permutation.
From Verif Require Import Base BaseLemmas ConcModel RelaxedModel RelaxedProofs MultiModel MultiSpec MultiProofs MultiProofs2.
Open Scope nat_scope.

Definition of_thread {A} (t : nat) (s : list (nat * A)) : list A := map snd (filter (fun e => fst e =? t) s).
Lemma of_thread_map {A B} (f : A -> B) t (s : list (nat * A)) : of_thread t (map (fun x => (fst x, f (snd x))) s) = map f (of_thread t s).
Proof. unfold of_thread. induction s as [|[u a] s IH]; cbn; [reflexivity|]. destruct (u =? t); cbn; now rewrite IH. Qed.

(** ** Values *)
(** The events have the values of the words, [p x] being the modifications of [x] done. *)
Fixpoint timed (w : nat -> N) (contents : nat -> nat -> N) (p : nat -> nat) (s : list mevent) : Prop :=
  match s with
  | [] => True
  | e :: r => place (what e) = bump p e (object e) /\
      exec_prim (w (object e)) (performed (what e)) (contents (object e) (p (object e))) = (contents (object e) (place (what e)), got (what e)) /\
      timed w contents (bump p e) r
  end.
Lemma bump_ge p e x : p x <= bump p e x.
Proof. unfold bump. destruct (modifies (what e)); [|lia]. unfold update. destruct (Nat.eqb_spec x (object e)) as [->|]; lia. Qed.
Lemma bump_self p e : bump p e (object e) = if modifies (what e) then S (p (object e)) else p (object e).
Proof. unfold bump. destruct (modifies (what e)); [apply update_at|reflexivity]. Qed.
Lemma timed_ext w c c' s : forall p, (forall x k, p x <= k -> c x k = c' x k) -> timed w c p s -> timed w c' p s.
Proof.
  induction s as [|e s IH]; intros p E; cbn; [auto|]. intros (A & B & C). split; [exact A|]. split.
  - rewrite <- !E; [exact B| |lia]. rewrite A. apply bump_ge.
  - apply IH; [|exact C]. intros x k L. apply E. pose proof (bump_ge p e x). lia.
Qed.

Lemma reads_where p e : place (what e) = bump p e (object e) -> reads_at (what e) = None \/ reads_at (what e) = Some (p (object e)).
Proof.
  intros E. rewrite bump_self in E. unfold reads_at, modifies in *. destruct (performed (what e)); auto; right; f_equal; lia.
Qed.
Lemma timed_since w c s : forall p, timed w c p s -> Forall (fun e => p (object e) <= since e /\ (modifies (what e) = true -> p (object e) < place (what e))) s.
Proof.
  induction s as [|e s IH]; intros p; cbn; [constructor|]. intros (A & B & C). constructor.
  - rewrite bump_self in A. unfold since. destruct (modifies (what e)); split; intros; try discriminate; lia.
  - eapply Forall_impl; [|apply IH, C]. cbn. intros a [H1 H2]. pose proof (bump_ge p e (object a)). split; [lia|]. intros M. specialize (H2 M). lia.
Qed.
Lemma coherent_step p e e' : place (what e) = bump p e (object e) -> object e = object e' ->
  bump p e (object e) <= since e' -> (modifies (what e') = true -> bump p e (object e) < place (what e')) -> coherent (what e) (what e').
Proof.
  intros A O H1 H2. pose proof (bump_ge p e (object e)) as G.
  assert (W : forall i, writes_at (what e) = Some i -> i = bump p e (object e)) by (intros i Wi; apply writes_place in Wi as [_ <-]; exact A).
  assert (Rd : forall i, reads_at (what e) = Some i -> i = p (object e)) by (intros i Ri; destruct (reads_where p e A); congruence).
  assert (W' : forall j, writes_at (what e') = Some j -> bump p e (object e) < j) by (intros j Wj; apply writes_place in Wj as [M <-]; now apply H2).
  assert (Rd' : forall j, reads_at (what e') = Some j -> bump p e (object e) <= j).
  { intros j Rj. rewrite reads_since in Rj by congruence. injection Rj as <-. exact H1. }
  split; [|split; [|split]]; intros i j Hi Hj.
  - rewrite (W i Hi). auto.
  - rewrite (Rd i Hi). specialize (Rd' j Hj). lia.
  - rewrite (Rd i Hi). specialize (W' j Hj). lia.
  - rewrite (W i Hi). auto.
Qed.
Lemma timed_pairs w c s : forall p, timed w c p s -> ForallOrdPairs (fun a b => object a = object b -> coherent (what a) (what b)) s.
Proof.
  induction s as [|e s IH]; intros p; cbn; [constructor|]. intros (A & B & C). constructor; [|eapply IH; exact C].
  eapply Forall_impl; [|apply (timed_since _ _ _ _ C)]. cbn. intros a [H1 H2] O. rewrite <- O in H1, H2. now apply (coherent_step p).
Qed.
Lemma coherent_not_before a b : coherent a b -> ~ coherence_before b a.
Proof.
  intros (WW & RR & RW & WR) [(i & j & H1 & H2 & L)|[(i & j & H1 & H2 & L)|[(i & j & H1 & H2 & L)|(i & j & H1 & H2 & L)]]].
  - specialize (WW j i H2 H1). lia.
  - specialize (RW j i H2 H1). lia.
  - specialize (WR j i H2 H1). lia.
  - specialize (RR j i H2 H1). lia.
Qed.
Lemma timed_values w c s : forall p, timed w c p s -> forall e, In e s -> (forall x, p x <= bumps p s x) /\ place (what e) <= bumps p s (object e) /\
  exec_prim (w (object e)) (performed (what e)) (c (object e) (since e)) = (c (object e) (place (what e)), got (what e)).
Proof.
  assert (G : forall s p x, p x <= bumps p s x) by (induction s0 as [|e s0 IHs]; intros p x; cbn; [lia|]; specialize (IHs (bump p e) x); pose proof (bump_ge p e x); lia).
  induction s as [|e s IH]; intros p; cbn [timed bumps]; [intros _ e []|]. intros (A & B & C) e' [<-|I].
  - split; [intros x; specialize (G s (bump p e) x); pose proof (bump_ge p e x); lia|]. split; [rewrite A; apply G|].
    assert (S : since e = p (object e)) by (unfold since; rewrite bump_self in A; destruct (modifies (what e)); lia). now rewrite S.
  - destruct (IH _ C e' I) as (H1 & H2 & H3). split; [|split; assumption]. intros x. pose proof (H1 x). pose proof (bump_ge p e x). lia.
Qed.
Lemma timed_places w c s x : forall p, timed w c p s -> map place (filter modifies (on x s)) = seq (S (p x)) (bumps p s x - p x) /\ p x <= bumps p s x.
Proof.
  induction s as [|e s IH]; intros p; cbn [timed bumps]; [intros _; rewrite Nat.sub_diag; auto|]. intros (A & B & C).
  destruct (IH _ C) as [E L]. pose proof (bump_ge p e x). split; [|lia]. unfold on in *. cbn [filter]. destruct (Nat.eqb_spec (object e) x) as [O|O].
  - cbn [map filter]. subst x. destruct (modifies (what e)) eqn:M.
    + cbn [map]. rewrite E. rewrite bump_self, M in *. rewrite A. replace (bumps (bump p e) s (object e) - p (object e)) with (S (bumps (bump p e) s (object e) - S (p (object e)))) by lia. reflexivity.
    + rewrite E. rewrite bump_self, M. reflexivity.
  - rewrite E. replace (bump p e x) with (p x); [reflexivity|]. unfold bump. destruct (modifies (what e)); [|reflexivity]. symmetry. apply update_other. congruence.
Qed.

(** ** Times *)
Section Times.
Context (s : list (nat * mevent)) (evss : list (list mevent)) (M : merges s evss).
Definition count t p := length (of_thread t (firstn p s)).
Lemma nth_of_thread {A} t (l : list (nat * A)) : forall j a, nth_error (of_thread t l) j = Some a ->
  exists p, nth_error l p = Some (t, a) /\ length (of_thread t (firstn p l)) = j.
Proof.
  clear. induction l as [|[u b] l IH]; intros j a; unfold of_thread; cbn; [destruct j; discriminate|].
  destruct (Nat.eqb_spec u t) as [->|N]; cbn.
  - destruct j as [|j]; cbn.
    + intros [= ->]. exists 0. auto.
    + intros E. destruct (IH j a E) as (p & E1 & E2). exists (S p). cbn. rewrite Nat.eqb_refl. cbn. unfold of_thread in E2. now rewrite E2.
  - intros E. destruct (IH j a E) as (p & E1 & E2). exists (S p). cbn. destruct (Nat.eqb_spec u t); [contradiction|]. auto.
Qed.
Definition time (a : name) (p : nat) : Prop := exists e, nth_error s p = Some (fst a, e) /\ event_at evss a = Some e /\ count (fst a) p = snd a.
Lemma event_nth a : event_at evss a = nth_error (of_thread (fst a) s) (snd a).
Proof.
  unfold event_at, of_thread. rewrite M. destruct (nth_error evss (fst a)) eqn:E.
  - now rewrite (nth_error_nth _ _ _ E).
  - rewrite nth_overflow by now apply nth_error_None. now destruct (snd a).
Qed.
Lemma has_time a e : event_at evss a = Some e -> exists p, time a p.
Proof. intros E. pose proof E as E'. rewrite event_nth in E'. destruct (nth_of_thread _ _ _ _ E') as (p & A & B). exists p, e. auto. Qed.
Lemma count_le t p q : p <= q -> count t p <= count t q.
Proof.
  clear. unfold count, of_thread. rewrite !map_length. revert p q. induction s as [|[u a] l IH]; intros p q L; [now rewrite !firstn_nil|].
  destruct p as [|p]; cbn; [lia|]. destruct q as [|q]; [lia|]. cbn. specialize (IH p q ltac:(lia)). destruct (u =? t); cbn; lia.
Qed.
Lemma count_lt t a p q : nth_error s p = Some (t, a) -> p < q -> count t p < count t q.
Proof.
  clear. unfold count, of_thread. rewrite !map_length. revert p q. induction s as [|[u b] l IH]; intros p q E L; [destruct p; discriminate|].
  destruct q as [|q]; [lia|]. destruct p as [|p]; cbn in *.
  - injection E as -> ->. rewrite Nat.eqb_refl. cbn. lia.
  - specialize (IH p q E ltac:(lia)). destruct (u =? t); cbn; lia.
Qed.
Lemma time_unique a p q : time a p -> time a q -> p = q.
Proof.
  intros (e & E1 & E2 & E3) (e' & F1 & F2 & F3). destruct (Nat.lt_trichotomy p q) as [L|[L|L]]; [|exact L|].
  - pose proof (count_lt _ _ _ _ E1 L). lia.
  - pose proof (count_lt _ _ _ _ F1 L). lia.
Qed.
Lemma hb_exists a b : happens_before evss a b -> event_at evss b <> None -> event_at evss a <> None.
Proof.
  induction 1 as [a b [H1 H2]|a b (ea & eb & i & j & E & _)|a b c _ IH1 _ IH2]; intros N.
  - rewrite event_nth in *. rewrite H1. apply nth_error_Some. apply nth_error_Some in N. lia.
  - congruence.
  - auto.
Qed.
Context (w : nat -> N) (contents : nat -> nat -> N) (T : timed w contents (fun _ => 0) (map snd s)).
Lemma FOP_nth {A} (P : A -> A -> Prop) l : ForallOrdPairs P l -> forall p q a b, nth_error l p = Some a -> nth_error l q = Some b -> p < q -> P a b.
Proof.
  clear. induction 1 as [|x l F _ IH]; intros p q a b E1 E2 L; [destruct p; discriminate|]. destruct q as [|q]; [lia|]. destruct p as [|p]; cbn in *.
  - injection E1 as ->. rewrite Forall_forall in F. apply F. eapply nth_error_In. exact E2.
  - eapply IH; try eassumption. lia.
Qed.
Lemma pairs p q x y : nth_error s p = Some x -> nth_error s q = Some y -> p < q -> object (snd x) = object (snd y) -> coherent (what (snd x)) (what (snd y)).
Proof.
  intros E1 E2 L O. pose proof (timed_pairs _ _ _ _ T) as F. refine (FOP_nth _ _ F p q (snd x) (snd y) _ _ L O); now rewrite nth_error_map, ?E1, ?E2.
Qed.
Lemma hb_time a b : happens_before evss a b -> forall p q, time a p -> time b q -> p < q.
Proof.
  induction 1 as [a b [H1 H2]|a b Sy|a b c H1 IH1 H2 IH2]; intros p q Ta Tb.
  - destruct Ta as (e & E1 & _ & E3), Tb as (e' & F1 & _ & F3). destruct (Nat.lt_ge_cases p q) as [L|L]; [exact L|].
    pose proof (count_le (fst a) _ _ L). rewrite H1 in *. lia.
  - destruct Sy as (ea & eb & i & j & Ea & Eb & O & _ & _ & Wi & Rj & L & _). destruct Ta as (e & E1 & E2 & E3), Tb as (e' & F1 & F2 & F3).
    rewrite Ea in E2. rewrite Eb in F2. injection E2 as <-. injection F2 as <-. destruct (Nat.lt_trichotomy p q) as [G|[G|G]]; [exact G| |]; exfalso.
    + subst q. rewrite E1 in F1. injection F1 as _ <-. apply writes_place in Wi as [Mo <-]. rewrite reads_since in Rj by congruence. injection Rj as <-.
      unfold since in L. rewrite Mo in L. pose proof (timed_since _ _ _ _ T) as F. rewrite Forall_forall in F.
      destruct (F ea) as [_ Fe]; [apply in_map_iff; exists (fst a, ea); eauto using nth_error_In|]. specialize (Fe Mo). lia.
    + destruct (pairs q p _ _ F1 E1 G ltac:(cbn; congruence)) as (_ & _ & RW & _). cbn in RW. specialize (RW _ _ Rj Wi). lia.
  - destruct Tb as (e & F1 & F2 & F3). assert (N : event_at evss b <> None) by (apply (hb_exists _ _ H2); congruence).
    destruct (event_at evss b) as [eb|] eqn:Eb; [|congruence]. destruct (has_time _ _ Eb) as (r & Tr).
    specialize (IH1 p r Ta Tr). assert (r < q) by (apply IH2; [exact Tr|exists e; auto]). lia.
Qed.

Lemma filter_merges P i : map snd (filter (fun e => fst e =? i) (filter (fun e : nat * mevent => P (snd e)) s)) = filter P (of_thread i s).
Proof.
  clear. unfold of_thread. induction s as [|[u a] l IH]; cbn; [reflexivity|]. destruct (P a) eqn:EP; cbn; destruct (u =? i) eqn:EU; cbn; rewrite ?EU, ?EP; cbn; now rewrite ?IH.
Qed.
Lemma FOP_filter {A} (P : A -> A -> Prop) f l : ForallOrdPairs P l -> ForallOrdPairs P (filter f l).
Proof.
  clear. induction 1 as [|x l F _ IH]; cbn; [constructor|]. destruct (f x); [|exact IH]. constructor; [|exact IH].
  rewrite Forall_forall in *. intros y I. apply filter_In in I as [I _]. auto.
Qed.
Lemma FOP_weaken {A} (P Q : A -> A -> Prop) l : (forall a b, P a b -> Q a b) -> ForallOrdPairs P l -> ForallOrdPairs Q l.
Proof. clear. intros H. induction 1 as [|x l F _ IH]; constructor; [eapply Forall_impl; [|exact F]; auto|exact IH]. Qed.
Lemma FOP_unmap {A B} (f : A -> B) (P : B -> B -> Prop) l : ForallOrdPairs P (map f l) -> ForallOrdPairs (fun a b => P (f a) (f b)) l.
Proof.
  clear. induction l as [|x l IH]; cbn; intros H; [constructor|]. inversion H as [|? ? F G]; subst. constructor; [|auto].
  rewrite Forall_forall in *. intros y I. apply F, in_map, I.
Qed.

Lemma timed_execution : mexecution w contents (bumps (fun _ => 0) (map snd s)) evss.
Proof.
  pose proof (merges_perm _ _ M) as P. pose proof (FOP_unmap snd _ _ (timed_pairs _ _ _ _ T)) as FP. cbn in FP.
  assert (V : forall x e, In e (concat (map (on x) evss)) -> exists m, In m (map snd s) /\ object m = x /\ what m = e).
  { intros x e I. rewrite on_concat in I. apply on_in in I as (m & I & O & W). exists m. split; [|auto]. eapply Permutation_in; [apply Permutation_sym, P|exact I]. }
  split.
  - intros x. split.
    + rewrite on_concat. destruct (timed_places _ _ _ x _ T) as [E _]. rewrite Nat.sub_0_r in E. rewrite <- E.
      apply Permutation_map, perm_filter, on_perm, Permutation_sym, P.
    + intros e I Mo. destruct (V x e I) as (m & Im & O & <-). destruct (timed_values _ _ _ _ T m Im) as (_ & _ & E). subst x. unfold since in E. rewrite Mo in E. exact E.
    + intros e I Mo. destruct (V x e I) as (m & Im & O & <-). destruct (timed_values _ _ _ _ T m Im) as (_ & L & E). subst x. split; [exact L|].
      unfold since in E. rewrite Mo in E. unfold modifies in Mo. destruct (performed (what m)); try discriminate Mo. cbn in E. now injection E.
    + apply Forall_map, Forall_forall. intros l I. apply In_nth_error in I as (t & E). apply (nth_error_nth _ _ []) in E. rewrite <- M in E. subst l.
      unfold on. apply FOP_map. apply (FOP_weaken (fun a b => (object a = object b -> coherent (what a) (what b)) /\ object a = x /\ object b = x)); [intros a b (H & H1 & H2); apply H; congruence|].
      assert (G : forall l, ForallOrdPairs (fun a b => object a = object b -> coherent (what a) (what b)) l ->
        ForallOrdPairs (fun a b => (object a = object b -> coherent (what a) (what b)) /\ object a = x /\ object b = x) (filter (fun e => object e =? x) l)).
      { clear. induction 1 as [|a l F _ IH]; cbn; [constructor|]. destruct (Nat.eqb_spec (object a) x) as [O|]; [|exact IH]. constructor; [|exact IH].
        rewrite Forall_forall in *. intros y I. apply filter_In in I as [I O2]. apply Nat.eqb_eq in O2. auto. }
      apply G. apply FOP_map. cbn. apply FOP_filter. exact FP.
  - intros a b ea eb H Ea Eb O. destruct (has_time _ _ Ea) as (p & Tp), (has_time _ _ Eb) as (q & Tq). pose proof (hb_time _ _ H p q Tp Tq) as L.
    destruct Tp as (e & E1 & E2 & _), Tq as (e' & F1 & F2 & _). rewrite Ea in E2. rewrite Eb in F2. injection E2 as <-. injection F2 as <-.
    exact (pairs p q _ _ E1 F1 L O).
  - exists (filter (fun e => is_seq_cst (snd e)) s). split.
    + intros i. rewrite filter_merges. unfold of_thread. rewrite M. destruct (nth_error evss i) eqn:E.
      * rewrite (nth_error_nth _ _ _ E). symmetry. apply nth_error_nth. rewrite nth_error_map, E. reflexivity.
      * apply nth_error_None in E. rewrite !nth_overflow; [reflexivity|now rewrite map_length|exact E].
    + apply FOP_filter. eapply FOP_weaken; [|exact FP]. cbn. intros a b H O. apply coherent_not_before, H, O.
Qed.
End Times.

(** ** Calls *)
Section Calls.
Context (objs : nat -> object_type) (types : forall x, type_ok (objs x)).
Notation word := (fun x => word_of (objs x)).
(** A call, its event and its reply. *)
Definition did (x : call * reply * mevent) : Prop :=
  exists k, code objs (fst (fst x)) = MDo (object (snd x)) (performed (what (snd x))) (order (snd x)) k /\ k (got (what (snd x))) = MRet (snd (fst x)).
Lemma one_by_one s : forall mem p st, Forall (fun c => good_call objs (snd c)) s -> (forall x, represents (objs x) (mem x) (st x)) ->
  exists (u : list (nat * (call * reply * mevent))) contents st',
    map (fun e => (fst e, fst (fst (snd e)))) u = s /\ Forall (fun e => did (snd e)) u /\
    (forall x, contents x (p x) = mem x) /\ timed word contents p (map (fun e => snd (snd e)) u) /\
    in_turn objs st (map (fun e => fst (snd e)) u) st' /\ forall x, represents (objs x) (contents x (bumps p (map (fun e => snd (snd e)) u) x)) (st' x).
Proof.
  induction s as [|[t c] s IH]; intros mem p st G Hr.
  - exists [], (fun x _ => mem x), st. cbn. repeat split; auto.
  - inversion G as [|? ? G1 G2]; subst. cbn in G1. destruct (code_single objs types c G1) as (pr & k & E & _ & H).
    destruct (H (mem (target c)) (st (target c)) (Hr (target c))) as (o & s1 & Ek & Ef & R1). set (x := target c) in *.
    destruct (exec_prim (word_of (objs x)) pr (mem x)) as [m1 r] eqn:Ex. cbn [fst snd] in *.
    set (e0 := {| object := x; order := wanted (asked c); what := {| performed := pr; got := r; place := 0 |} |}).
    set (pl := bump p e0 x). set (e := {| object := x; order := wanted (asked c); what := {| performed := pr; got := r; place := pl |} |}).
    assert (Bp : bump p e = bump p e0) by reflexivity.
    destruct (IH (update mem x m1) (bump p e) (update st x s1) G2) as (u & contents & st' & Hm & Hd & Hc & Ht & Hi & Hf).
    { intros y. unfold update. destruct (Nat.eqb_spec y x) as [->|]; auto. }
    set (contents' := fun y j => if (y =? x) && (j =? p x) then mem x else contents y j).
    assert (Mp : modifies (what e) = false -> m1 = mem x) by (unfold e, modifies; cbn; destruct pr; try discriminate; intros _; cbn in Ex; now injection Ex).
    assert (Hge : forall y j, bump p e y <= j -> contents y j = contents' y j).
    { intros y j L. unfold contents'. destruct (Nat.eqb_spec y x) as [->|]; [|reflexivity]. destruct (Nat.eqb_spec j (p x)) as [->|]; [|reflexivity]. cbn.
      assert (B : bump p e x = p x) by (pose proof (bump_ge p e x); lia). rewrite <- B, Hc, update_at. apply Mp.
      destruct (modifies (what e)) eqn:Mo; [|reflexivity]. pose proof (bump_self p e) as B2. rewrite Mo in B2. change (object e) with x in B2. lia. }
    assert (Hpl : place (what e) = bump p e x) by (cbn; unfold pl; now rewrite <- Bp).
    exists ((t, (c, o, e)) :: u), contents', st'. cbn [map fst snd]. split; [now f_equal|]. split; [|split; [|split; [|split]]].
    + constructor; [|exact Hd]. exists k. auto.
    + intros y. unfold contents'. destruct (Nat.eqb_spec y x) as [->|N]; [now rewrite Nat.eqb_refl|]. cbn. rewrite <- (update_other mem x y m1 N), <- Hc.
      f_equal. unfold bump. destruct (modifies (what e)); [|reflexivity]. symmetry. now apply update_other.
    + cbn [timed]. split; [exact Hpl|]. split.
      * change (object e) with x. change (performed (what e)) with pr. change (got (what e)) with r. rewrite Hpl, <- (Hge x (bump p e x)) by lia. rewrite Hc, update_at.
        unfold contents'. rewrite !Nat.eqb_refl. exact Ex.
      * eapply timed_ext; [|exact Ht]. exact Hge.
    + cbn [in_turn]. exists s1. split; [exact Ef|exact Hi].
    + intros y. cbn [bumps]. rewrite <- Hge; [apply Hf|]. clear. generalize (bump p e). induction u as [|[t1 [z e1]] u IHu]; intros q; cbn; [lia|].
      pose proof (bump_ge q e1 y). specialize (IHu (bump q e1)). lia.
Qed.
Lemma did_performs us : Forall did us -> mperforms (code objs) (MThread None (map (fun x => fst (fst x)) us)) (map snd us) (MThread None []) (map fst us).
Proof.
  induction 1 as [|[[c o] e] us (k & E1 & E2) _ IH]; cbn; [constructor|]. cbn in E1, E2. apply mp_call. rewrite E1. destruct e as [x mo [p r n]]. cbn in *.
  apply mp_do. rewrite E2. apply mp_return. exact IH.
Qed.
Lemma list_of_nth {A} (l : list (list A)) : l = map (fun i => nth i l []) (seq 0 (length l)).
Proof.
  induction l as [|a l IH]; cbn; [reflexivity|]. f_equal. rewrite <- seq_shift, map_map. exact IH.
Qed.
Lemma in_of_thread {A} t (l : list (nat * A)) a : In a (of_thread t l) -> In (t, a) l.
Proof. unfold of_thread. intros I. apply in_map_iff in I as ([u b] & <- & I). apply filter_In in I as [I E]. apply Nat.eqb_eq in E. cbn in E. now subst. Qed.
Lemma any_order mem st programs s : (forall x, represents (objs x) (mem x) (st x)) -> Forall (Forall (good_call objs)) programs -> merges s programs ->
  exists contents n evss outss s' st', (forall x, contents x 0 = mem x) /\
    mall_perform (code objs) (mstart programs) evss (mstart (map (fun _ => []) programs)) outss /\ mexecution word contents n evss /\
    map (fun e => (fst e, fst (snd e))) s' = s /\ merges s' outss /\ in_turn objs st (map snd s') st' /\ forall x, represents (objs x) (contents x (n x)) (st' x).
Proof.
  intros Hr Hg Hm.
  assert (G : Forall (fun c => good_call objs (snd c)) s).
  { apply Forall_forall. intros c I. apply (in_map snd) in I. eapply Permutation_in in I; [|apply (merges_perm _ _ Hm)].
    apply in_concat in I as (l & I1 & I2). rewrite Forall_forall in Hg. specialize (Hg l I1). rewrite Forall_forall in Hg. auto. }
  destruct (one_by_one s mem (fun _ => 0) st G Hr) as (u & contents & st' & Hs & Hd & Hc & Ht & Hi & Hf).
  set (E i := map snd (of_thread i u)). set (O i := map fst (of_thread i u)). set (L := seq 0 (length programs)).
  assert (Np : forall i, nth i programs [] = map (fun x => fst (fst x)) (of_thread i u)).
  { intros i. rewrite <- Hm, <- Hs. exact (of_thread_map (fun x => fst (fst x)) i u). }
  assert (Em : forall i, length programs <= i -> of_thread i u = []).
  { intros i Li. apply (map_eq_nil (fun x => fst (fst x))). rewrite <- Np. now apply nth_overflow. }
  assert (Nm : forall {A} (F : nat -> list A) i, (length programs <= i -> F i = []) -> nth i (map F L) [] = F i).
  { intros A F i H. destruct (Nat.lt_ge_cases i (length programs)) as [Li|Li].
    - apply nth_error_nth. unfold L. rewrite nth_error_map, (nth_error_nth' _ 0) by now rewrite seq_length. cbn. now rewrite seq_nth.
    - rewrite H by exact Li. apply nth_overflow. unfold L. now rewrite map_length, seq_length. }
  exists contents, (bumps (fun _ => 0) (map (fun e => snd (snd e)) u)), (map E L), (map O L), (map (fun e => (fst e, fst (snd e))) u), st'.
  split; [exact Hc|]. split; [|split; [|split; [|split; [|split]]]].
  - replace (mstart programs) with (map (fun i => @MThread call reply None (map (fun x => fst (fst x)) (of_thread i u))) L).
    + replace (mstart (map (fun _ => []) programs)) with (map (fun _ : nat => @MThread call reply None []) L).
      * clear Nm. induction L as [|i L' IH]; cbn; [constructor|]. constructor; [|exact IH]. apply did_performs.
        apply Forall_forall. intros x I. apply in_of_thread in I. rewrite Forall_forall in Hd. exact (Hd _ I).
      * unfold L, mstart. rewrite map_map. clear. generalize 0. induction programs as [|a l IH]; intros z; cbn; [reflexivity|]. now rewrite IH.
    + unfold mstart. rewrite (list_of_nth programs) at 1. rewrite map_map. fold L. apply map_ext. intros i. now rewrite Np.
  - replace (map (fun e => snd (snd e)) u) with (map snd (map (fun e => (fst e, snd (snd e))) u)) in * by (rewrite map_map; reflexivity).
    apply timed_execution; [|exact Ht]. intros i. rewrite Nm by (intros Li; unfold E; now rewrite Em).
    exact (of_thread_map snd i u).
  - rewrite map_map. exact Hs.
  - intros i. rewrite Nm by (intros Li; unfold O; now rewrite Em). exact (of_thread_map fst i u).
  - rewrite map_map. exact Hi.
  - exact Hf.
Qed.
End Calls.
