(** Proofs about several atomic objects. *)
From Coq Require Import Permutation.
From Verif Require Import Base BaseLemmas ConcModel RelaxedModel RelaxedProofs MultiModel MultiSpec.
Open Scope nat_scope.

(** * Lists *)
Lemma nth_set_nth_list {A} (ls : list (list A)) i x j : i < length ls -> nth j (set_nth i x ls) [] = if i =? j then x else nth j ls [].
Proof.
  intros H. pose proof (nth_set_nth ls i j x) as E. destruct (Nat.eqb_spec i j) as [<-|N].
  - rewrite (proj2 (Nat.ltb_lt _ _) H) in E. now apply nth_error_nth.
  - destruct (nth_error ls j) eqn:F.
    + now rewrite (nth_error_nth _ _ _ F), (nth_error_nth _ _ _ E).
    + apply nth_error_None in F, E. now rewrite !nth_overflow.
Qed.
Lemma nth_cons_error {A} (ls : list (list A)) i x l : nth i ls [] = x :: l -> nth_error ls i = Some (x :: l).
Proof.
  intros H. destruct (nth_error ls i) eqn:E; [now rewrite (nth_error_nth _ _ _ E) in H; subst|].
  apply nth_error_None in E. rewrite nth_overflow in H by exact E. discriminate.
Qed.
Lemma merges_cons {A} i (a : A) s ls : merges ((i, a) :: s) ls ->
  exists l, nth_error ls i = Some (a :: l) /\ merges s (set_nth i l ls).
Proof.
  intros H. pose proof (H i) as E. cbn in E. rewrite Nat.eqb_refl in E. cbn in E. symmetry in E. apply nth_cons_error in E.
  eexists. split; [exact E|]. intros j. rewrite nth_set_nth_list by (apply nth_error_Some; congruence).
  specialize (H j). cbn in H. destruct (Nat.eqb_spec i j) as [E1|N]; [|exact H]. subst j. reflexivity.
Qed.
Lemma nth_all_nil {A} (ls : list (list A)) : (forall i, nth i ls [] = []) -> concat ls = [].
Proof. induction ls as [|l ls IH]; intros H; [reflexivity|]. cbn. pose proof (H 0) as E. cbn in E. rewrite E. apply IH. intros i. exact (H (S i)). Qed.
Lemma merges_perm {A} (s : list (nat * A)) : forall ls, merges s ls -> Permutation (map snd s) (concat ls).
Proof.
  induction s as [|[i a] s IH]; intros ls H.
  - rewrite nth_all_nil; [constructor|]. intros i. symmetry. exact (H i).
  - destruct (merges_cons _ _ _ _ H) as (l & E & M). cbn. rewrite (concat_pick ls i a l E). constructor. now apply IH.
Qed.
Lemma Forall2_nth {A B} (P : A -> B -> Prop) l l' i a : Forall2 P l l' -> nth_error l i = Some a -> exists b, nth_error l' i = Some b /\ P a b.
Proof. intros H. revert i. induction H; intros [|i] E; try discriminate; cbn in *; [injection E as <-; eauto|eauto]. Qed.
Lemma Forall2_nth' {A B} (P : A -> B -> Prop) l l' i b : Forall2 P l l' -> nth_error l' i = Some b -> exists a, nth_error l i = Some a /\ P a b.
Proof. intros H. revert i. induction H; intros [|i] E; try discriminate; cbn in *; [injection E as <-; eauto|eauto]. Qed.
Lemma Forall2_set_nth {A B} (P : A -> B -> Prop) l l' i a b : Forall2 P l l' -> P a b -> Forall2 P (set_nth i a l) (set_nth i b l').
Proof. intros H Hp. revert i. induction H; intros [|i]; cbn; constructor; auto. Qed.
(** An order of the first lists is one of lists that correspond to them. *)
Lemma merges_lift {A B} (P : A -> B -> Prop) (s : list (nat * A)) : forall ls ls', merges s ls -> Forall2 (Forall2 P) ls ls' ->
  exists s', merges s' ls' /\ Forall2 (fun a b => fst a = fst b /\ P (snd a) (snd b)) s s'.
Proof.
  induction s as [|[i a] s IH]; intros ls ls' M F.
  - exists []. split; [|constructor]. intros i. specialize (M i). cbn in *. destruct (nth_error ls' i) as [l'|] eqn:E.
    + destruct (Forall2_nth' _ _ _ _ _ F E) as (l & E1 & F1). rewrite (nth_error_nth _ _ _ E1) in M. rewrite (nth_error_nth _ _ _ E). subst l. inversion F1. reflexivity.
    + apply nth_error_None in E. now rewrite nth_overflow.
  - destruct (merges_cons _ _ _ _ M) as (l & E & M1). destruct (Forall2_nth _ _ _ _ _ F E) as (l' & E' & F'). inversion F' as [|? b ? l1 Hp F1]; subst.
    destruct (IH _ _ M1 (Forall2_set_nth _ _ _ i _ _ F F1)) as (s' & M' & G). exists ((i, b) :: s'). split; [|constructor; [split; [reflexivity|exact Hp]|exact G]].
    intros j. specialize (M' j). rewrite nth_set_nth_list in M' by (apply nth_error_Some; congruence). cbn.
    destruct (Nat.eqb_spec i j) as [E1|N]; [subst j|exact M']. cbn. rewrite M'. symmetry. now apply nth_error_nth.
Qed.
Lemma on_concat x evss : concat (map (on x) evss) = on x (concat evss).
Proof. unfold on. rewrite <- concat_filter_map, concat_map, map_map. reflexivity. Qed.
Lemma on_perm x l l' : Permutation l l' -> Permutation (on x l) (on x l').
Proof. intros H. apply Permutation_map, perm_filter, H. Qed.
Lemma on_in x l a : In a (on x l) <-> exists e, In e l /\ object e = x /\ what e = a.
Proof.
  unfold on. rewrite in_map_iff. split.
  - intros (e & E & H). apply filter_In in H as [H O]. apply Nat.eqb_eq in O. eauto.
  - intros (e & H & O & E). exists e. split; [exact E|]. apply filter_In. split; [exact H|]. now apply Nat.eqb_eq.
Qed.
Lemma event_at_in evss e : In e (concat evss) <-> exists a, event_at evss a = Some e.
Proof.
  split.
  - intros H. apply in_concat in H as (l & H1 & H2). apply In_nth_error in H1 as (i & E1), H2 as (j & E2). exists (i, j). unfold event_at. cbn. now rewrite E1.
  - intros ([i j] & H). unfold event_at in H. cbn in H. destruct (nth_error evss i) eqn:E; [|discriminate].
    apply in_concat. eauto using nth_error_In.
Qed.

(** * One order of events *)
Definition bump (p : nat -> nat) (e : mevent) : nat -> nat := if modifies (what e) then update p (object e) (S (p (object e))) else p.
(** The events in this order, [p x] modifications of [x] done already: each reads, and follows, the last modification. *)
Fixpoint replay (p : nat -> nat) (s : list mevent) : Prop :=
  match s with
  | [] => True
  | e :: r => place (what e) = bump p e (object e) /\ replay (bump p e) r
  end.
Fixpoint bumps (p : nat -> nat) (s : list mevent) : nat -> nat := match s with [] => p | e :: r => bumps (bump p e) r end.

Lemma writes_place a i : writes_at a = Some i <-> modifies a = true /\ place a = i.
Proof. unfold writes_at. destruct (modifies a); split; intros H; try discriminate; try (destruct H; discriminate); [injection H as <-; auto|destruct H; now subst]. Qed.
Lemma before_ww a b : modifies a = true -> modifies b = true -> place a < place b -> coherence_before a b.
Proof. intros A B L. left. exists (place a), (place b). now rewrite !writes_place. Qed.
Lemma before_wr a b : modifies a = true -> modifies b = false -> place a <= place b -> coherence_before a b.
Proof. intros A B L. right; left. exists (place a), (place b). rewrite writes_place. repeat split; try assumption. unfold modifies in B. unfold reads_at. now destruct (performed b). Qed.
Lemma before_rw a b : modifies a = false -> modifies b = true -> place a < place b -> coherence_before a b.
Proof. intros A B L. right; right; left. exists (place a), (place b). rewrite writes_place. repeat split; try assumption. unfold modifies in A. unfold reads_at. now destruct (performed a). Qed.

Lemma update_at {A} (st : nat -> A) x a : update st x a x = a.
Proof. unfold update. now rewrite Nat.eqb_refl. Qed.
Lemma update_other {A} (st : nat -> A) x y a : y <> x -> update st x a y = st y.
Proof. unfold update. intros H. apply Nat.eqb_neq in H. now rewrite H. Qed.

Definition unbroken (a b : mevent) : Prop := object a = object b -> ~ coherence_before (what b) (what a).
Lemma replays s : forall p n,
  (forall x, Permutation (map place (filter modifies (on x s))) (seq (S (p x)) (n x))) ->
  (forall x a, In a (on x s) -> modifies a = false -> p x <= place a <= p x + n x) ->
  ForallOrdPairs unbroken s -> replay p s /\ forall x, bumps p s x = p x + n x.
Proof.
  induction s as [|e s IH]; intros p n P L O.
  - cbn. split; [exact I|]. intros x. specialize (P x). cbn in P. apply Permutation_nil in P. destruct (n x); [lia|discriminate].
  - inversion O as [|? ? O1 O2]; subst. rewrite Forall_forall in O1. set (x := object e) in *.
    assert (Hx : on x (e :: s) = what e :: on x s) by (unfold on; cbn; fold x; now rewrite Nat.eqb_refl).
    assert (Ho : forall y, y <> x -> on y (e :: s) = on y s).
    { intros y N. unfold on. cbn. fold x. replace (x =? y) with false; [reflexivity|]. symmetry. apply Nat.eqb_neq. auto. }
    pose proof (P x) as Px. rewrite Hx in Px. cbn in Px. unfold replay; fold replay. cbn [bumps]. unfold bump. fold x. destruct (modifies (what e)) eqn:M.
    + (* a modification: it is the next one *)
      rewrite update_at. cbn in Px.
      assert (Hn : exists k, n x = S k).
      { destruct (n x) as [|k]; [|now exists k]. cbn in Px. apply Permutation_sym, Permutation_nil in Px. discriminate. }
      destruct Hn as [k Hk]. rewrite Hk in Px. cbn [seq] in Px.
      assert (Pe : place (what e) = S (p x)).
      { assert (I1 : In (S (p x)) (place (what e) :: map place (filter modifies (on x s)))) by (eapply Permutation_in; [apply Permutation_sym, Px|now left]).
        destruct I1 as [I1|I1]; [exact I1|]. exfalso. apply in_map_iff in I1 as (a & Ea & Ia). apply filter_In in Ia as [Ia Ma]. apply on_in in Ia as (e' & Ie & Oe & <-).
        assert (I2 : In (place (what e)) (S (p x) :: seq (S (S (p x))) k)) by (eapply Permutation_in; [exact Px|now left]).
        assert (D : NoDup (place (what e) :: map place (filter modifies (on x s)))) by (eapply Permutation_NoDup; [apply Permutation_sym, Px|apply (seq_NoDup (S k))]).
        assert (Ne : place (what e') <> place (what e)).
        { intros E. inversion D as [|? ? D1 _]; subst. apply D1. rewrite <- E. apply in_map, filter_In. split; [|exact Ma]. apply on_in. eauto. }
        apply (O1 e' Ie); [now rewrite Oe|]. apply before_ww; try assumption.
        destruct I2 as [I2|I2]; [lia|]. apply in_seq in I2. lia. }
      split.
      * split; [exact Pe|]. apply (IH (update p x (S (p x))) (update n x k)); [| |exact O2].
        -- intros y. destruct (Nat.eq_dec y x) as [->|N]; [rewrite !update_at|rewrite !update_other by exact N; rewrite <- (Ho y N); apply P].
           rewrite Pe in Px. now apply Permutation_cons_inv in Px.
        -- intros y a Ia Ma. destruct (Nat.eq_dec y x) as [->|N]; [rewrite !update_at|rewrite !update_other by exact N; apply L; [now rewrite Ho|exact Ma]].
           assert (B : p x <= place a <= p x + n x) by (apply L; [rewrite Hx; now right|exact Ma]).
           assert (place a <> p x).
           { intros E. apply on_in in Ia as (e' & Ie & Oe & <-). apply (O1 e' Ie); [now rewrite Oe|]. apply before_rw; try assumption. lia. }
           lia.
      * assert (IH' := fun P' L' => proj2 (IH (update p x (S (p x))) (update n x k) P' L' O2)).
        intros y. rewrite IH'; clear IH'.
        -- destruct (Nat.eq_dec y x) as [->|N]; [rewrite !update_at; lia|now rewrite !update_other by exact N].
        -- intros z. destruct (Nat.eq_dec z x) as [->|N]; [rewrite !update_at|rewrite !update_other by exact N; rewrite <- (Ho z N); apply P].
           rewrite Pe in Px. now apply Permutation_cons_inv in Px.
        -- intros z a Ia Ma. destruct (Nat.eq_dec z x) as [->|N]; [rewrite !update_at|rewrite !update_other by exact N; apply L; [now rewrite Ho|exact Ma]].
           assert (B : p x <= place a <= p x + n x) by (apply L; [rewrite Hx; now right|exact Ma]).
           assert (place a <> p x).
           { intros E. apply on_in in Ia as (e' & Ie & Oe & <-). apply (O1 e' Ie); [now rewrite Oe|]. apply before_rw; try assumption. lia. }
           lia.
    + (* a load: it reads the last one *)
      assert (Pe : place (what e) = p x).
      { assert (B : p x <= place (what e) <= p x + n x) by (apply L; [rewrite Hx; now left|exact M]).
        destruct (Nat.eq_dec (place (what e)) (p x)) as [E|E]; [exact E|]. exfalso.
        assert (I1 : In (S (p x)) (map place (filter modifies (on x s)))) by (eapply Permutation_in; [apply Permutation_sym, Px|apply in_seq; lia]).
        apply in_map_iff in I1 as (a & Ea & Ia). apply filter_In in Ia as [Ia Ma]. apply on_in in Ia as (e' & Ie & Oe & <-).
        apply (O1 e' Ie); [now rewrite Oe|]. apply before_wr; try assumption. lia. }
      assert (R : replay p s /\ forall y, bumps p s y = p y + n y).
      { apply IH; [| |exact O2].
        - intros y. destruct (Nat.eq_dec y x) as [->|N]; [exact Px|rewrite <- (Ho y N); apply P].
        - intros y a Ia Ma. apply L; [|exact Ma]. destruct (Nat.eq_dec y x) as [->|N]; [rewrite Hx; now right|now rewrite Ho]. }
      destruct R as [R1 R2]. split; [split; [exact Pe|exact R1]|exact R2].
Qed.

Lemma F2_length {A B} (P : A -> B -> Prop) l l' : Forall2 P l l' -> length l = length l'.
Proof. induction 1; cbn; congruence. Qed.
Lemma Forall2_concat {A B} (P : A -> B -> Prop) ls ls' : Forall2 (Forall2 P) ls ls' -> Forall2 P (concat ls) (concat ls').
Proof. induction 1; cbn; [constructor|now apply Forall2_app]. Qed.
Lemma Forall2_in {A B} (P : A -> B -> Prop) l l' a : Forall2 P l l' -> In a l -> exists b, In b l' /\ P a b.
Proof. induction 1; intros [].  - subst. eexists. split; [now left|assumption]. - destruct IHForall2 as (b & I & Hb); [assumption|]. exists b. split; [now right|exact Hb]. Qed.
Lemma Forall2_in' {A B} (P : A -> B -> Prop) l l' b : Forall2 P l l' -> In b l' -> exists a, In a l /\ P a b.
Proof. induction 1; intros [].  - subst. eexists. split; [now left|assumption]. - destruct IHForall2 as (a & I & Ha); [assumption|]. exists a. split; [now right|exact Ha]. Qed.
Lemma FOP_map {A B} (f : A -> B) (P : B -> B -> Prop) l : ForallOrdPairs (fun a b => P (f a) (f b)) l -> ForallOrdPairs P (map f l).
Proof. induction 1 as [|a l H _ IH]; cbn; constructor; [|exact IH]. apply Forall_forall. intros y I. apply in_map_iff in I as (x & <- & I). rewrite Forall_forall in H. now apply H. Qed.
Lemma Forall2_strengthen {A B} (P Q : A -> B -> Prop) l l' : Forall2 P l l' -> (forall a b, In a l -> In b l' -> P a b -> Q a b) -> Forall2 Q l l'.
Proof. induction 1; intros H1; constructor; [apply H1; try assumption; now left|]. apply IHForall2. intros a b Ia Ib. apply H1; now right. Qed.

Section Sys.
Context {Op Out St : Type} (w : nat -> N) (run : Op -> mprog Out) (tgt : Op -> nat) (ord : Op -> memory_order) (pre : Op -> Prop).
Context (R : nat -> N -> St -> Prop) (eff : St -> Op -> Out -> St -> Prop).
Context (single : forall c, pre c -> exists p k, run c = MDo (tgt c) p (ord c) k /\
  (forall r, (exists o, k r = MRet o) \/ k r = MBad) /\
  forall mem s, R (tgt c) mem s -> exists o s', k (snd (exec_prim (w (tgt c)) p mem)) = MRet o /\ eff s c o s' /\ R (tgt c) (fst (exec_prim (w (tgt c)) p mem)) s').

(** The event [e] is that of call [c], which then is at [q]. *)
Definition event_of (e : mevent) (cq : Op * mprog Out) : Prop :=
  exists k, run (fst cq) = MDo (object e) (performed (what e)) (order e) k /\ snd cq = k (got (what e)).
Definition returned (x : Op * Out) : Op * mprog Out := (fst x, MRet (snd x)).
Definition logged (t' : mthread Op Out) (outs : list (Op * Out)) (log : list (Op * mprog Out)) : Prop :=
  (~ gone_wrong t' /\ log = map returned (outs ++ pending t')) \/
  (exists c, mcur t' = Some (c, MBad) /\ log = map returned outs ++ [(c, MBad)]).

Lemma mperforms_log program : forall evs t' outs, Forall pre program -> mperforms run (MThread None program) evs t' outs ->
  exists log, Forall2 event_of evs log /\ (exists rest, program = map fst log ++ rest) /\ logged t' outs log.
Proof.
  induction program as [|c program IH]; intros evs t' outs Hp H.
  - inversion H; subst. exists []. split; [constructor|]. split; [now exists []|]. left. split; [intros [op E]; discriminate|reflexivity].
  - inversion Hp as [|? ? Hc Hp']; subst. destruct (single c Hc) as (p & k & E & Hk & _). inversion H as [|? ? ? ? ? H1| |]; subst.
    + exists []. split; [constructor|]. split; [now exists (c :: program)|]. left. split; [intros [op F]; discriminate|reflexivity].
    + rewrite E in H1. inversion H1 as [|a1 a2 a3 a4 a5 a6|op x q mo k' rest r n evs1 t1 outs1 H2|]; subst.
      * exists []. split; [constructor|]. split; [now exists (c :: program)|]. left. split; [intros [op F]; discriminate F|]. reflexivity.
      * assert (EV : forall q, q = k r -> event_of {| object := tgt c; order := ord c; what := {| performed := p; got := r; place := n |} |} (c, q)).
        { intros q ->. exists k. cbn. split; [exact E|reflexivity]. }
        inversion H2 as [|b1 b2 b3 b4 b5 b6|op x q mo k' rest r' n' evs2 t2 outs2 H3|op o rest evs2 t2 outs2 H3]; subst.
        -- exists [(c, k r)]. split; [constructor; [now apply EV|constructor]|]. split; [now exists program|].
           destruct (Hk r) as [[o Eo]|Eb].
           ++ left. rewrite Eo. split; [intros [op F]; discriminate F|]. reflexivity.
           ++ right. exists c. rewrite Eb. split; reflexivity.
        -- exfalso. match goal with F : _ = k r |- _ => destruct (Hk r) as [[o Eo]|Eb]; congruence end.
        -- match goal with F : MRet o = k r |- _ => rename F into Fr end.
           destruct (IH _ _ _ Hp' H3) as (log & F2 & (rest & Er) & Lg). exists ((c, MRet o) :: log). split; [constructor; [now apply EV|exact F2]|].
           split; [exists rest; cbn; now rewrite Er|]. destruct Lg as [[N ->]|(c' & Ec & ->)]; [left; now split|right; exists c'; now split].
Qed.
Lemma mall_perform_logs programs : forall evss ts' outss, Forall (Forall pre) programs -> mall_perform run (mstart programs) evss ts' outss ->
  exists logs, Forall2 (Forall2 event_of) evss logs /\ Forall2 (fun prog log => exists rest, prog = map fst log ++ rest) programs logs /\
    length ts' = length logs /\ length outss = length logs /\
    forall i t outs log, nth_error ts' i = Some t -> nth_error outss i = Some outs -> nth_error logs i = Some log -> logged t outs log.
Proof.
  induction programs as [|program programs IH]; intros evss ts' outss Hp H; inversion H as [|? ? ? ? ? ? ? ? H1 H2]; subst.
  - exists []. split; [constructor|]. split; [constructor|]. split; [reflexivity|]. split; [reflexivity|]. intros i t outs log F. destruct i; discriminate.
  - inversion Hp; subst. destruct (mperforms_log _ _ _ _ ltac:(eassumption) H1) as (log & A & B & C). destruct (IH _ _ _ ltac:(eassumption) H2) as (logs & A1 & B1 & L1 & L2 & C1).
    exists (log :: logs). split; [now constructor|]. split; [now constructor|]. split; [cbn; lia|]. split; [cbn; lia|].
    intros i t o l E1 E2 E3. destruct i as [|i]; cbn in *; [|eauto]. injection E1 as <-. injection E2 as <-. injection E3 as <-. exact C.
Qed.

Context (contents : nat -> nat -> N) (n : nat -> nat) (evss : list (list mevent)).
Context (X : mexecution w contents n evss).

Lemma modified e : In e (concat evss) -> modifies (what e) = true ->
  exec_prim (w (object e)) (performed (what e)) (contents (object e) (place (what e) - 1)) = (contents (object e) (place (what e)), got (what e)).
Proof.
  intros I M. apply (modification _ _ _ _ (each_object _ _ _ _ X (object e))); [|exact M]. rewrite on_concat. apply on_in. eauto.
Qed.
Lemma loaded e : In e (concat evss) -> modifies (what e) = false ->
  place (what e) <= n (object e) /\ exec_prim (w (object e)) (performed (what e)) (contents (object e) (place (what e))) = (contents (object e) (place (what e)), got (what e)).
Proof.
  intros I M. destruct (reading _ _ _ _ (each_object _ _ _ _ X (object e)) (what e)) as [A B]; [rewrite on_concat; apply on_in; eauto|exact M|].
  split; [exact A|]. unfold modifies in M. rewrite B. destruct (performed (what e)); try discriminate. reflexivity.
Qed.
Lemma places x : Permutation (map place (filter modifies (on x (concat evss)))) (seq 1 (n x)).
Proof. rewrite <- on_concat. apply (modification_order _ _ _ _ (each_object _ _ _ _ X x)). Qed.

(** ** Sequential consistency *)
Fixpoint turns (st : nat -> St) (calls : list (Op * Out)) (st' : nat -> St) : Prop :=
  match calls with
  | [] => forall x, st x = st' x
  | (c, o) :: rest => exists s, eff (st (tgt c)) c o s /\ turns (update st (tgt c) s) rest st'
  end.
Definition mark (x : nat * (Op * Out)) : nat * (Op * mprog Out) := (fst x, returned (snd x)).

Lemma replay_turns s : forall s' p st, replay p (map snd s) -> Forall (fun e => In (snd e) (concat evss)) s ->
  Forall2 (fun a b => fst a = fst b /\ event_of (snd a) (snd b)) s s' -> Forall (fun b => pre (fst (snd b))) s' ->
  (forall x, R x (contents x (p x)) (st x)) ->
  exists u st', s' = map mark u /\ turns st (map snd u) st' /\ forall x, R x (contents x (bumps p (map snd s) x)) (st' x).
Proof.
  induction s as [|[i e] s IH]; intros s' p st Hr Hin F Hp HR; inversion F as [|? [i' [c q]] ? s1 [Hi He] F1]; subst; cbn in *.
  - exists [], st. repeat split. exact HR.
  - subst i'. destruct Hr as [Hpl Hr]. inversion Hin as [|? ? Hie Hin1]; subst. inversion Hp as [|? ? Hc Hp1]; subst. cbn in *.
    destruct He as (k & Ek & Eq). cbn in *. destruct (single c Hc) as (pr & k' & Er & _ & Hs). rewrite Ek in Er. injection Er as Ex Epr Emo <-.
    assert (Sx : exec_prim (w (object e)) (performed (what e)) (contents (object e) (p (object e))) = (contents (object e) (bump p e (object e)), got (what e)) ).
    { unfold bump in *. destruct (modifies (what e)) eqn:M.
      - rewrite update_at in *. pose proof (modified e Hie M) as E. rewrite Hpl in E. cbn in E. now rewrite Nat.sub_0_r in E.
      - pose proof (proj2 (loaded e Hie M)) as E. now rewrite Hpl in E. }
    destruct (Hs (contents (object e) (p (object e))) (st (tgt c))) as (o & s2 & Ko & Ef & HR2); [rewrite <- Ex; apply HR|].
    rewrite <- Ex, <- Epr, Sx in Ko, HR2. cbn in Ko, HR2.
    destruct (IH s1 (bump p e) (update st (tgt c) s2) Hr Hin1 F1 Hp1) as (u & st' & Eu & T & HRf).
    { intros y. destruct (Nat.eq_dec y (object e)) as [->|N].
      - replace (update st (tgt c) s2 (object e)) with s2 by (rewrite Ex; now rewrite update_at). exact HR2.
      - rewrite update_other by congruence. replace (bump p e y) with (p y); [apply HR|]. unfold bump. destruct (modifies (what e)); [now rewrite update_other|reflexivity]. }
    exists ((i, (c, o)) :: u), st'. split; [|split; [|exact HRf]].
    + cbn. rewrite Eu. unfold mark, returned. cbn. now rewrite Eq, Ko.
    + cbn. exists s2. split; [exact Ef|exact T].
Qed.

Context (programs : list (list Op)) (ts' : list (mthread Op Out)) (outss : list (list (Op * Out))).
Context (Hpre : Forall (Forall pre) programs) (Hrun : mall_perform run (mstart programs) evss ts' outss).
Context (st : nat -> St) (Hinit : forall x, R x (contents x 0) (st x)).

Lemma logs_pre (logs : list (list (Op * mprog Out))) : Forall2 (fun prog log => exists rest, prog = map fst log ++ rest) programs logs -> forall c q, In (c, q) (concat logs) -> pre c.
Proof.
  intros F c q I. apply in_concat in I as (log & I1 & I2). apply In_nth_error in I1 as (i & E).
  destruct (Forall2_nth' _ _ _ _ _ F E) as (prog & Ep & (rest & ->)). rewrite Forall_forall in Hpre. apply nth_error_In in Ep. apply Hpre in Ep.
  rewrite Forall_forall in Ep. apply Ep, in_or_app. left. apply in_map_iff. now exists (c, q).
Qed.
Lemma map_returned_inj l l' : map returned l = map returned l' -> l = l'.
Proof. revert l'. induction l as [|[c o] l IH]; intros [|[c' o'] l'] H; try discriminate; [reflexivity|]. cbn in H. injection H as -> -> H. f_equal. now apply IH. Qed.
Lemma filter_mark i u : map snd (filter (fun e => fst e =? i) (map mark u)) = map returned (map snd (filter (fun e => fst e =? i) u)).
Proof. induction u as [|[j x] u IH]; [reflexivity|]. cbn. destruct (j =? i); cbn; now rewrite IH. Qed.

(** If every log ends in replies, the logs are the replies. *)
Lemma logs_replies (logs : list (list (Op * mprog Out))) : length ts' = length logs -> length outss = length logs ->
  (forall i t outs log, nth_error ts' i = Some t -> nth_error outss i = Some outs -> nth_error logs i = Some log -> logged t outs log) ->
  (forall c q, In (c, q) (concat logs) -> exists o, q = MRet o) ->
  Forall (fun t => ~ gone_wrong t) ts' /\ forall i, nth i logs [] = map returned (replies ts' outss i).
Proof.
  intros L1 L2 Lg NB.
  assert (K : forall i t outs log, nth_error ts' i = Some t -> nth_error outss i = Some outs -> nth_error logs i = Some log -> ~ gone_wrong t /\ log = map returned (outs ++ pending t)).
  { intros i t outs log E1 E2 E3. destruct (Lg i t outs log E1 E2 E3) as [H|(c & _ & ->)]; [exact H|]. exfalso.
    destruct (NB c MBad) as (o & F); [|discriminate]. apply in_concat. exists (map returned outs ++ [(c, MBad)]). split; [eapply nth_error_In; exact E3|]. apply in_or_app. right. now left. }
  split.
  - apply Forall_forall. intros t It. apply In_nth_error in It as (i & E). assert (i < length ts') by (apply nth_error_Some; congruence).
    destruct (nth_error outss i) eqn:E2; [|apply nth_error_None in E2; lia]. destruct (nth_error logs i) eqn:E3; [|apply nth_error_None in E3; lia].
    eapply K; eassumption.
  - intros i. unfold replies. destruct (nth_error ts' i) as [t|] eqn:E1.
    + assert (i < length ts') by (apply nth_error_Some; congruence).
      destruct (nth_error outss i) eqn:E2; [|apply nth_error_None in E2; lia]. destruct (nth_error logs i) eqn:E3; [|apply nth_error_None in E3; lia].
      rewrite (nth_error_nth _ _ _ E2), (nth_error_nth _ _ _ E3). eapply K; eassumption.
    + apply nth_error_None in E1. rewrite !nth_overflow by lia. reflexivity.
Qed.

Lemma nth_filter_all i : (forall e, In e (concat evss) -> is_seq_cst e = true) -> nth i (map (filter is_seq_cst) evss) [] = nth i evss [].
Proof.
  intros H. change [] with (filter is_seq_cst []) at 1. rewrite map_nth.
  assert (K : forall e, In e (nth i evss []) -> is_seq_cst e = true).
  { intros e I. apply H. destruct (nth_in_or_default i evss []) as [J|J]; [apply in_concat; eauto|rewrite J in I; destruct I]. }
  induction (nth i evss []) as [|e l IH]; [reflexivity|]. cbn. rewrite K by now left. f_equal. apply IH. intros. apply K. now right.
Qed.

Lemma sequential : (forall c, In c (concat programs) -> ord c = SeqCst) ->
  Forall (fun t => ~ gone_wrong t) ts' /\
  exists s st', (forall i, map snd (filter (fun e => fst e =? i) s) = replies ts' outss i) /\ turns st (map snd s) st' /\ forall x, R x (contents x (n x)) (st' x).
Proof.
  intros Hsc. destruct (mall_perform_logs _ _ _ _ Hpre Hrun) as (logs & Fl & Fp & L1 & L2 & Lg).
  assert (Sc : forall e, In e (concat evss) -> is_seq_cst e = true).
  { intros e I. destruct (Forall2_in _ _ _ _ (Forall2_concat _ _ _ Fl) I) as ([c q] & Ic & (k & Ek & _)). cbn in Ek.
    destruct (single c (logs_pre _ Fp _ _ Ic)) as (p & k' & Er & _). rewrite Ek in Er. injection Er as _ _ Eo _. unfold is_seq_cst. rewrite Eo.
    rewrite (Hsc c); [reflexivity|]. apply in_concat in Ic as (log & J1 & J2). apply In_nth_error in J1 as (i & E). destruct (Forall2_nth' _ _ _ _ _ Fp E) as (prog & Ep & (rest & Erest)).
    apply in_concat. exists prog. split; [eapply nth_error_In; exact Ep|]. rewrite Erest. apply in_or_app. left. apply in_map_iff. now exists (c, q). }
  destruct (seq_cst_order _ _ _ _ X) as (s & Ms & Os).
  assert (Ms' : merges s evss) by (intros i; rewrite Ms; now apply nth_filter_all).
  destruct (merges_lift event_of s _ _ Ms' Fl) as (s' & M' & F').
  pose proof (merges_perm _ _ Ms') as Ps.
  destruct (replays (map snd s) (fun _ => 0) n) as (Rp & Bp).
  - intros x. rewrite <- (places x). apply Permutation_map, perm_filter, on_perm, Ps.
  - intros x a Ia Ma. apply on_in in Ia as (e & Ie & <- & <-). split; [lia|]. apply (loaded e); [|exact Ma]. eapply Permutation_in; [exact Ps|exact Ie].
  - apply FOP_map. exact Os.
  - destruct (replay_turns s s' (fun _ => 0) st Rp) as (u & st' & Eu & T & HR).
    + apply Forall_forall. intros [i e] I. cbn. eapply Permutation_in; [exact Ps|]. apply in_map_iff. now exists (i, e).
    + exact F'.
    + apply Forall_forall. intros [i [c q]] I. cbn. apply (logs_pre _ Fp c q). eapply Permutation_in; [apply (merges_perm _ _ M')|]. apply in_map_iff. now exists (i, (c, q)).
    + exact Hinit.
    + destruct (logs_replies logs L1 L2 Lg) as (NG & Rl).
      { intros c q I. apply (Permutation_in _ (Permutation_sym (merges_perm _ _ M'))) in I. apply in_map_iff in I as ([i y] & E & I). cbn in E. subst y.
        rewrite Eu in I. apply in_map_iff in I as ([j [c' o]] & E & _). unfold mark, returned in E. cbn in E. injection E as _ _ <-. now exists o. }
      split; [exact NG|]. exists u, st'. split; [|split; [exact T|]].
      * intros i. apply map_returned_inj. rewrite <- Rl, <- filter_mark, <- Eu. apply M'.
      * intros x. specialize (HR x). rewrite Bp in HR. exact HR.
Qed.

(** ** Any memory orders *)
(** The place of the modification that an event comes right after. *)
Definition since (e : mevent) : nat := if modifies (what e) then place (what e) - 1 else place (what e).
Lemma exec_event e : In e (concat evss) -> since e <= n (object e) /\ place (what e) <= n (object e) /\
  exec_prim (w (object e)) (performed (what e)) (contents (object e) (since e)) = (contents (object e) (place (what e)), got (what e)).
Proof.
  intros I. unfold since. destruct (modifies (what e)) eqn:M.
  - assert (P : In (place (what e)) (seq 1 (n (object e)))).
    { eapply Permutation_in; [apply places|]. apply in_map, filter_In. split; [|exact M]. apply on_in. eauto. }
    apply in_seq in P. split; [lia|]. split; [lia|]. now apply modified.
  - destruct (loaded e I M) as [A B]. auto.
Qed.
Lemma event_with_place x k : 1 <= k <= n x -> exists e, In e (concat evss) /\ object e = x /\ modifies (what e) = true /\ place (what e) = k.
Proof.
  clear Hinit st. intros H. assert (I : In k (map place (filter modifies (on x (concat evss))))) by (eapply Permutation_in; [apply Permutation_sym, places|apply in_seq; lia]).
  apply in_map_iff in I as (a & <- & I). apply filter_In in I as [I M]. apply on_in in I as (e & I & <- & <-). eauto.
Qed.
Lemma states x k : k <= n x -> exists s, R x (contents x k) s.
Proof.
  destruct (mall_perform_logs _ _ _ _ Hpre Hrun) as (logs & Fl & Fp & _).
  induction k as [|k IH]; intros Hk; [eexists; apply Hinit|]. destruct (event_with_place x (S k)) as (e & I & <- & M & Pl); [lia|].
  destruct (Forall2_in _ _ _ _ (Forall2_concat _ _ _ Fl) I) as ([c q] & Ic & (k' & Ek & _)). cbn in Ek.
  destruct (single c (logs_pre _ Fp _ _ Ic)) as (p & k2 & Er & _ & Hs). rewrite Ek in Er. injection Er as Ex Ep _ _.
  destruct IH as (s & HR); [lia|]. rewrite Ex in HR. destruct (Hs _ _ HR) as (o & s' & _ & _ & HR'). exists s'. rewrite <- Ex, <- Ep in HR'.
  destruct (exec_event e I) as (_ & _ & E). unfold since in E. rewrite M, Pl in E. cbn [Nat.sub] in E. rewrite Nat.sub_0_r in E. now rewrite E in HR'.
Qed.
(** Call [co] with its reply is what event [e] did. *)
Record explains (e : mevent) (co : Op * Out) : Prop := {
  ex_pre : pre (fst co);
  ex_target : tgt (fst co) = object e;
  ex_order : ord (fst co) = order e;
  ex_code : exists k, run (fst co) = MDo (object e) (performed (what e)) (order e) k;
  ex_effect : exists s s', R (object e) (contents (object e) (since e)) s /\ eff s (fst co) (snd co) s' /\ R (object e) (contents (object e) (place (what e))) s' }.
Lemma explained : Forall (fun t => ~ gone_wrong t) ts' /\ forall i, Forall2 explains (nth i evss []) (replies ts' outss i).
Proof.
  destruct (mall_perform_logs _ _ _ _ Hpre Hrun) as (logs & Fl & Fp & L1 & L2 & Lg).
  assert (K : forall e c q, In e (concat evss) -> In (c, q) (concat logs) -> event_of e (c, q) -> exists o, q = MRet o /\ explains e (c, o)).
  { intros e c q Ie Ic (k & Ek & Eq). cbn in *. pose proof (logs_pre _ Fp _ _ Ic) as Pc. destruct (single c Pc) as (p & k2 & Er & _ & Hs). rewrite Ek in Er. injection Er as Ex Ep Eo <-.
    destruct (exec_event e Ie) as (A & B & E). destruct (states (object e) (since e) A) as (s & HR). rewrite Ex in HR. destruct (Hs _ _ HR) as (o & s' & Ko & Ef & HR').
    rewrite <- Ex in HR. rewrite <- Ex, <- Ep, E in HR', Ko. cbn in HR', Ko. exists o. split; [congruence|].
    split; cbn; [exact Pc|congruence|congruence|now exists k|]. exists s, s'. auto. }
  destruct (logs_replies logs L1 L2 Lg) as (NG & Rl).
  { intros c q I. destruct (Forall2_in' _ _ _ _ (Forall2_concat _ _ _ Fl) I) as (e & Ie & Ev). destruct (K e c q Ie I Ev) as (o & -> & _). now exists o. }
  split; [exact NG|]. intros i. specialize (Rl i).
  assert (Fi : Forall2 event_of (nth i evss []) (nth i logs [])).
  { destruct (nth_error evss i) as [evs|] eqn:E.
    - destruct (Forall2_nth _ _ _ _ _ Fl E) as (log & E' & F). now rewrite (nth_error_nth _ _ _ E), (nth_error_nth _ _ _ E').
    - apply nth_error_None in E. pose proof (F2_length _ _ _ Fl). rewrite !nth_overflow by lia. constructor. }
  assert (I1 : forall e, In e (nth i evss []) -> In e (concat evss)).
  { intros e I. destruct (nth_in_or_default i evss []) as [J|J]; [apply in_concat; eauto|rewrite J in I; destruct I]. }
  assert (I2 : forall c, In c (nth i logs []) -> In c (concat logs)).
  { intros c I. destruct (nth_in_or_default i logs []) as [J|J]; [apply in_concat; eauto|rewrite J in I; destruct I]. }
  rewrite Rl in Fi, I2. clear Rl. revert I1 I2 Fi. generalize (nth i evss []) (replies ts' outss i). intros l. induction l as [|e l IH]; intros [|[c o] r] I1 I2 Fi; inversion Fi; subst; constructor.
  - destruct (K e c (MRet o)) as (o' & Eo & Hx); [apply I1; now left|apply I2; now left|assumption|]. injection Eo as <-. exact Hx.
  - apply IH; [intros; apply I1; now right|intros; apply I2; now right|assumption].
Qed.
Lemma event_replies i j e : event_at evss (i, j) = Some e -> exists co, nth_error (replies ts' outss i) j = Some co /\ explains e co.
Proof.
  unfold event_at. cbn. destruct (nth_error evss i) as [evs|] eqn:E; [|discriminate]. intros F. pose proof (proj2 explained i) as G.
  rewrite (nth_error_nth _ _ _ E) in G. eapply Forall2_nth; eassumption.
Qed.
Lemma replies_event i j co : nth_error (replies ts' outss i) j = Some co -> exists e, event_at evss (i, j) = Some e /\ explains e co.
Proof.
  intros F. pose proof (proj2 explained i) as G. destruct (Forall2_nth' _ _ _ _ _ G F) as (e & E & Hx). exists e. split; [|exact Hx].
  unfold event_at. cbn. destruct (nth_error evss i) as [evs|] eqn:E1; [now rewrite (nth_error_nth _ _ _ E1) in E|].
  apply nth_error_None in E1. rewrite nth_overflow in E by exact E1. destruct j; discriminate.
Qed.
Lemma replies_in i co : In co (replies ts' outss i) -> In (fst co) (concat programs).
Proof.
  intros I. destruct (mall_perform_logs _ _ _ _ Hpre Hrun) as (logs & Fl & Fp & L1 & L2 & Lg).
  unfold replies in I. destruct (nth_error ts' i) as [t|] eqn:E1.
  - assert (i < length ts') by (apply nth_error_Some; congruence).
    destruct (nth_error outss i) as [outs|] eqn:E2; [|apply nth_error_None in E2; lia]. destruct (nth_error logs i) as [log|] eqn:E3; [|apply nth_error_None in E3; lia].
    rewrite (nth_error_nth _ _ _ E2) in I. destruct (Lg _ _ _ _ E1 E2 E3) as [[_ El]|(c & Ec & El)].
    + destruct (Forall2_nth' _ _ _ _ _ Fp E3) as (prog & Ep & (rest & ->)). apply in_concat. eexists. split; [eapply nth_error_In; exact Ep|]. apply in_or_app. left.
      rewrite El, map_map. cbn. now apply in_map.
    + destruct (Forall2_nth' _ _ _ _ _ Fp E3) as (prog & Ep & (rest & ->)). apply in_concat. eexists. split; [eapply nth_error_In; exact Ep|]. apply in_or_app. left.
      unfold pending in I. rewrite Ec, app_nil_r in I. rewrite El, map_app, map_map. apply in_or_app. left. cbn. now apply in_map.
  - apply nth_error_None in E1. rewrite app_nil_r, nth_overflow in I by lia. destruct I.
Qed.
End Sys.
