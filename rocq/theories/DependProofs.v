(** Proofs about latched values that depend on each other. *)
From Coq Require Import List Arith Lia.
From Verif Require Import DependModel DependSpec.
Import ListNotations.

Section Proofs.
Context {W V : Type}.
Variable body : nat -> script W V.

Lemma run_ret n v (s : state W V) : run body n (Ret v) s = Some (v, s).
Proof. destruct n; reflexivity. Qed.
Lemma run_world n f k (s : state W V) : run body n (World f k) s = run body n (k (f (world s))) (with_world (f (world s)) s).
Proof. destruct n; reflexivity. Qed.
Lemma run_has n j k (s : state W V) : run body n (HasValue j k) s = run body n (k (match memo s j with Some _ => true | None => false end)) s.
Proof. destruct n; reflexivity. Qed.
Lemma run_value n j k (s : state W V) : run body n (Value j k) s =
  match memo s j with
  | Some v => run body n (k v) s
  | None => match n with
            | O => None
            | S n' => match run body n' (body j) (called j s) with
                      | Some (v, s') => run body n (k v) (construct j v s')
                      | None => None
                      end
            end
  end.
Proof. destruct n; reflexivity. Qed.

Definition clean (P : nat -> Prop) (s : state W V) : Prop := forall j, P j -> (In j (calls s) <-> memo s j <> None).
Record post (P : nat -> Prop) (s s' : state W V) : Prop := {
  p_dup : NoDup (calls s');
  p_lost : lost s' = lost s;
  p_clean : clean P s';
  p_other : forall j, ~ P j -> memo s' j = memo s j /\ (In j (calls s') <-> In j (calls s));
  p_keep : forall j v, memo s j = Some v -> memo s' j = Some v }.
Definition ends (P : nat -> Prop) (b : script W V) (s : state W V) : Prop :=
  exists n v s', (forall m, n <= m -> run body m b s = Some (v, s')) /\ post P s s'.

Variable rank : nat -> nat.
Hypothesis acyc : forall i, asks_only (fun j => rank j < rank i) (body i).

Lemma post_trans P s1 s2 s3 : post P s1 s2 -> post P s2 s3 -> post P s1 s3.
Proof.
  intros [A1 A2 A3 A4 A5] [B1 B2 B3 B4 B5]. constructor; auto.
  - congruence.
  - intros j N. destruct (A4 j N), (B4 j N). split; [congruence | tauto].
Qed.
Lemma NoDup_snoc (l : list nat) j : NoDup l -> ~ In j l -> NoDup (l ++ [j]).
Proof.
  induction l as [|x l IH]; intros N H; cbn.
  - repeat constructor. auto.
  - inversion N; subst. constructor.
    + rewrite in_app_iff. cbn in *. intuition congruence.
    + apply IH; cbn in *; tauto.
Qed.
(** A script over objects whose functions end, ends. *)
Lemma script_ends (P : nat -> Prop) (down : forall j k, P j -> rank k < rank j -> P k)
  (objs : forall j s, P j -> clean (fun k => rank k < rank j) s -> NoDup (calls s) -> ends (fun k => rank k < rank j) (body j) s) :
  forall b s, asks_only P b -> clean P s -> NoDup (calls s) -> ends P b s.
Proof.
  induction b as [v|f k IH|j k IH|j k IH]; intros s A C N.
  - exists 0, v, s. split; [intros; apply run_ret|]. constructor; auto. intros; tauto.
  - cbn in A. destruct (IH (f (world s)) (with_world (f (world s)) s) (A _) C N) as (n & v & s' & R & Q).
    exists n, v, s'. split; [intros m L; rewrite run_world; now apply R|]. destruct Q as [Q1 Q2 Q3 Q4 Q5]. constructor; auto.
  - cbn in A. destruct A as [Pj A]. destruct (memo s j) as [v|] eqn:M.
    + destruct (IH v s (A v) C N) as (n & z & s' & R & Q). exists n, z, s'. split; [|exact Q].
      intros m L. rewrite run_value, M. now apply R.
    + assert (NI : ~ In j (calls s)) by (intros I; apply (C j Pj) in I; congruence).
      assert (C1 : clean (fun k => rank k < rank j) (called j s)).
      { intros i L. cbn. rewrite in_app_iff. pose proof (C i (down j i Pj L)) as E. cbn. assert (i <> j) by (intros ->; lia). intuition congruence. }
      destruct (objs j (called j s) Pj C1 (NoDup_snoc _ _ N NI)) as (n1 & v & s1 & R1 & Q1).
      destruct Q1 as [D1 L1 K1 O1 E1].
      assert (Mj : memo s1 j = None) by (destruct (O1 j (Nat.lt_irrefl _)) as [E _]; rewrite E; exact M).
      assert (QA : post P s (construct j v s1)).
      { constructor; cbn.
        - exact D1.
        - rewrite Mj. exact L1.
        - intros i Pi. cbn. unfold set. destruct (Nat.eqb_spec i j) as [->|ij].
          + split; [discriminate|]. intros _. apply (O1 j (Nat.lt_irrefl _)). cbn. rewrite in_app_iff. cbn. auto.
          + destruct (lt_dec (rank i) (rank j)) as [L|L]; [apply K1; exact L|]. destruct (O1 i L) as [E F]. rewrite E. rewrite F. cbn.
            rewrite in_app_iff. cbn. rewrite <- (C i Pi). intuition congruence.
        - intros i Ni. assert (ij : i <> j) by (intros ->; tauto). unfold set. apply Nat.eqb_neq in ij as ij'. rewrite ij'.
          destruct (lt_dec (rank i) (rank j)) as [L|L]; [exfalso; apply Ni; eapply down; eauto|]. destruct (O1 i L) as [E F]. rewrite E, F. cbn.
          rewrite in_app_iff. cbn. intuition congruence.
        - intros i u Mi. unfold set. destruct (Nat.eqb_spec i j) as [->|ij]; [congruence|]. now apply E1. }
      destruct (IH v (construct j v s1) (A v) (p_clean _ _ _ QA) (p_dup _ _ _ QA)) as (n2 & z & s' & R2 & Q2).
      exists (S (n1 + n2)), z, s'. split; [|eapply post_trans; eauto].
      intros m L. rewrite run_value, M. destruct m as [|m]; [lia|]. rewrite R1 by lia. apply R2. lia.
  - cbn in A. destruct (IH (match memo s j with Some _ => true | None => false end) s (A _) C N) as (n & v & s' & R & Q).
    exists n, v, s'. split; [intros m L; rewrite run_has; now apply R | exact Q].
Qed.
Lemma bodies_end : forall r j s, rank j < r -> clean (fun k => rank k < rank j) s -> NoDup (calls s) -> ends (fun k => rank k < rank j) (body j) s.
Proof.
  induction r as [|r IH]; intros j s L C N; [lia|].
  apply script_ends; auto.
  - intros; lia.
  - intros i t Li Ci Ni. apply IH; auto. lia.
Qed.
Lemma any_script_ends b s : asks_only (fun _ => True) b -> clean (fun _ => True) s -> NoDup (calls s) -> ends (fun _ => True) b s.
Proof.
  intros A C N. apply script_ends; auto. intros j t _ C1 N1. apply (bodies_end (S (rank j))); auto.
Qed.
End Proofs.

Lemma asks_anything {W V} (b : script W V) : asks_only (fun _ => True) b.
Proof. induction b; cbn; auto. Qed.

(** Meanings. *)
Lemma means_functional {W V} (body : nat -> script W V) b v : means body b v -> forall u, means body b u -> u = v.
Proof.
  induction 1 as [v|j k v z A IA B IB]; intros u M.
  - inversion M; reflexivity.
  - inversion M as [|j' k' v' z' A' B']; subst. apply IA in A'. subst v'. now apply IB.
Qed.
Lemma run_means {W V} (body : nat -> script W V) (pure : forall i, only_values (body i)) :
  forall n b s v s', only_values b -> (forall j u, memo s j = Some u -> means body (body j) u) -> run body n b s = Some (v, s') ->
    means body b v /\ (forall j u, memo s' j = Some u -> means body (body j) u).
Proof.
  induction n as [n IHn] using lt_wf_ind.
  induction b as [v|f k IH|j k IH|j k IH]; intros s z s' O M; cbn in O; try contradiction.
  - rewrite run_ret. intros [= <- <-]. split; [constructor | exact M].
  - rewrite run_value. destruct (memo s j) as [u|] eqn:Mj.
    + intros R. destruct (IH u s z s' (O u) M R) as [A B]. split; [|exact B]. apply (m_value body j k u z); auto.
    + destruct n as [|n]; [discriminate|]. destruct (run body n (body j) (called j s)) as [[u s1]|] eqn:R1; [|discriminate]. intros R.
      assert (Ln : n < S n) by lia.
      destruct (IHn n Ln (body j) (called j s) u s1 (pure j) M R1) as [A B].
      assert (M1 : forall i x, memo (construct j u s1) i = Some x -> means body (body i) x).
      { intros i x. cbn. unfold set. destruct (Nat.eqb_spec i j) as [->|ij]; [intros [= <-]; exact A | apply B]. }
      destruct (IH u (construct j u s1) z s' (O u) M1 R) as [A' B']. split; [|exact B']. apply (m_value body j k u z); auto.
Qed.

(** Cycles. *)
Lemma cycle_diverges {W V} (body : nat -> script W V) (C : nat -> Prop) (cyc : forall i, C i -> must_ask C (body i)) :
  forall n b s, (forall j, C j -> memo s j = None) ->
    (must_ask C b -> run body n b s = None) /\
    (forall v s', run body n b s = Some (v, s') -> forall j, C j -> memo s' j = None).
Proof.
  induction n as [n IHn] using lt_wf_ind.
  induction b as [v|f k IH|j k IH|j k IH]; intros s M.
  - split; [contradiction|]. intros u s'. rewrite run_ret. intros [= <- <-]. exact M.
  - rewrite run_world. destruct (IH (f (world s)) (with_world (f (world s)) s) M) as [A B]. split; [|exact B]. intros Q. apply A. apply Q.
  - rewrite run_value. destruct (memo s j) as [u|] eqn:Mj.
    + destruct (IH u s M) as [A B]. split; [|exact B]. intros [Q|Q]; [rewrite (M j Q) in Mj; discriminate | apply A; apply Q].
    + destruct n as [|n]; [split; [reflexivity | discriminate]|].
      assert (Ln : n < S n) by lia. destruct (IHn n Ln (body j) (called j s) M) as [A1 B1].
      destruct (run body n (body j) (called j s)) as [[u s1]|] eqn:R1; [|split; [reflexivity | discriminate]].
      assert (NC : ~ C j) by (intros Cj; specialize (A1 (cyc j Cj)); discriminate).
      assert (M1 : forall i, C i -> memo (construct j u s1) i = None).
      { intros i Ci. cbn. unfold set. destruct (Nat.eqb_spec i j) as [->|ij]; [contradiction|]. eapply B1; eauto. }
      destruct (IH u (construct j u s1) M1) as [A B]. split; [|exact B]. intros [Q|Q]; [contradiction | apply A; apply Q].
  - rewrite run_has. destruct (IH (match memo s j with Some _ => true | None => false end) s M) as [A B]. split; [|exact B]. intros Q. apply A. apply Q.
Qed.
