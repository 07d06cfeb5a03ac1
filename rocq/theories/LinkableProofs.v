From Coq Require Import List Bool PeanoNat Lia Wf_nat.
From Verif Require Import LinkableModel LinkableSpec.
Import ListNotations.

Section Classes.
Variable E : list class.

Lemma chain_fuel : forall c f g, c < f -> c < g -> chain E f c = chain E g c.
Proof.
  intros c. induction c as [c IH] using lt_wf_ind. intros [|f] [|g] Hf Hg; try lia. cbn [chain].
  destruct (nth_error E c) as [k|]; [|reflexivity]. f_equal. destruct (base k) as [b|]; [|reflexivity].
  destruct (Nat.ltb_spec b c); [|reflexivity]. apply IH; lia.
Qed.
Lemma bases_eq c : bases E c = match nth_error E c with
  | None => []
  | Some k => c :: match base k with Some b => if b <? c then bases E b else [] | None => [] end end.
Proof.
  unfold bases at 1. cbn [chain]. destruct (nth_error E c) as [k|]; [|reflexivity]. f_equal.
  destruct (base k) as [b|]; [|reflexivity]. destruct (Nat.ltb_spec b c); [|reflexivity]. apply chain_fuel; lia.
Qed.
Lemma bases_le c : forall a, In a (bases E c) -> a <= c.
Proof.
  induction c as [c IH] using lt_wf_ind. intros a. rewrite bases_eq. destruct (nth_error E c) as [k|]; [|intros []].
  intros [->|H]; [lia|]. destruct (base k) as [b|]; [|destruct H]. destruct (Nat.ltb_spec b c) as [L|L]; [|destruct H].
  apply IH in H; lia.
Qed.
Lemma derives_le d b : derives E d b = true -> b <= d.
Proof. unfold derives. intros H. apply existsb_exists in H as (x & I & Q). apply Nat.eqb_eq in Q as <-. apply bases_le. exact I. Qed.
Lemma derives_self c m x : member_of E c m = Some x -> derives E c c = true.
Proof.
  unfold member_of, derives. rewrite bases_eq. destruct (nth_error E c); [|discriminate]. intros _. cbn. rewrite Nat.eqb_refl. reflexivity.
Qed.
Lemma derives_inherits (W : well_formed E) d b : derives E d b = true <-> inherits E d b.
Proof.
  unfold derives. rewrite existsb_exists. split.
  - intros (x & I & Q). apply Nat.eqb_eq in Q as <-. revert b I. induction d as [d IH] using lt_wf_ind. intros a. rewrite bases_eq.
    destruct (nth_error E d) as [k|] eqn:K; [|intros []]. intros [->|H]; [eapply inherits_self; eauto|].
    destruct (base k) as [b|] eqn:B; [|destruct H]. destruct (Nat.ltb_spec b d) as [L|L]; [|destruct H].
    eapply inherits_base; eauto.
  - intros I. exists b. split; [|apply Nat.eqb_refl]. induction I as [c k K|c k b a K B I IH]; rewrite bases_eq, K; [left; reflexivity|].
    right. rewrite B. pose proof (W c k b K B) as L. apply Nat.ltb_lt in L. rewrite L. exact IH.
Qed.
Lemma member_finds (W : well_formed E) c m x : member_of E c m = Some x <-> finds E c m x.
Proof.
  unfold member_of. split.
  - induction c as [c IH] using lt_wf_ind. rewrite bases_eq. destruct (nth_error E c) as [k|] eqn:K; [|discriminate].
    cbn [first_member]. rewrite K. destruct (own k m) as [y|] eqn:O; [intros Q; injection Q as ->; eapply finds_own; eauto|].
    destruct (base k) as [b|] eqn:B; [|discriminate]. destruct (Nat.ltb_spec b c) as [L|L]; [|discriminate]. intros Q. eapply finds_base; eauto.
  - intros F. induction F as [c k m x K O|c k m x b K O B F IH]; rewrite bases_eq, K; cbn [first_member]; rewrite K, O; [reflexivity|].
    rewrite B. pose proof (W c k b K B) as L. apply Nat.ltb_lt in L. rewrite L. exact IH.
Qed.

Lemma ty_eqb_eq a b : ty_eqb a b = true <-> a = b.
Proof.
  destruct a as [k c| |], b as [k' c'| |]; cbn; try (split; congruence).
  rewrite andb_true_iff, Nat.eqb_eq. split; [intros (A & ->); apply Bool.eqb_prop in A; congruence|].
  intros Q; injection Q as -> ->. split; [apply Bool.eqb_reflx | reflexivity].
Qed.
Lemma arrow_is_spec t m : arrow_is E t m = true <-> exists c, t = Ptr false c /\ member_of E c m = Some {| mtype := Ptr false c; mconst := false |}.
Proof.
  unfold arrow_is, arrow. destruct t as [k c| |]; try (split; [discriminate | intros (c & Q & _); discriminate]).
  destruct (member_of E c m) as [[u q]|] eqn:M; cbn [mtype mconst].
  - rewrite andb_true_iff, ty_eqb_eq, negb_true_iff, orb_false_iff. split.
    + intros (-> & -> & ->). exists c. split; [reflexivity|]. exact M.
    + intros (c' & Q & Q2). injection Q as -> <-. rewrite M in Q2. injection Q2 as -> ->. auto.
  - split; [discriminate|]. intros (c' & Q & Q2). injection Q as _ <-. congruence.
Qed.
Lemma single_spec T : single_linkable E T = true <->
  exists x D, member_of E T Next = Some x /\ mtype x = Ptr false D /\ member_of E D Next = Some {| mtype := Ptr false D; mconst := false |}.
Proof.
  unfold single_linkable, arrow. destruct (member_of E T Next) as [x|].
  - unfold base_single_linkable. rewrite arrow_is_spec. split.
    + intros (c & A & B). exists x, c. auto.
    + intros (x' & D & Q & A & B). injection Q as <-. eauto.
  - split; [discriminate|]. intros (x & D & Q & _). discriminate.
Qed.
Definition both T (m : member_name) : Prop :=
  exists x D, member_of E T m = Some x /\ mtype x = Ptr false D /\
    member_of E D Next = Some {| mtype := Ptr false D; mconst := false |} /\ member_of E D Prev = Some {| mtype := Ptr false D; mconst := false |}.
Lemma half_spec T m : match arrow E (Ptr false T) m with Some (u, _) => base_double_linkable E u | None => false end = true <-> both T m.
Proof.
  unfold both, arrow. destruct (member_of E T m) as [x|].
  - unfold base_double_linkable, base_single_linkable. rewrite andb_true_iff, !arrow_is_spec. split.
    + intros ((c & A & B) & (c' & A' & B')). rewrite A in A'. injection A' as <-. exists x, c. auto.
    + intros (x' & D & Q & A & B & C). injection Q as <-. split; eauto.
  - split; [discriminate|]. intros (x & D & Q & _). discriminate.
Qed.
Lemma double_spec T : double_linkable E T = true <-> both T Next /\ both T Prev.
Proof. unfold double_linkable. rewrite andb_true_iff, !half_spec. reflexivity. Qed.

Section NodeType.
Variable T : nat.
Let good (m : member_name) := member_of E T m = Some {| mtype := Ptr false T; mconst := false |}.

(** next = v and v = next. *)
Lemma both_ways p m : p = [m] -> compiles_stmt E T (Set_ p v) = true -> compiles_stmt E T (Set_ v p) = true -> good m.
Proof.
  intros ->. unfold v. cbn [compiles_stmt]. unfold type_of. cbn [path_ty fst]. unfold arrow, good. destruct (member_of E T m) as [[u q]|] eqn:M; cbn [path_ty mtype mconst converts negb andb]; [|intros Q; discriminate Q].
  destruct u as [k c| |]; try (rewrite ?andb_false_r; intros Q; discriminate Q).
  rewrite !andb_true_iff, orb_false_r, negb_true_iff. intros (-> & A & B) C0. cbn [converts] in C0. apply andb_true_iff in C0 as (C & D).
  apply derives_le in A, C. assert (c = T) by lia. subst c. destruct k; [discriminate|]. reflexivity.
Qed.
Lemma good_arrow m : good m -> arrow E (Ptr false T) m = Some (Ptr false T, false).
Proof. intros G. unfold arrow. rewrite G. reflexivity. Qed.
Lemma good_self m : good m -> converts E (Ptr false T) (Ptr false T) = true.
Proof. intros G. cbn [converts]. rewrite (derives_self _ _ _ G). reflexivity. Qed.
Lemma good_single : good Next -> single_linkable E T = true.
Proof. intros G. apply single_spec. exists {| mtype := Ptr false T; mconst := false |}, T. auto. Qed.
Lemma good_double : good Next -> good Prev -> double_linkable E T = true.
Proof. intros G H. apply double_spec. split; exists {| mtype := Ptr false T; mconst := false |}, T; auto. Qed.
Lemma compiles_app a b : compiles E T (a ++ b) = compiles E T a && compiles E T b.
Proof. apply forallb_app. Qed.
Lemma compiles_in l s : compiles E T l = true -> In s l -> compiles_stmt E T s = true.
Proof. unfold compiles. rewrite forallb_forall. auto. Qed.

Definition prev_ok : Prop := forall x, member_of E T Prev = Some x -> mconst x = false /\ mtype x <> NotPtr.
Lemma prev_ok_ptr x : prev_ok -> member_of E T Prev = Some x -> mconst x = false /\ is_pointer (mtype x) = true.
Proof. intros H M. destruct (H x M) as (A & B). split; [exact A|]. destruct (mtype x); [reflexivity | reflexivity | congruence]. Qed.

Ltac tyc := unfold compiles_stmt, type_of, next_, prev_, v; cbn [path_ty fst].
Lemma on_ok checked : good Next -> (checked = true -> prev_ok) ->
  compiles E T (on_push E T checked) = true /\ compiles E T (on_pop E T checked) = true /\ compiles E T (on_clear E T checked) = true.
Proof.
  intros G H. destruct checked; [|repeat split; reflexivity]. specialize (H eq_refl).
  assert (N1 : compiles_stmt E T (IsNull next_) = true) by (tyc; rewrite (good_arrow _ G); reflexivity).
  assert (N2 : compiles_stmt E T (SetNull next_) = true) by (tyc; rewrite (good_arrow _ G); reflexivity).
  assert (N3 : compiles_stmt E T (Set_ v next_) = true) by (tyc; rewrite (good_arrow _ G), (good_self _ G); reflexivity).
  assert (S1 : compiles_stmt E T NeedSingle = true) by exact (good_single G).
  assert (P : compiles E T (if_prev E T [IsNull prev_]) = true /\ compiles E T (if_prev E T [SetNull prev_]) = true).
  { unfold if_prev, has_prev_pointer. destruct (member_of E T Prev) as [x|] eqn:M; [|split; reflexivity].
    destruct (prev_ok_ptr x H M) as (A & B). unfold compiles; cbn [forallb]; tyc. unfold arrow. rewrite M. cbn [mtype mconst]. rewrite A, B. split; reflexivity. }
  destruct P as (P1 & P2).
  unfold on_push, on_pop, on_clear. split; [|split].
  - change (NeedSingle :: if_prev E T [IsNull prev_] ++ [IsNull next_]) with ([NeedSingle] ++ if_prev E T [IsNull prev_] ++ [IsNull next_]).
    rewrite !compiles_app, P1. unfold compiles. cbn [forallb]. rewrite S1, N1. reflexivity.
  - change (NeedSingle :: if_prev E T [SetNull prev_] ++ [SetNull next_]) with ([NeedSingle] ++ if_prev E T [SetNull prev_] ++ [SetNull next_]).
    rewrite !compiles_app, P2. unfold compiles. cbn [forallb]. rewrite S1, N2. reflexivity.
  - change (NeedSingle :: IsNull v :: if_prev E T [SetNull prev_] ++ [SetNull next_; Set_ v next_]) with ([NeedSingle; IsNull v] ++ if_prev E T [SetNull prev_] ++ [SetNull next_; Set_ v next_]).
    rewrite !compiles_app, P2. unfold compiles. cbn [forallb]. rewrite S1, N2, N3. reflexivity.
Qed.
End NodeType.
End Classes.
