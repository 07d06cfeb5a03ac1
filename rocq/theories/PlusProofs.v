(** Proofs for C135. *)
From Coq Require Import List Bool Arith Lia.
From Verif Require Import PlusModel PlusSpec.
Import ListNotations.

Section Resolve.
Variable converts : nat -> nat -> bool.

Lemma resolve_own f gs x y : viable converts x y f = true ->
  (forall g, In g gs -> viable converts x y g = true -> better converts g f x y = false) ->
  (resolve converts f gs x y = Some Own <-> forall g, In g gs -> viable converts x y g = true -> better converts f g x y = true) /\
  (resolve converts f gs x y <> Some Own -> resolve converts f gs x y = None).
Proof.
  intros F N. unfold resolve. rewrite F. cbn [andb implb].
  assert (X : existsb (fun g => better converts g f x y && (length (filter (fun h => negb (better converts g h x y)) (filter (viable converts x y) gs)) =? 1)) (filter (viable converts x y) gs) = false).
  { apply not_true_iff_false. intros E. apply existsb_exists in E. destruct E as (g & G & B). apply filter_In in G.
    rewrite (N g (proj1 G) (proj2 G)) in B. discriminate. }
  rewrite X. destruct (forallb _ _) eqn:A.
  - split; [split; [intros _|reflexivity]|congruence]. rewrite forallb_forall in A. intros g I W. apply A. apply filter_In. auto.
  - split; [split; [discriminate|]|reflexivity]. intros H. exfalso. apply not_true_iff_false in A. apply A.
    apply forallb_forall. intros g G. apply filter_In in G. apply H; tauto.
Qed.

(** Passing an element to T&& is never worse than passing it to another parameter. *)
Lemma element_param p a : let own := Binds (const a) (rvalue a) in
  match passes converts p a with
  | None => ~ takes_this p a
  | Some s =>
      better_sequence s own = false /\
      (~ takes_this p a /\ (better_sequence own s = true \/ as_specialized AnyForward p = true) \/
       takes_this p a /\ better_sequence own s = false /\ as_specialized AnyForward p = false)
  end.
Proof.
  unfold takes_this. destruct a as [c k v]. cbn [class const rvalue].
  destruct p as [| | |d|d|d|d]; unfold passes, to_class; cbn [class const rvalue];
    try (destruct (Nat.eqb_spec c d) as [<-|N]; [|try destruct (converts c d)]); destruct k, v; cbn.
  all: try (split; [reflexivity|]).
  all: try (left; split; [|tauto]; intuition congruence).
  all: try (right; intuition congruence).
  all: intuition congruence.
Qed.
(** Passing a helper to the helper's own && is better than to anything else, or as good and more
    specialized. *)
Lemma helper_param p h : ~ In p [Value h; ConstRef h; Ref h; RvalueRef h] ->
  match passes converts p (helper h) with
  | None => ~ takes_all p
  | Some s =>
      better_sequence s (Binds false true) = false /\
      (~ takes_all p /\ better_sequence (Binds false true) s = true \/
       takes_all p /\ better_sequence (Binds false true) s = false /\
       as_specialized (RvalueRef h) p = true /\ as_specialized p (RvalueRef h) = false)
  end.
Proof.
  unfold takes_all. intros N. destruct p as [| | |d|d|d|d]; unfold passes, to_class, helper; cbn [class const rvalue].
  1-3: cbn; split; [reflexivity|]; intuition congruence.
  all: destruct (Nat.eqb_spec h d) as [<-|D]; [exfalso; apply N; cbn; tauto|].
  all: try destruct (converts h d); cbn; try (split; [reflexivity|]); intuition congruence.
Qed.
Lemma general p : takes_all p -> In p [AnyValue; AnyConstRef; AnyForward].
Proof. intros [->| ->]; cbn; tauto. Qed.

Lemma left_case g a : apart g -> well_formed g ->
  (viable converts (helper fold_helper) a g = true ->
   better converts g helper_plus_any (helper fold_helper) a = false /\
   (better converts helper_plus_any g (helper fold_helper) a = true <-> ~ (takes_all (left_param g) /\ takes_this (right_param g) a))) /\
  (takes_all (left_param g) /\ takes_this (right_param g) a -> viable converts (helper fold_helper) a g = true).
Proof.
  intros A W. destruct (A fold_helper (or_introl eq_refl)) as [A1 _].
  pose proof (helper_param _ _ A1) as L. pose proof (element_param (right_param g) a) as R. cbn zeta in R.
  assert (T : takes_all (left_param g) -> template g = true) by (intros T; apply W; left; now apply general).
  unfold viable, better. cbn [left_param right_param template helper_plus_any].
  change (passes converts (RvalueRef fold_helper) (helper fold_helper)) with (Some (Binds false true)).
  change (passes converts AnyForward a) with (Some (Binds (const a) (rvalue a))).
  unfold more_specialized. cbn [left_param right_param helper_plus_any].
  destruct (passes converts (left_param g) (helper fold_helper)) as [s|]; [|split; [discriminate|tauto]].
  destruct (passes converts (right_param g) a) as [u|]; [|split; [discriminate|tauto]].
  destruct L as [L1 L], R as [R1 R]. split; [intros _|reflexivity]. rewrite L1, R1. cbn [negb andb orb].
  destruct L as [[L2 L3]|(L2 & L3 & L4 & L5)].
  - rewrite L3. cbn [negb andb orb]. split; [reflexivity|]. tauto.
  - rewrite L3, (T L2), L4, L5. cbn [negb andb orb]. split.
    + now rewrite !andb_false_r.
    + destruct R as [[R2 [R3|R3]]|(R2 & R3 & R4)].
      * rewrite R3. cbn [negb andb orb]. tauto.
      * rewrite R3. cbn [negb andb orb]. rewrite orb_true_r. tauto.
      * rewrite R3, R4. cbn [negb andb orb]. rewrite ?andb_false_r. cbn [orb andb]. split; [discriminate|tauto].
Qed.
Lemma right_case g a : apart g -> well_formed g ->
  (viable converts a (helper fold_helper) g = true ->
   better converts g any_plus_helper a (helper fold_helper) = false /\
   (better converts any_plus_helper g a (helper fold_helper) = true <-> ~ (takes_this (left_param g) a /\ takes_all (right_param g)))) /\
  (takes_this (left_param g) a /\ takes_all (right_param g) -> viable converts a (helper fold_helper) g = true).
Proof.
  intros A W. destruct (A fold_helper (or_introl eq_refl)) as [_ A1].
  pose proof (helper_param _ _ A1) as L. pose proof (element_param (left_param g) a) as R. cbn zeta in R.
  assert (T : takes_all (right_param g) -> template g = true) by (intros T; apply W; right; now apply general).
  unfold viable, better. cbn [left_param right_param template any_plus_helper].
  change (passes converts (RvalueRef fold_helper) (helper fold_helper)) with (Some (Binds false true)).
  change (passes converts AnyForward a) with (Some (Binds (const a) (rvalue a))).
  unfold more_specialized. cbn [left_param right_param any_plus_helper].
  destruct (passes converts (left_param g) a) as [u|]; [|split; [discriminate|tauto]].
  destruct (passes converts (right_param g) (helper fold_helper)) as [s|]; [|split; [discriminate|tauto]].
  destruct L as [L1 L], R as [R1 R]. split; [intros _|reflexivity]. rewrite L1, R1. cbn [negb andb orb].
  destruct L as [[L2 L3]|(L2 & L3 & L4 & L5)].
  - rewrite L3. cbn [negb andb orb]. rewrite !orb_true_r. split; [now rewrite ?andb_false_r|]. tauto.
  - rewrite L3, (T L2), L4, L5. cbn [negb andb orb]. split.
    + now rewrite !andb_false_r.
    + destruct R as [[R2 [R3|R3]]|(R2 & R3 & R4)].
      * rewrite R3. cbn [negb andb orb]. tauto.
      * rewrite R3, !andb_false_r. cbn [negb andb orb]. rewrite orb_true_r. tauto.
      * rewrite R3, R4. cbn [negb andb orb]. rewrite ?andb_false_r. cbn [orb andb]. split; [discriminate|tauto].
Qed.
Lemma join_case g : apart g -> well_formed g -> viable converts (helper join_helper) (helper join_helper) g = true ->
  better converts g join_plus_join (helper join_helper) (helper join_helper) = false /\
  better converts join_plus_join g (helper join_helper) (helper join_helper) = true.
Proof.
  intros A W. destruct (A join_helper (or_intror eq_refl)) as [A1 A2].
  pose proof (helper_param _ _ A1) as L. pose proof (helper_param _ _ A2) as R.
  assert (T : takes_all (right_param g) -> template g = true) by (intros T; apply W; right; now apply general).
  unfold viable, better. cbn [left_param right_param template join_plus_join].
  change (passes converts (RvalueRef join_helper) (helper join_helper)) with (Some (Binds false true)).
  unfold more_specialized. cbn [left_param right_param join_plus_join].
  destruct (passes converts (left_param g) (helper join_helper)) as [u|]; [|discriminate].
  destruct (passes converts (right_param g) (helper join_helper)) as [s|]; [|discriminate].
  intros _. destruct L as [L1 L], R as [R1 R]. rewrite L1, R1. cbn [negb andb orb].
  destruct L as [[L2 L3]|(L2 & L3 & L4 & L5)]; [rewrite L3; auto|].
  destruct R as [[R2 R3]|(R2 & R3 & R4 & R5)]; [rewrite L3, R3; auto|].
  rewrite L3, R3, L4, L5, R4, R5, (T R2). auto.
Qed.

Lemma resolve_left gs a : Forall apart gs -> Forall well_formed gs ->
  (resolve converts helper_plus_any gs (helper fold_helper) a = Some Own <-> forall g, In g gs -> ~ (takes_all (left_param g) /\ takes_this (right_param g) a)) /\
  (resolve converts helper_plus_any gs (helper fold_helper) a <> Some Own -> resolve converts helper_plus_any gs (helper fold_helper) a = None).
Proof.
  intros A W. rewrite Forall_forall in A, W.
  destruct (resolve_own helper_plus_any gs (helper fold_helper) a eq_refl) as [I N].
  { intros g G V. exact (proj1 (proj1 (left_case g a (A g G) (W g G)) V)). }
  split; [rewrite I|exact N]. split; intros H g G.
  - intros C. pose proof (proj2 (left_case g a (A g G) (W g G)) C) as V. apply (proj1 (left_case g a (A g G) (W g G)) V); [exact (H g G V)|exact C].
  - intros V. apply (proj1 (left_case g a (A g G) (W g G)) V). exact (H g G).
Qed.
Lemma resolve_right gs a : Forall apart gs -> Forall well_formed gs ->
  (resolve converts any_plus_helper gs a (helper fold_helper) = Some Own <-> forall g, In g gs -> ~ (takes_this (left_param g) a /\ takes_all (right_param g))) /\
  (resolve converts any_plus_helper gs a (helper fold_helper) <> Some Own -> resolve converts any_plus_helper gs a (helper fold_helper) = None).
Proof.
  intros A W. rewrite Forall_forall in A, W.
  assert (V0 : viable converts a (helper fold_helper) any_plus_helper = true) by reflexivity.
  destruct (resolve_own any_plus_helper gs a (helper fold_helper) V0) as [I N].
  { intros g G V. exact (proj1 (proj1 (right_case g a (A g G) (W g G)) V)). }
  split; [rewrite I|exact N]. split; intros H g G.
  - intros C. pose proof (proj2 (right_case g a (A g G) (W g G)) C) as V. apply (proj1 (right_case g a (A g G) (W g G)) V); [exact (H g G V)|exact C].
  - intros V. apply (proj1 (right_case g a (A g G) (W g G)) V). exact (H g G).
Qed.
Lemma resolve_join gs : Forall apart gs -> Forall well_formed gs ->
  resolve converts join_plus_join gs (helper join_helper) (helper join_helper) = Some Own.
Proof.
  intros A W. rewrite Forall_forall in A, W.
  destruct (resolve_own join_plus_join gs (helper join_helper) (helper join_helper) eq_refl) as [I _].
  { intros g G V. exact (proj1 (join_case g (A g G) (W g G) V)). }
  apply I. intros g G V. exact (proj2 (join_case g (A g G) (W g G) V)).
Qed.
End Resolve.
