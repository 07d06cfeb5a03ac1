(** * C121: the concepts where there is no <concepts> *)
From Verif Require Import Base ConceptModel ConceptSpec.

Lemma testable_ok f b : boolean_testable f b = true <-> std_boolean_testable f b.
Proof.
  unfold boolean_testable, std_boolean_testable, std_convertible_to, boolean_testable_impl, convertible_to. rewrite !andb_true_iff. split.
  - intros [A B]. split; [exact A|]. destruct (rvalue_ref f b) as [r|]; [|discriminate]. destruct (negation f r) as [n|] eqn:E; [|discriminate]. apply andb_true_iff in B. eauto 6.
  - intros [A (r & n & -> & -> & B)]. split; [exact A|]. now apply andb_true_iff.
Qed.
Lemma gives_ok f t op : sensible f -> gives_bool f t op = true <-> exists r, const_ref f t = Some r /\ compare f op r r = Some (bool_t f).
Proof.
  intros S. unfold gives_bool, same_as. destruct (const_ref f t) as [r|]; [|split; [discriminate|intros (r & E & _); discriminate]].
  destruct (compare f op r r) as [res|] eqn:E; [|split; [discriminate|intros (r' & [= <-] & E'); congruence]].
  rewrite andb_true_iff, !(same_iff f S). split; [intros [-> _]; eauto|intros (r' & [= <-] & E'); rewrite E in E'; now injection E' as ->].
Qed.
(** Those that say nothing about comparisons are the standard's. *)
Theorem C121_same_concepts : forall f t u g args,
  (floating_point f t = true <-> is_floating_point f t = true) /\ (integral f t = true <-> is_integral f t = true) /\
  (signed_integral f t = true <-> is_integral f t = true /\ is_signed f t = true) /\
  (unsigned_integral f t = true <-> is_integral f t = true /\ is_unsigned f t = true) /\
  (convertible_to f t u = true <-> std_convertible_to f t u) /\
  (derived_from f t u = true <-> is_base_of f u t = true /\ pointers_convert f t u = true) /\
  (sensible f -> (same_as f t u = true <-> t = u)) /\
  (invocable f g args = true <-> std_invocable f g args) /\ (predicate f g args = true <-> std_predicate f g args).
Proof.
  intros f t u g args. unfold floating_point, integral, signed_integral, unsigned_integral, convertible_to, std_convertible_to, derived_from, same_as, invocable, std_invocable, predicate, std_predicate. rewrite !andb_true_iff.
  repeat (split; [tauto|]). split; [|split].
  - intros S. rewrite !(same_iff f S). intuition congruence.
  - destruct (invoke f g args) as [r|]; cbn; [split; [eauto|reflexivity]|split; [discriminate|intros (r & E); discriminate]].
  - unfold invocable. destruct (invoke f g args) as [r|]; cbn.
    + rewrite testable_ok. split; [intros [_ H]; eauto|intros (r' & [= <-] & H); auto].
    + split; [intros [E _]; discriminate|intros (r & E & _); discriminate].
Qed.
Print Assumptions C121_same_concepts.
(** The comparison concepts accept exactly those of the standard's types whose comparisons give bool. *)
Theorem C121_comparable : forall f t, sensible f -> remove_reference f t = t ->
  (equality_comparable f t = true <-> std_equality_comparable f t /\ forall op r, const_ref f t = Some r -> op = Eq \/ op = Ne -> compare f op r r = Some (bool_t f)) /\
  (totally_ordered f t = true <-> std_totally_ordered f t /\ forall op r, const_ref f t = Some r -> compare f op r r = Some (bool_t f)).
Proof.
  intros f t S R. assert (W : forall op, gives_bool f t op = true -> std_comparison f t op).
  { intros op H. apply (gives_ok f t op S) in H as (r & C & E). exists r, (bool_t f). rewrite R. split; [exact C|]. split; [exact E|exact (bool_testable f S)]. }
  assert (V : forall op, std_comparison f t op -> (forall r, const_ref f t = Some r -> compare f op r r = Some (bool_t f)) -> gives_bool f t op = true).
  { intros op (r & res & C & _) H. apply (gives_ok f t op S). rewrite R in C. eauto. }
  assert (U : forall op, gives_bool f t op = true -> forall r, const_ref f t = Some r -> compare f op r r = Some (bool_t f)).
  { intros op H r C. apply (gives_ok f t op S) in H as (r' & C' & E). congruence. }
  unfold totally_ordered, equality_comparable, partially_ordered, std_totally_ordered, std_equality_comparable. rewrite !andb_true_iff. split; split.
  - intros [A B]. split; [split; apply W; assumption|]. intros op r C [-> | ->]; eapply U; eassumption.
  - intros [[A B] H]. split; apply V; auto.
  - intros [[A B] [[[C D] E] F]]. split; [repeat split; apply W; assumption|]. intros [] r Cr; eapply U; eassumption.
  - intros [[[A B] [C [D [E F]]]] H]. repeat split; apply V; auto.
Qed.
Print Assumptions C121_comparable.
(** same_any and same_none are membership and its opposite; same_as_unqualified compares without references,
    const and volatile. *)
Theorem C121_same_any : forall f t us, sensible f ->
  (same_any f t us = true <-> In t us) /\ (same_none f t us = true <-> ~ In t us) /\
  forall u, same_as_unqualified f t u = true <-> remove_cvref f t = remove_cvref f u.
Proof.
  intros f t us S. assert (E : forall a b, same_as f a b = true <-> a = b) by (intros a b; unfold same_as; rewrite andb_true_iff, !(same_iff f S); intuition congruence).
  assert (F : forall us acc, fold_left (fun acc u => acc || same_as f t u) us acc = true <-> acc = true \/ In t us).
  { clear us. induction us as [|u us IH]; intros acc; cbn; [tauto|]. rewrite IH, orb_true_iff, E. intuition congruence. }
  assert (A : same_any f t us = true <-> In t us) by (unfold same_any; rewrite F; intuition discriminate).
  split; [exact A|]. split; [|intros u; apply E]. unfold same_none. rewrite negb_true_iff, <- A. destruct (same_any f t us); intuition congruence.
Qed.
Print Assumptions C121_same_any.
(** A type whose comparison gives something else that can be tested, an int for example, is refused. *)
Theorem C121_other_result_refuted : forall f t op r, sensible f -> remove_reference f t = t -> std_totally_ordered f t ->
  const_ref f t = Some r -> compare f op r r <> Some (bool_t f) ->
  totally_ordered f t = false /\ (op = Eq \/ op = Ne -> equality_comparable f t = false).
Proof.
  intros f t op r S R _ C N. split.
  - destruct (totally_ordered f t) eqn:E; [|reflexivity]. apply (C121_comparable f t S R) in E as [_ H]. exfalso. apply N. now apply H.
  - intros O. destruct (equality_comparable f t) eqn:E; [|reflexivity]. apply (C121_comparable f t S R) in E as [_ H]. exfalso. apply N. now apply H.
Qed.
Print Assumptions C121_other_result_refuted.

(** 0: bool, 1: bool &&; 2: X, 3: X &, 4: X const &; 5: int, 6: int &&; 7: Y, 8: Y const &; 9: Z, 10: Z const &.
    X can be compared with == and != only if it is not const; the comparisons of Y give int, those of Z bool. *)
Definition example_facts : facts := {|
  bool_t := 0;
  is_floating_point _ := false; is_integral t := Nat.eqb t 5 || Nat.eqb t 0; is_signed t := Nat.eqb t 5; is_unsigned t := Nat.eqb t 0;
  is_same := Nat.eqb;
  is_convertible a b := existsb (Nat.eqb a) [0; 1; 5; 6] && Nat.eqb b 0;
  casts a b := existsb (Nat.eqb a) [0; 1; 5; 6] && Nat.eqb b 0;
  is_base_of _ _ := false; pointers_convert _ _ := false;
  remove_reference t := match t with 1 => 0 | 3 | 4 => 2 | 6 => 5 | 8 => 7 | 10 => 9 | _ => t end;
  remove_cvref t := match t with 1 => 0 | 3 | 4 => 2 | 6 => 5 | 8 => 7 | 10 => 9 | _ => t end;
  const_ref t := match t with 2 | 4 => Some 4 | 3 => Some 3 | 7 | 8 => Some 8 | 9 | 10 => Some 10 | _ => None end;
  rvalue_ref t := match t with 0 | 1 => Some 1 | 5 | 6 => Some 6 | _ => None end;
  compare op a b := match op, a, b with (Eq | Ne), 3, 3 => Some 0 | _, 8, 8 => Some 5 | _, 10, 10 => Some 0 | _, _, _ => None end;
  negation t := match t with 1 | 6 => Some 0 | _ => None end;
  invoke g args := match g, args with 2, [5] => Some 0 | 2, [] => Some 2 | _, _ => None end |}.
Lemma example_sensible : sensible example_facts.
Proof.
  split; [intros; apply Nat.eqb_eq| |].
  - split; [split; reflexivity|]. exists 1, 0. repeat split; reflexivity.
  - intros t. do 11 (destruct t as [|t]; [reflexivity|]). reflexivity.
Qed.
Ltac holds := eexists; eexists; split; [reflexivity|]; split; [reflexivity|]; split; [split; reflexivity|]; eexists; eexists; repeat split; reflexivity.
Example C121_nonvacuous : sensible example_facts /\
  remove_reference example_facts 9 = 9 /\ totally_ordered example_facts 9 = true /\ std_totally_ordered example_facts 9 /\
  predicate example_facts 2 [5] = true /\ invocable example_facts 2 [] = true /\ predicate example_facts 2 [] = false /\
  std_totally_ordered example_facts 7 /\ equality_comparable example_facts 7 = false.
Proof.
  split; [exact example_sensible|]. split; [reflexivity|]. split; [reflexivity|]. split; [repeat split; holds|]. split; [reflexivity|]. split; [reflexivity|]. split; [reflexivity|]. split; [repeat split; holds|reflexivity].
Qed.
(** Of a reference type the comparison of what it refers to is asked for, not of a const lvalue: one that the
    standard's concept refuses is accepted. *)
Theorem C121_reference_refuted : exists f t, sensible f /\ equality_comparable f t = true /\ ~ std_equality_comparable f t.
Proof. exists example_facts, 3. split; [exact example_sensible|]. split; [reflexivity|]. intros [(r & res & [= <-] & E & _) _]. discriminate E. Qed.
Print Assumptions C121_reference_refuted.
