(** C130: tuples are compared only as wholes. *)
From Coq Require Import List Arith Bool Lia.
From Verif Require Import TupleSpec CompareModel CompareSpec CompareProofs.
Import ListNotations.

(** Tuples of one size with comparable elements: == says whether all elements are equal, <=> gives the
    lexicographic order. No friend of an element gets in the way. *)
Theorem C130_comparable_tuples : forall V T (eqv : nat -> nat -> V -> V -> bool) cmp l r,
  (comparable (eq_with T) l r -> exists b, equal T eqv l (ATuple r) = Value b /\
    (b = true <-> Forall2 (fun x y => eqv (ty x) (ty y) (val x) (val y) = true) l r)) /\
  (comparable (cmp_with T) l r -> exists c, three_way T cmp l (ATuple r) = Value c /\
    lexicographic (fun x y => cmp (ty x) (ty y) (val x) (val y)) l r c).
Proof. intros V T eqv cmp l r. split; [apply equal_whole | apply three_way_whole]. Qed.
Print Assumptions C130_comparable_tuples.

(** Exactly when the comparison compiles: the tuples are comparable, or they are not but share exactly
    one position of equal type, which is no reference and can be compared. *)
Theorem C130_exactly : forall V T (eqv : nat -> nat -> V -> V -> bool) (cmp : nat -> nat -> V -> V -> option comparison) l r,
  (compiles (equal T eqv l (ATuple r)) <-> comparable (eq_with T) l r \/
    exists i x y, only_shared l r i x y /\ is_ref T (ty x) = false /\ member_eq T (ty x) = true) /\
  (compiles (three_way T cmp l (ATuple r)) <-> comparable (cmp_with T) l r \/
    exists i x y, only_shared l r i x y /\ is_ref T (ty x) = false /\ member_cmp T (ty x) = true).
Proof. intros V T eqv cmp l r. split; [apply equal_compiles | apply three_way_compiles]. Qed.
Print Assumptions C130_exactly.

(** Tuples that cannot be compared are rejected if no position, or more than one, has the same type in
    both. What is missing: the tuples with exactly one such position, for which it is false. *)
Theorem C130_other_tuples_are_rejected_partial : forall V T (eqv : nat -> nat -> V -> V -> bool) (cmp : nat -> nat -> V -> V -> option comparison) l r,
  (forall i x y, ~ only_shared l r i x y) ->
  (~ comparable (eq_with T) l r -> ~ compiles (equal T eqv l (ATuple r))) /\
  (~ comparable (cmp_with T) l r -> ~ compiles (three_way T cmp l (ATuple r))).
Proof. intros V T eqv cmp l r N. split; intro H; [now apply equal_no | now apply three_way_no]. Qed.
Print Assumptions C130_other_tuples_are_rejected_partial.

(** A tuple does not compare with an object that is no tuple, not even with an equal element. *)
Theorem C130_elements_are_rejected : forall V T (eqv : nat -> nat -> V -> V -> bool) (cmp : nat -> nat -> V -> V -> option comparison) l t v,
  equal T eqv l (Other t v) = Deleted /\ three_way T cmp l (Other t v) = Deleted.
Proof. intros. split; reflexivity. Qed.
Print Assumptions C130_elements_are_rejected.

(** FINDING: tuples that cannot be compared but share exactly one position of equal type do compare:
    the answer is that of the one shared element, whatever the others are. *)
Theorem C130_only_the_shared_element_counts_refuted : forall V T (eqv : nat -> nat -> V -> V -> bool) (cmp : nat -> nat -> V -> V -> option comparison) l r i x y,
  only_shared l r i x y -> is_ref T (ty x) = false ->
  (~ comparable (eq_with T) l r -> member_eq T (ty x) = true ->
     equal T eqv l (ATuple r) = Value (eqv (ty x) (ty y) (val x) (val y))) /\
  (~ comparable (cmp_with T) l r -> member_cmp T (ty x) = true ->
     three_way T cmp l (ATuple r) = Value (cmp (ty x) (ty y) (val x) (val y))).
Proof.
  intros V T eqv cmp l r i x y S R. split; intros H M.
  - rewrite (equal_one T eqv l r i x y H S), R, M. reflexivity.
  - rewrite (three_way_one T cmp l r i x y H S), R, M. reflexivity.
Qed.
Print Assumptions C130_only_the_shared_element_counts_refuted.

(** FINDING: in particular a longer tuple equals a one-element tuple with the same first element. *)
Theorem C130_longer_equals_shorter_refuted : forall V T (eqv : nat -> nat -> V -> V -> bool) (cmp : nat -> nat -> V -> V -> option comparison) x z l,
  is_ref T (ty x) = false -> member_eq T (ty x) = true -> member_cmp T (ty x) = true ->
  eqv (ty x) (ty x) (val x) (val x) = true -> cmp (ty x) (ty x) (val x) (val x) = Some Eq ->
  equal T eqv (x :: z :: l) (ATuple [x]) = Value true /\
  three_way T cmp (x :: z :: l) (ATuple [x]) = Value (Some Eq).
Proof.
  intros V T eqv cmp x z l R M M' E C.
  pose proof (only_first x x (z :: l) eq_refl eq_refl) as S.
  rewrite (equal_one T eqv _ _ 0 x x (sizes_differ _ x x z l) S), R, M.
  rewrite (three_way_one T cmp _ _ 0 x x (sizes_differ _ x x z l) S), R, M'.
  cbn. now rewrite E, C.
Qed.
Print Assumptions C130_longer_equals_shorter_refuted.

(** int is type 0, std::string 1, an enumeration 2, int& 3; an int and an enumerator do not compare. *)
Definition some_types : types :=
  Types (fun t => t =? 3)
        (fun t u => (t =? u) || (t =? 0) && (u =? 3) || (t =? 3) && (u =? 0))
        (fun t u => (t =? u) || (t =? 0) && (u =? 3) || (t =? 3) && (u =? 0))
        (fun t => t <? 3) (fun t => t <? 3).
Definition nat_eq (_ _ v w : nat) : bool := v =? w.
Definition nat_cmp (_ _ v w : nat) : option comparison := Some (Nat.compare v w).
Definition e (t v : nat) : elem nat := Elem t [] v.
Example C130_example :
  equal some_types nat_eq [e 0 1; e 1 5] (ATuple [e 0 1; e 1 5]) = Value true /\
  three_way some_types nat_cmp [e 0 1; e 1 5] (ATuple [e 3 1; e 1 6]) = Value (Some Lt) /\
  (* the repository's negative tests: tuple{1, 2.0, 3} against tuple{1, 2.0} is ambiguous *)
  equal some_types nat_eq [e 0 1; e 1 2; e 0 3] (ATuple [e 0 1; e 1 2]) = Ambiguous /\
  three_way some_types nat_cmp [e 0 1; e 1 2; e 0 3] (ATuple [e 0 1; e 1 2]) = Ambiguous /\
  (* an element and its tuple: deleted *)
  equal some_types nat_eq [e 0 1] (Other 0 1) = Deleted /\
  (* nothing in common *)
  equal some_types nat_eq [e 0 1] (ATuple [e 1 1; e 0 1]) = NoOperator /\
  (* only a reference in common *)
  equal some_types nat_eq [e 3 1; e 0 1] (ATuple [e 3 1]) = Deleted /\
  (* only the ints are compared *)
  equal some_types nat_eq [e 0 1; e 1 5] (ATuple [e 0 1; e 2 9]) = Value true /\
  three_way some_types nat_cmp [e 0 1; e 0 7] (ATuple [e 0 1]) = Value (Some Eq) /\
  (* different index functions: different bases *)
  equal some_types nat_eq [Elem 0 [7] 1; e 0 7] (ATuple [e 0 1]) = NoOperator.
Proof. repeat split. Qed.
Example C130_hypotheses :
  comparable (eq_with some_types) [e 0 1; e 1 5] [e 3 1; e 1 6] /\
  ~ comparable (eq_with some_types) [e 0 1; e 1 5] [e 0 1; e 2 9] /\
  only_shared [e 0 1; e 1 5] [e 0 1; e 2 9] 0 (e 0 1) (e 0 1) /\
  (forall i x y, ~ only_shared [e 0 1; e 1 2; e 0 3] [e 0 1; e 1 2] i x y).
Proof.
  repeat split.
  - intros [|[|[|i]]] x y A B; cbn in A, B; try discriminate; injection A as <-; injection B as <-; reflexivity.
  - intros [_ H]. specialize (H 1 (e 1 5) (e 2 9) eq_refl eq_refl). discriminate H.
  - intros [|[|[|j]]] x' y' (A & B & C & _); cbn in A, B; try discriminate; [reflexivity|].
    injection A as <-. injection B as <-. discriminate C.
  - intros i x y [_ U].
    assert (A : 0 = i) by (apply (U 0 (e 0 1) (e 0 1)); repeat split).
    assert (B : 1 = i) by (apply (U 1 (e 1 2) (e 1 2)); repeat split).
    congruence.
Qed.
