(** Proofs about comparing tuples. *)
From Coq Require Import List Arith Bool Lia.
From Verif Require Import TupleModel TupleSpec TupleProofs3 CompareModel CompareSpec.
Import ListNotations.

Section P.
Context {V : Type}.
Implicit Types l r : list (elem V).

Lemma types_eq_iff a b : types_eq a b = true <-> a = b.
Proof. unfold types_eq. destruct (list_eq_dec Nat.eq_dec a b); split; congruence. Qed.

Lemma all_with_iff f l r : length l = length r ->
  (all_with f l r = true <-> forall i x y, nth_error l i = Some x -> nth_error r i = Some y -> f (ty x) (ty y) = true).
Proof.
  revert r. induction l as [|x l IH]; intros [|y r] H; try discriminate H; cbn [all_with].
  - split; [intros _ [|i] ? ? A B; discriminate A | reflexivity].
  - rewrite andb_true_iff. injection H as H. rewrite (IH r H). split.
    + intros [A B] [|i] u v U W; cbn in U, W; [congruence | exact (B i u v U W)].
    + intro A. split; [exact (A 0 x y eq_refl eq_refl) | intros i u v U W; exact (A (S i) u v U W)].
Qed.

Lemma whole_iff f l r : (length l =? length r) && all_with f l r = true <-> comparable f l r.
Proof.
  unfold comparable. rewrite andb_true_iff, Nat.eqb_eq. split.
  - intros [A B]. split; [exact A|]. now apply (all_with_iff f l r A).
  - intros [A B]. split; [exact A|]. now apply (all_with_iff f l r A).
Qed.

Lemma common_iff l r k j : In j (common k l r) <-> exists i x y, j = k + i /\ shared l r i x y.
Proof.
  revert r k. induction l as [|x l IH]; intros r k.
  - cbn. split; [intros [] | intros (i & a & b & _ & A & _); destruct i; discriminate A].
  - destruct r as [|y r].
    + cbn. split; [intros [] | intros (i & a & b & _ & _ & A & _); destruct i; discriminate A].
    + cbn [common]. destruct ((ty x =? ty y) && types_eq (keys x) (keys y)) eqn:E.
      * apply andb_true_iff in E as [E1 E2]. apply Nat.eqb_eq in E1. apply types_eq_iff in E2.
        cbn [In]. rewrite IH. split.
        -- intros [<- | (i & a & b & -> & Sh)].
           ++ exists 0, x, y. split; [lia|]. repeat split; assumption.
           ++ exists (S i), a, b. split; [lia | exact Sh].
        -- intros (i & a & b & -> & Sh). destruct i as [|i]; [left; lia|].
           right. exists i, a, b. split; [lia | exact Sh].
      * rewrite IH. split.
        -- intros (i & a & b & -> & Sh). exists (S i), a, b. split; [lia | exact Sh].
        -- intros (i & a & b & -> & Sh). destruct i as [|i].
           ++ exfalso. destruct Sh as (A & B & C & D). cbn in A, B. injection A as <-. injection B as <-.
              rewrite C, Nat.eqb_refl in E. cbn in E. apply types_eq_iff in D. congruence.
           ++ exists i, a, b. split; [lia | exact Sh].
Qed.
Lemma common_nodup l r k : NoDup (common k l r).
Proof.
  revert r k. induction l as [|x l IH]; intros [|y r] k; cbn; try constructor.
  destruct (_ && _); [constructor|]; try apply IH.
  rewrite common_iff. intros (i & a & b & A & _). lia.
Qed.

(** ** Which candidate *)
Lemma best_whole ps : best (Whole :: map Part ps) = Some Whole.
Proof.
  unfold best. cbn [find forallb candidate_eqb]. cbn [orb andb].
  replace (forallb _ (map Part ps)) with true; [reflexivity|].
  symmetry. apply forallb_forall. intros d D. apply in_map_iff in D as (i & <- & _). reflexivity.
Qed.
Lemma best_parts p q ps : p <> q -> NoDup (p :: q :: ps) -> best (map Part (p :: q :: ps)) = None.
Proof.
  intros H N. unfold best.
  destruct (find _ _) as [c|] eqn:E; [exfalso | reflexivity].
  apply find_some in E as [I A]. rewrite forallb_forall in A.
  apply in_map_iff in I as (i & <- & I).
  pose proof (A (Part p) (or_introl eq_refl)) as A1.
  pose proof (A (Part q) (or_intror (or_introl eq_refl))) as A2.
  cbn in A1, A2. rewrite orb_false_r in A1, A2. apply Nat.eqb_eq in A1, A2. congruence.
Qed.

Lemma resolve_whole f l r : comparable f l r -> resolve f l (ATuple r) = Some (Some Whole).
Proof.
  intro H. apply whole_iff in H. unfold resolve, viable. rewrite H. cbn [app]. now rewrite best_whole.
Qed.
Lemma resolve_none f l r : ~ comparable f l r -> (forall i x y, ~ shared l r i x y) -> resolve f l (ATuple r) = None.
Proof.
  intros H N. unfold resolve, viable.
  destruct (_ && _) eqn:E; [apply whole_iff in E; contradiction|].
  destruct (common 0 l r) as [|p ps] eqn:C; [reflexivity|].
  exfalso. assert (I : In p (common 0 l r)) by (rewrite C; now left).
  apply common_iff in I as (i & x & y & _ & S). exact (N i x y S).
Qed.
Lemma resolve_one f l r i x y : ~ comparable f l r -> only_shared l r i x y ->
  resolve f l (ATuple r) = Some (Some (Part i)).
Proof.
  intros H [S U]. unfold resolve, viable.
  destruct (_ && _) eqn:E; [apply whole_iff in E; contradiction|].
  assert (C : common 0 l r = [i]).
  { pose proof (common_nodup l r 0) as N.
    assert (I : In i (common 0 l r)) by (apply common_iff; exists i, x, y; split; [lia | exact S]).
    assert (A : forall j, In j (common 0 l r) -> j = i)
      by (intros j J; apply common_iff in J as (k & a & b & -> & K); exact (U k a b K)).
    destruct (common 0 l r) as [|p [|q ps]]; [destruct I | f_equal; apply A; now left |].
    exfalso. apply NoDup_cons_iff in N as [N _]. apply N. left.
    rewrite (A p (or_introl eq_refl)), (A q (or_intror (or_introl eq_refl))). reflexivity. }
  rewrite C. cbn [app map]. unfold best. cbn. rewrite Nat.eqb_refl. reflexivity.
Qed.
Lemma resolve_two f l r i x y j x' y' : ~ comparable f l r -> shared l r i x y -> shared l r j x' y' -> i <> j ->
  resolve f l (ATuple r) = Some None.
Proof.
  intros H S S' D. unfold resolve, viable.
  destruct (_ && _) eqn:E; [apply whole_iff in E; contradiction|].
  assert (I : In i (common 0 l r)) by (apply common_iff; exists i, x, y; split; [lia | exact S]).
  assert (J : In j (common 0 l r)) by (apply common_iff; exists j, x', y'; split; [lia | exact S']).
  pose proof (common_nodup l r 0) as N.
  destruct (common 0 l r) as [|p [|q ps]]; [destruct I | |].
  - destruct I as [<-|[]], J as [<-|[]]. now destruct D.
  - cbn [app]. assert (p <> q) by (apply NoDup_cons_iff in N as [N _]; intros ->; apply N; now left).
    change (match map Part (p :: q :: ps) with [] => None | _ => Some (best (map Part (p :: q :: ps))) end = Some None).
    rewrite best_parts by assumption. reflexivity.
Qed.

Lemma shared_dec l r : {i & {x & {y | shared l r i x y}}} + (forall i x y, ~ shared l r i x y).
Proof.
  destruct (common 0 l r) as [|p ps] eqn:C.
  - right. intros i x y S.
    assert (I : In i (common 0 l r)) by (apply common_iff; exists i, x, y; split; [lia | exact S]).
    rewrite C in I. destruct I.
  - left. exists p. assert (I : In p (common 0 l r)) by (rewrite C; now left).
    destruct (nth_error l p) as [x|] eqn:X.
    + destruct (nth_error r p) as [y|] eqn:Y.
      * exists x, y. apply common_iff in I as (i & a & b & A & S). cbn in A. subst i.
        destruct S as (S1 & S2 & S3 & S4). rewrite S1 in X. rewrite S2 in Y.
        injection X as <-. injection Y as <-. repeat split; assumption.
      * exfalso. apply common_iff in I as (i & a & b & A & S). cbn in A. subst i.
        destruct S as (_ & S2 & _). congruence.
    + exfalso. apply common_iff in I as (i & a & b & A & S). cbn in A. subst i.
      destruct S as (S1 & _). congruence.
Qed.
Lemma only_dec l r i x y : shared l r i x y ->
  only_shared l r i x y \/ exists j x' y', shared l r j x' y' /\ i <> j.
Proof.
  intro S. destruct (common 0 l r) as [|p ps] eqn:C.
  - exfalso. assert (I : In i (common 0 l r)) by (apply common_iff; exists i, x, y; split; [lia | exact S]).
    rewrite C in I. destruct I.
  - destruct (forallb (Nat.eqb i) (common 0 l r)) eqn:F.
    + left. split; [exact S|]. intros j x' y' S'. rewrite forallb_forall in F.
      symmetry. apply Nat.eqb_eq, F, common_iff. exists j, x', y'. split; [lia | exact S'].
    + right. apply not_true_iff_false in F. rewrite forallb_forall in F.
      assert (X : exists j, In j (common 0 l r) /\ i <> j).
      { clear C p ps. induction (common 0 l r) as [|q qs IH].
        - exfalso. apply F. intros ? [].
        - destruct (Nat.eq_dec i q) as [<-|Q].
          + destruct IH as (j & J & K).
            * intro A. apply F. intros z [<-|Z]; [apply Nat.eqb_refl | exact (A z Z)].
            * exists j. split; [now right | exact K].
          + exists q. split; [now left | exact Q]. }
      destruct X as (j & J & K). apply common_iff in J as (k & a & b & -> & S').
      exists k, a, b. split; [exact S' | cbn in K; exact K].
Qed.

(** ** The operators *)
Variable T : types.
Variable eqv : nat -> nat -> V -> V -> bool.
Variable cmp : nat -> nat -> V -> V -> option comparison.

Lemma equal_whole l r : comparable (eq_with T) l r ->
  exists b, equal T eqv l (ATuple r) = Value b /\
    (b = true <-> Forall2 (fun x y => eqv (ty x) (ty y) (val x) (val y) = true) l r).
Proof.
  intro H. unfold equal. rewrite (resolve_whole _ _ _ H).
  destruct (tuple_eq_ok (elem_eq eqv) l r (proj1 H)) as (b & E & B). rewrite E.
  exists b. split; [reflexivity | exact B].
Qed.
Lemma three_way_whole l r : comparable (cmp_with T) l r ->
  exists c, three_way T cmp l (ATuple r) = Value c /\
    lexicographic (fun x y => cmp (ty x) (ty y) (val x) (val y)) l r c.
Proof.
  intro H. unfold three_way. rewrite (resolve_whole _ _ _ H).
  destruct (tuple_cmp_ok (elem_cmp cmp) l r (proj1 H)) as (c & E & B). rewrite E.
  exists c. split; [reflexivity | exact B].
Qed.

Lemma equal_one l r i x y : ~ comparable (eq_with T) l r -> only_shared l r i x y ->
  equal T eqv l (ATuple r) =
    if is_ref T (ty x) || negb (member_eq T (ty x)) then Deleted else Value (eqv (ty x) (ty y) (val x) (val y)).
Proof.
  intros H S. unfold equal. rewrite (resolve_one _ _ _ _ _ _ H S).
  destruct S as [(A & B & _) _]. rewrite A, B. reflexivity.
Qed.
Lemma three_way_one l r i x y : ~ comparable (cmp_with T) l r -> only_shared l r i x y ->
  three_way T cmp l (ATuple r) =
    if is_ref T (ty x) || negb (member_cmp T (ty x)) then Deleted else Value (cmp (ty x) (ty y) (val x) (val y)).
Proof.
  intros H S. unfold three_way. rewrite (resolve_one _ _ _ _ _ _ H S).
  destruct S as [(A & B & _) _]. rewrite A, B. reflexivity.
Qed.
Lemma equal_no l r : ~ comparable (eq_with T) l r -> (forall i x y, ~ only_shared l r i x y) ->
  ~ compiles (equal T eqv l (ATuple r)).
Proof.
  intros H N [b E]. unfold equal in E. destruct (shared_dec l r) as [(i & x & y & S) | Z].
  - destruct (only_dec l r i x y S) as [O | (j & x' & y' & S' & D)]; [exact (N i x y O)|].
    rewrite (resolve_two _ _ _ _ _ _ _ _ _ H S S' D) in E. discriminate E.
  - rewrite (resolve_none _ _ _ H Z) in E. discriminate E.
Qed.
Lemma three_way_no l r : ~ comparable (cmp_with T) l r -> (forall i x y, ~ only_shared l r i x y) ->
  ~ compiles (three_way T cmp l (ATuple r)).
Proof.
  intros H N [b E]. unfold three_way in E. destruct (shared_dec l r) as [(i & x & y & S) | Z].
  - destruct (only_dec l r i x y S) as [O | (j & x' & y' & S' & D)]; [exact (N i x y O)|].
    rewrite (resolve_two _ _ _ _ _ _ _ _ _ H S S' D) in E. discriminate E.
  - rewrite (resolve_none _ _ _ H Z) in E. discriminate E.
Qed.

Lemma comparable_dec f l r : comparable f l r \/ ~ comparable f l r.
Proof.
  destruct ((length l =? length r) && all_with f l r) eqn:E; [left; now apply whole_iff | right].
  intro H. apply whole_iff in H. congruence.
Qed.
Lemma equal_compiles l r : compiles (equal T eqv l (ATuple r)) <-> comparable (eq_with T) l r \/
  exists i x y, only_shared l r i x y /\ is_ref T (ty x) = false /\ member_eq T (ty x) = true.
Proof.
  destruct (comparable_dec (eq_with T) l r) as [C|C].
  - split; [now left|]. intros _. destruct (equal_whole l r C) as (b & E & _). now exists b.
  - split.
    + intro K. right. destruct (shared_dec l r) as [(i & x & y & S) | Z].
      * destruct (only_dec l r i x y S) as [O | (j & x' & y' & S' & D)].
        -- exists i, x, y. split; [exact O|]. destruct K as [b E]. rewrite (equal_one _ _ _ _ _ C O) in E.
           destruct (is_ref T (ty x)), (member_eq T (ty x)); try discriminate E. split; reflexivity.
        -- exfalso. apply (equal_no l r C); [|exact K]. intros k a b [_ U].
           apply D. now rewrite (U _ _ _ S), (U _ _ _ S').
      * exfalso. apply (equal_no l r C); [|exact K]. intros k a b [S _]. exact (Z k a b S).
    + intros [H | (i & x & y & O & R & M)]; [contradiction|].
      exists (eqv (ty x) (ty y) (val x) (val y)). rewrite (equal_one _ _ _ _ _ C O), R, M. reflexivity.
Qed.
Lemma three_way_compiles l r : compiles (three_way T cmp l (ATuple r)) <-> comparable (cmp_with T) l r \/
  exists i x y, only_shared l r i x y /\ is_ref T (ty x) = false /\ member_cmp T (ty x) = true.
Proof.
  destruct (comparable_dec (cmp_with T) l r) as [C|C].
  - split; [now left|]. intros _. destruct (three_way_whole l r C) as (b & E & _). now exists b.
  - split.
    + intro K. right. destruct (shared_dec l r) as [(i & x & y & S) | Z].
      * destruct (only_dec l r i x y S) as [O | (j & x' & y' & S' & D)].
        -- exists i, x, y. split; [exact O|]. destruct K as [b E]. rewrite (three_way_one _ _ _ _ _ C O) in E.
           destruct (is_ref T (ty x)), (member_cmp T (ty x)); try discriminate E. split; reflexivity.
        -- exfalso. apply (three_way_no l r C); [|exact K]. intros k a b [_ U].
           apply D. now rewrite (U _ _ _ S), (U _ _ _ S').
      * exfalso. apply (three_way_no l r C); [|exact K]. intros k a b [S _]. exact (Z k a b S).
    + intros [H | (i & x & y & O & R & M)]; [contradiction|].
      exists (cmp (ty x) (ty y) (val x) (val y)). rewrite (three_way_one _ _ _ _ _ C O), R, M. reflexivity.
Qed.
Lemma sizes_differ f x y z l : ~ comparable f (x :: z :: l) [y].
Proof. intros [H _]. discriminate H. Qed.

Lemma only_first x y l : ty x = ty y -> keys x = keys y -> only_shared (x :: l) [y] 0 x y.
Proof.
  intros A B. split; [repeat split; assumption|].
  intros [|j] x' y' (_ & C & _); [reflexivity | destruct j; discriminate C].
Qed.
End P.
