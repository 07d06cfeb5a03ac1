(** C113: an optional is made from values as a std::optional is. *)
From Coq Require Import List NArith ZArith Bool Lia.
From Verif Require Import OptMakeModel OptMakeSpec.
Import ListNotations.

Section Props.
Context {num : Type}.
Variable zero : num.
Variable conv : arith -> arith -> num -> num.
Variable to_count : num -> nat.
Notation in_place := (OptMakeModel.in_place zero conv).
Notation from_value := (OptMakeModel.from_value zero conv to_count).
Notation std_in_place := (OptMakeSpec.std_in_place zero conv to_count).
Notation std_from_value := (OptMakeSpec.std_from_value zero conv to_count).

Lemma std_parens t xs : std_in_place t xs = OptMakeModel.parens zero conv to_count t xs.
Proof.
  destruct t as [a|a|ms].
  - destruct xs as [|[s x] [|y xs]]; reflexivity.
  - destruct xs as [|[s x] [|[s' y] [|z xs]]]; reflexivity.
  - unfold OptMakeSpec.std_in_place, OptMakeModel.parens. revert xs. induction ms as [|m ms IH]; intros [|[s x] xs]; cbn; try reflexivity.
    + f_equal. f_equal. clear. induction ms; cbn; [|f_equal]; congruence.
    + specialize (IH xs). destruct (Nat.leb (length xs) (length ms)), (OptMakeModel.paren_members zero conv ms xs); cbn in IH |- *; congruence.
Qed.
Lemma std_parens_one t x : std_from_value t x = OptMakeModel.parens zero conv to_count t [x].
Proof. apply std_parens. Qed.
Lemma range_nonempty w s : (1 <= w)%N -> (lowest w s <= highest w s)%Z.
Proof.
  intros H. unfold lowest, highest.
  assert (0 < 2 ^ (Z.of_N w - 1))%Z by (apply Z.pow_pos_nonneg; lia).
  assert (0 < 2 ^ Z.of_N w)%Z by (apply Z.pow_pos_nonneg; lia). destruct s; lia.
Qed.
Lemma number_range w s z : number_of w s z <-> (lowest w s <= z <= highest w s)%Z.
Proof. unfold number_of, lowest, highest. destruct s; lia. Qed.
Lemma narrows_not s t : has_values_of s t -> match s with Int w _ => (1 <= w)%N | Float _ => True end -> narrows s t = false.
Proof.
  destruct s as [w1 s1|r1], t as [w2 s2|r2]; cbn; intros H HW; try contradiction.
  - pose proof (range_nonempty w1 s1 HW). pose proof (H (lowest w1 s1)) as H1. pose proof (H (highest w1 s1)) as H2. rewrite !number_range in H1, H2.
    apply negb_false_iff, andb_true_iff. split; apply Z.leb_le; lia.
  - apply N.ltb_ge. exact H.
Qed.

(** Arithmetic types and aggregates, from arguments that fit: the value is that of std::optional. *)
Theorem C113_fitting : forall t xs,
  Forall sized xs -> fit t xs -> in_place t xs = std_in_place t xs /\ in_place t xs <> None /\
  (forall x, xs = [x] -> from_value t x = std_from_value t x).
Proof.
  intros t xs HS HF.
  assert (A : in_place t xs = std_in_place t xs /\ in_place t xs <> None).
  { rewrite std_parens. unfold OptMakeModel.in_place.
    induction HF as [t|a s x H|m ms s x xs H HF IH].
    - destruct t as [a|a|[|m ms]]; cbn; split; try reflexivity; discriminate.
    - inversion HS as [|? ? HZ]; subst. cbn. unfold brace. cbn. rewrite (narrows_not s a H HZ). cbn. split; [reflexivity|discriminate].
    - inversion HS as [|? ? HZ HS']; subst. destruct (IH HS') as [IH1 IH2]. cbn in *. unfold brace. cbn.
      rewrite (narrows_not s m H HZ).
      destruct (brace_members zero conv ms xs) as [ys|] eqn:E1; destruct (paren_members zero conv ms xs) as [zs|] eqn:E2;
        cbn in *; try discriminate; try congruence. injection IH1 as ->. split; [reflexivity|discriminate]. }
  destruct A as [A1 A2]. split; [exact A1|]. split; [exact A2|].
  intros x ->. rewrite std_parens_one. rewrite std_parens in A1. unfold OptMakeModel.from_value, OptMakeModel.in_place in *.
  unfold arg in *. rewrite <- A1. destruct (braces zero conv t [x]); reflexivity.
Qed.

(** Where it compiles for these types, it is always the value of std::optional. *)
Theorem C113_agrees : forall t xs v,
  (forall a, t <> Vec a) -> in_place t xs = Some v -> std_in_place t xs = Some v.
Proof.
  intros [a|a|ms] xs v HV; [|edestruct HV; reflexivity|]; rewrite std_parens; unfold OptMakeModel.in_place; clear HV.
  - cbn. destruct xs as [|x [|y xs]]; [auto| |discriminate]. unfold brace. destruct (narrows (fst x) a); [discriminate|auto].
  - cbn. assert (forall ms xs ys, brace_members zero conv ms xs = Some ys -> paren_members zero conv ms xs = Some ys) as A.
    { clear. induction ms as [|m ms IH]; intros [|x xs] ys; cbn; auto.
      unfold brace. destruct (narrows (fst x) m); [discriminate|].
      destruct (brace_members zero conv ms xs) as [zs|] eqn:E; [|discriminate]. intros [= <-]. rewrite (IH _ _ E). reflexivity. }
    destruct (brace_members zero conv ms xs) as [ys|] eqn:E; [|discriminate]. rewrite (A _ _ _ E). auto.
Qed.

Lemma narrows_iff s a : match s with Int w _ => (1 <= w)%N | Float _ => True end -> narrows s a = false <-> has_values_of s a.
Proof.
  intros HW. split; [|intros H; now apply narrows_not].
  destruct s as [w1 s1|r1], a as [w2 s2|r2]; cbn; intros H; try discriminate.
  - apply negb_false_iff, andb_true_iff in H. destruct H as [E1 E2]. apply Z.leb_le in E1, E2. intros z. rewrite !number_range. lia.
  - apply N.ltb_ge in H. lia.
Qed.
Lemma narrows_other s a : ~ has_values_of s a -> narrows s a = true.
Proof.
  intros H. destruct s as [w1 s1|r1], a as [w2 s2|r2]; cbn in *; try reflexivity.
  - apply negb_true_iff. destruct ((lowest w2 s2 <=? lowest w1 s1)%Z && (highest w1 s1 <=? highest w2 s2)%Z) eqn:E; [|reflexivity].
    apply andb_true_iff in E. destruct E as [E1 E2]. apply Z.leb_le in E1, E2. exfalso. apply H. intros z. rewrite !number_range. intros HZ. lia.
  - apply N.ltb_lt. lia.
Qed.

(** An argument whose type narrows does not compile, although std::optional converts it: a float from any integer, an
    integer from any floating-point number or from a type with other values. *)
Theorem C113_narrowing_refuted : forall a s x,
  ~ has_values_of s a -> from_value (Arith a) (s, x) = None /\ std_from_value (Arith a) (s, x) = Some (VNum (conv s a x)).
Proof.
  intros a s x H. split; [|reflexivity]. unfold OptMakeModel.from_value. cbn. unfold brace. cbn. now rewrite (narrows_other s a H).
Qed.

(** A count, or a count and an element, given for a class with a list constructor: one element, or two, not as many as
    the count says. *)
Theorem C113_list_refuted : forall a n x,
  sized n -> sized x -> has_values_of (fst n) a -> has_values_of (fst x) a ->
  (in_place (Vec a) [n] = Some (VList [conv (fst n) a (snd n)]) /\
   std_in_place (Vec a) [n] = Some (VList (repeat zero (to_count (snd n))))) /\
  (in_place (Vec a) [n; x] = Some (VList [conv (fst n) a (snd n); conv (fst x) a (snd x)]) /\
   std_in_place (Vec a) [n; x] = Some (VList (repeat (conv (fst x) a (snd x)) (to_count (snd n))))).
Proof.
  intros a n x ZN ZX HN HX. apply narrows_iff in HN; [|exact ZN]. apply narrows_iff in HX; [|exact ZX].
  rewrite !std_parens. unfold OptMakeModel.in_place. cbn. unfold brace. rewrite HN, HX. auto.
Qed.
(** And with a count of a type that narrows, nothing. *)
Theorem C113_count_refuted : forall a n,
  ~ has_values_of (fst n) a -> from_value (Vec a) n = None /\ std_from_value (Vec a) n <> None.
Proof.
  intros a n H. rewrite std_parens_one. unfold OptMakeModel.from_value. cbn. unfold brace. rewrite (narrows_other _ _ H). split; [reflexivity|discriminate].
Qed.
End Props.
Print Assumptions C113_fitting.
Print Assumptions C113_agrees.
Print Assumptions C113_narrowing_refuted.
Print Assumptions C113_list_refuted.
Print Assumptions C113_count_refuted.

(** Non-vacuity: an optional<double> from a float; an aggregate of a double and a 64-bit integer from a float and an int;
    an optional<float> from an int. *)
Example fit_ex : fit (Rec [Float 2; Int 64 true]) [(Float 1, 5%Z); (Int 32 true, 7%Z)] /\ Forall sized [(Float 1, 5%Z); (Int 32 true, 7%Z)].
Proof. split; [apply fit_rec; [cbn; lia|apply fit_rec; [cbn; intros z; unfold number_of; cbn; lia|apply fit_none]]|repeat constructor; cbn; lia]. Qed.
Example make_ex : in_place 0%Z (fun _ _ z => z) (Rec [Float 2; Int 64 true; Int 8 false]) [(Float 1, 5%Z); (Int 32 true, 7%Z)] = Some (VRec [5; 7; 0]%Z).
Proof. reflexivity. Qed.
Example narrowing_ex : ~ has_values_of (Int 32 true) (Float 1) /\ ~ has_values_of (Int 32 true) (Int 8 false).
Proof. cbn. split; [tauto|]. intros H. specialize (H (-1)%Z). unfold number_of in H. cbn in H. lia. Qed.
Example list_ex : in_place 0%Z (fun _ _ z => z) (Vec (Int 32 true)) [(Int 32 true, 3%Z)] = Some (VList [3]%Z) /\
  std_in_place 0%Z (fun _ _ z => z) Z.to_nat (Vec (Int 32 true)) [(Int 32 true, 3%Z)] = Some (VList [0; 0; 0]%Z).
Proof. split; reflexivity. Qed.
