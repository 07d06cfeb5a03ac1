(** C101 rollover_t has a common type with integers and with other rollover_t. *)
From Verif Require Import Base RollTypeModel.
Open Scope Z_scope.

Definition unsigned (r : nat) : int_type := {| is_signed := false; rank := r |}.
(** Of a type of rank int or more and any other, or of a type and itself: the one of higher rank. *)
Theorem C101_common_partial : forall width int_rank r1 r2,
  (forall a b, (a <= b)%nat -> width a <= width b) ->
  r1 = r2 \/ (int_rank <= r1)%nat \/ (int_rank <= r2)%nat ->
  let c := Roll (unsigned (Nat.max r1 r2)) in
  common_type width int_rank (Roll (unsigned r1)) (Roll (unsigned r2)) = Some c /\
  (forall signed, common_type width int_rank (Roll (unsigned r1)) (Plain {| is_signed := signed; rank := r2 |}) = Some c) /\
  usable c = true /\ width (Nat.max r1 r2) = Z.max (width r1) (width r2).
Proof.
  intros width ir r1 r2 Hm H c.
  assert (E : common_int width ir (unsigned r1) (unsigned r2) = unsigned (Nat.max r1 r2)).
  { unfold common_int, same, unsigned. cbn [is_signed rank Bool.eqb andb]. destruct (Nat.eqb_spec r1 r2) as [->|Hne]; [f_equal; lia|].
    unfold promote. cbn [rank is_signed orb]. destruct (Nat.ltb_spec r1 ir) as [L1|L1], (Nat.ltb_spec r2 ir) as [L2|L2]; try lia.
    - destruct (width r1 <? width ir); unfold arithmetic; cbn [is_signed rank Bool.eqb int_ make_unsigned];
        destruct (Nat.leb_spec ir r2); try lia; f_equal; lia.
    - destruct (width r2 <? width ir); unfold arithmetic; cbn [is_signed rank Bool.eqb int_ make_unsigned].
      + destruct (Nat.leb_spec ir r1); try lia. f_equal; lia.
      + change (rank (make_unsigned (int_ ir))) with ir. destruct (Nat.leb_spec r1 ir); cbn [rank]; unfold make_unsigned, int_; cbn [rank]; f_equal; lia.
    - unfold arithmetic; cbn [is_signed rank Bool.eqb]. destruct (Nat.leb_spec r1 r2); f_equal; lia. }
  split; [cbn [common_type]; rewrite E; reflexivity|]. split.
  - intros signed. cbn [common_type]. unfold make_unsigned. cbn [rank]. fold (unsigned r2). rewrite E. reflexivity.
  - split; [reflexivity|]. destruct (Nat.max_spec r1 r2) as [[L ->]|[L ->]].
    + specialize (Hm r1 r2). lia.
    + specialize (Hm r2 r1). lia.
Qed.
Print Assumptions C101_common_partial.
(** Of two different types narrower than int, such as uint8_t and uint16_t: rollover_t<int>, which does
    not compile. *)
Theorem C101_narrow_refuted : forall width int_rank r1 r2, r1 <> r2 -> (r1 < int_rank)%nat -> (r2 < int_rank)%nat ->
  width r1 < width int_rank -> width r2 < width int_rank ->
  exists c, common_type width int_rank (Roll (unsigned r1)) (Roll (unsigned r2)) = Some c /\
  (forall signed, common_type width int_rank (Roll (unsigned r1)) (Plain {| is_signed := signed; rank := r2 |}) = Some c) /\ usable c = false.
Proof.
  intros width ir r1 r2 Hne L1 L2 W1 W2. exists (Roll (int_ ir)).
  assert (E : common_int width ir (unsigned r1) (unsigned r2) = int_ ir).
  { unfold common_int, same, unsigned. cbn [is_signed rank Bool.eqb andb]. destruct (Nat.eqb_spec r1 r2) as [->|_]; [congruence|].
    unfold promote. cbn [rank is_signed orb]. destruct (Nat.ltb_spec r1 ir); [|lia]. destruct (Nat.ltb_spec r2 ir); [|lia].
    destruct (Z.ltb_spec (width r1) (width ir)); [|lia]. destruct (Z.ltb_spec (width r2) (width ir)); [|lia].
    unfold arithmetic. cbn [int_ is_signed rank Bool.eqb]. rewrite Nat.leb_refl. reflexivity. }
  split; [cbn [common_type]; rewrite E; reflexivity|]. split; [|reflexivity].
  intros signed. cbn [common_type]. unfold make_unsigned. cbn [rank]. fold (unsigned r2). rewrite E. reflexivity.
Qed.
Print Assumptions C101_narrow_refuted.
(** With the integer first there is none, although with the rollover_t first there always is. *)
Theorem C101_order_refuted : forall width int_rank t i,
  common_type width int_rank (Plain i) (Roll t) = None /\ common_type width int_rank (Roll t) (Plain i) <> None.
Proof. intros width ir t i. split; [reflexivity|]. cbn. discriminate. Qed.
Print Assumptions C101_order_refuted.

(** C07 for bool: + is or, - is "differs", so adding 1 to 1 does not roll over to 0. *)
Theorem C07_bool_refuted : forall a b, 0 <= a < 2 -> 0 <= b < 2 ->
  b_add a b = Z.max a b /\ b_add 1 1 <> (1 + 1) mod 2 /\ b_sub a b = (a - b) mod 2 /\ b_neg a = (- a) mod 2 /\ b_mul a b = (a * b) mod 2.
Proof.
  intros a b Ha Hb. assert (Ca : a = 0 \/ a = 1) by lia. assert (Cb : b = 0 \/ b = 1) by lia.
  destruct Ca as [-> | ->], Cb as [-> | ->]; repeat split; try reflexivity; discriminate.
Qed.
Print Assumptions C07_bool_refuted.

(** Ranks 0 to 3: char, short, int, long. *)
Example C101_example :
  let width r := match r with 0%nat => 8 | 1%nat => 16 | 2%nat => 32 | _ => 64 end in
  (forall a b, (a <= b)%nat -> width a <= width b) /\
  common_type width 2 (Roll (unsigned 0)) (Roll (unsigned 3)) = Some (Roll (unsigned 3)) /\
  common_type width 2 (Roll (unsigned 1)) (Plain {| is_signed := true; rank := 2 |}) = Some (Roll (unsigned 2)) /\
  common_type width 2 (Roll (unsigned 0)) (Roll (unsigned 1)) = Some (Roll {| is_signed := true; rank := 2 |}).
Proof.
  cbv zeta. split; [|repeat split].
  intros [|[|[|a]]] [|[|[|b]]] H; lia.
Qed.
