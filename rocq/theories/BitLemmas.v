(** Facts about bits of N used by the bit-level models. *)
From Verif Require Import Base BaseLemmas.
Open Scope N_scope.

Lemma npow2_pos w : 0 < 2 ^ w.
Proof. apply N.neq_0_lt_0, N.pow_nonzero. discriminate. Qed.
Lemma npow2_nz w : 2 ^ w <> 0.
Proof. apply N.pow_nonzero. discriminate. Qed.
Lemma npow2_le a b : a <= b -> 2 ^ a <= 2 ^ b.
Proof. apply N.pow_le_mono_r. discriminate. Qed.
Lemma npow2_lt a b : a < b -> 2 ^ a < 2 ^ b.
Proof. apply N.pow_lt_mono_r. reflexivity. Qed.

Lemma testbit_high x w i : x < 2 ^ w -> w <= i -> N.testbit x i = false.
Proof. intros H Hi. rewrite <- (N.mod_small x (2 ^ w)) by exact H. apply N.mod_pow2_bits_high. exact Hi. Qed.

Lemma bits_lt x w : (forall i, w <= i -> N.testbit x i = false) -> x < 2 ^ w.
Proof.
  intros H. assert (E : x mod 2 ^ w = x).
  { apply N.bits_inj. intros i. destruct (N.lt_ge_cases i w) as [Hi|Hi].
    - apply N.mod_pow2_bits_low. exact Hi.
    - rewrite N.mod_pow2_bits_high by exact Hi. symmetry. apply H. exact Hi. }
  rewrite <- E. apply N.mod_lt. apply npow2_nz.
Qed.

Lemma bits_eq x y w : x < 2 ^ w -> y < 2 ^ w ->
  (forall i, i < w -> N.testbit x i = N.testbit y i) -> x = y.
Proof.
  intros Hx Hy H. apply N.bits_inj. intros i. destruct (N.lt_ge_cases i w) as [Hi|Hi]; [apply H; exact Hi|].
  rewrite !(testbit_high _ w) by assumption. reflexivity.
Qed.

Lemma lor_lt x y w : x < 2 ^ w -> y < 2 ^ w -> N.lor x y < 2 ^ w.
Proof. intros Hx Hy. apply bits_lt. intros i Hi. rewrite N.lor_spec, !(testbit_high _ w) by assumption. reflexivity. Qed.
Lemma lxor_lt x y w : x < 2 ^ w -> y < 2 ^ w -> N.lxor x y < 2 ^ w.
Proof. intros Hx Hy. apply bits_lt. intros i Hi. rewrite N.lxor_spec, !(testbit_high _ w) by assumption. reflexivity. Qed.
Lemma land_lt x y w : x < 2 ^ w -> N.land x y < 2 ^ w.
Proof. intros Hx. apply bits_lt. intros i Hi. rewrite N.land_spec, (testbit_high x w) by assumption. reflexivity. Qed.
Lemma ones_lt w : N.ones w < 2 ^ w.
Proof. rewrite N.ones_equiv. pose proof (npow2_pos w). lia. Qed.
Lemma lnot_lt x w : x < 2 ^ w -> N.lnot x w < 2 ^ w.
Proof. intros H. unfold N.lnot. apply lxor_lt; [exact H|apply ones_lt]. Qed.
Lemma shiftr_lt x s w : x < 2 ^ w -> N.shiftr x s < 2 ^ w.
Proof. intros H. apply bits_lt. intros i Hi. rewrite N.shiftr_spec' by lia. apply (testbit_high _ w); [exact H|lia]. Qed.
Lemma mod_pow2_lt x w : x mod 2 ^ w < 2 ^ w.
Proof. apply N.mod_lt, npow2_nz. Qed.

Lemma testbit_mod x w i : N.testbit (x mod 2 ^ w) i = (i <? w) && N.testbit x i.
Proof.
  destruct (N.ltb_spec i w).
  - rewrite N.mod_pow2_bits_low by assumption. reflexivity.
  - rewrite N.mod_pow2_bits_high by assumption. reflexivity.
Qed.
Lemma testbit_ones w i : N.testbit (N.ones w) i = (i <? w).
Proof.
  destruct (N.ltb_spec i w).
  - apply N.ones_spec_low. assumption.
  - apply N.ones_spec_high. assumption.
Qed.
Lemma testbit_lnot x w i : N.testbit (N.lnot x w) i = xorb (N.testbit x i) (i <? w).
Proof. unfold N.lnot. rewrite N.lxor_spec, testbit_ones. reflexivity. Qed.
Lemma testbit_shl x s i : N.testbit (N.shiftl x s) i = (s <=? i) && N.testbit x (i - s).
Proof.
  destruct (N.leb_spec s i).
  - rewrite N.shiftl_spec_high' by assumption. reflexivity.
  - rewrite N.shiftl_spec_low by assumption. reflexivity.
Qed.
Lemma testbit_shr x s i : N.testbit (N.shiftr x s) i = N.testbit x (i + s).
Proof. apply N.shiftr_spec'. Qed.
Lemma testbit_pow2 k i : N.testbit (2 ^ k) i = (i =? k).
Proof. rewrite N.eqb_sym. apply N.pow2_bits_eqb. Qed.
Lemma testbit_div x k i : N.testbit (x / 2 ^ k) i = N.testbit x (i + k).
Proof. apply N.div_pow2_bits. Qed.
