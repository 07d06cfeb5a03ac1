(** What the functions of <bit> mean, bit by bit. *)
From Verif Require Import Base BitModel.
Open Scope N_scope.

(** int, long and long long in non-decreasing order of width. *)
Definition good_platform (pl : platform) : Prop :=
  0 < int_w pl /\ int_w pl <= long_w pl /\ long_w pl <= llong_w pl.
(** The sizes in bytes of the standard unsigned types, and the width in bits. *)
Definition std_width (k : nat) : Prop := k = 1%nat \/ k = 2%nat \/ k = 4%nat \/ k = 8%nat.
Definition wbits (k : nat) : N := 8 * N.of_nat k.
(** The word type at the bottom of a nest of arrays; no empty array in the nest. *)
Fixpoint word_w (s : shape) : N := match s with Word w => w | Arr _ t => word_w t end.
Fixpoint positive_shape (s : shape) : Prop :=
  match s with Word w => 0 < w | Arr n t => (0 < n)%nat /\ positive_shape t end.

(** [k] leading (trailing) bits of the [w]-bit value [x] equal [b], and no more. *)
Definition leading (w : N) (b : bool) (x k : N) : Prop :=
  k <= w /\ (forall i, w - k <= i -> i < w -> N.testbit x i = b) /\
  (k < w -> N.testbit x (w - k - 1) = negb b).
Definition trailing (w : N) (b : bool) (x k : N) : Prop :=
  k <= w /\ (forall i, i < k -> N.testbit x i = b) /\ (k < w -> N.testbit x k = negb b).

(** How many of the bits below [w] are set. *)
Definition ones_below (w x : N) : N :=
  len (filter (fun i => N.testbit x (N.of_nat i)) (seq 0 (N.to_nat w))).

(** [y] is [x] rotated left by [s] (right if negative). *)
Definition rotated_left (w x : N) (s : Z) (y : N) : Prop :=
  y < 2 ^ w /\ forall i, i < w ->
  N.testbit y i = N.testbit x (Z.to_N ((Z.of_N i - s) mod Z.of_N w)%Z).

(** [y] is the least power of two not below [x] / the greatest not above [x]. *)
Definition least_pow2_ge (x y : N) : Prop :=
  (exists k, y = 2 ^ k) /\ x <= y /\ forall k, x <= 2 ^ k -> y <= 2 ^ k.
Definition greatest_pow2_le (x y : N) : Prop :=
  (exists k, y = 2 ^ k) /\ y <= x /\ forall k, 2 ^ k <= x -> 2 ^ k <= y.

(** Byte [i] of a value (0 is the least significant). *)
Definition byte (x i : N) : N := x / 2 ^ (8 * i) mod 256.
(** The digits of [x] in base 2^w, most significant first. *)
Definition be_digits (w : N) (count : nat) (x : N) : list N :=
  map (fun i => x / 2 ^ (w * N.of_nat i) mod 2 ^ w) (rev (seq 0 count)).

(** Bit [i] of a little-endian array of words of width [w]. *)
Definition array_bit (w : N) (l : list N) (i : N) : bool :=
  match rd l (i / w) with Some x => N.testbit x (i mod w) | None => false end.

(** The bits [lo, hi) of [x]. *)
Definition slice (x lo hi : N) : N := x / 2 ^ lo mod 2 ^ (hi - lo).
Fixpoint slices (x lo : N) (offsets : list N) : list N :=
  match offsets with [] => [] | o :: r => slice x lo o :: slices x o r end.
(** Shifting pieces back to their offsets. *)
Fixpoint reassemble (lo : N) (offsets pieces : list N) : N :=
  match offsets, pieces with
  | o :: r, p :: q => p * 2 ^ lo + reassemble o r q
  | _, _ => 0
  end.
Fixpoint increasing (lo : N) (offsets : list N) : bool :=
  match offsets with [] => true | o :: r => (lo <? o) && increasing o r end.

(** The number of words and of bits of nested arrays. *)
Fixpoint words_of (s : shape) : nat := match s with Word _ => 1 | Arr n t => n * words_of t end.
Definition bits_of (s : shape) : N := N.of_nat (words_of s) * word_w s.
