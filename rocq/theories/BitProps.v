(** Properties C22 to C26: <stdx/bit.hpp>. *)
From Verif Require Import Base BaseLemmas BitModel BitSpec BitProofs BitProofs2.
Open Scope N_scope.

(** A platform on which int, long and long long do not shrink; [lp64] is one. *)
Definition lp64 : platform := {| int_w := 32; long_w := 64; llong_w := 64 |}.
Example good_platform_nonvacuous : good_platform lp64 /\ std_width 4 /\ wbits 4 = 32.
Proof. unfold good_platform, std_width, lp64. cbn [int_w long_w llong_w]. repeat split; lia || auto. Qed.

(** ** C22.  [std_width k]: k is 1, 2, 4 or 8 bytes; [wbits k] = 8k. *)
Theorem C22_byteswap_reverses_bytes :
  forall k x i, std_width k -> x < 2 ^ wbits k -> i < N.of_nat k ->
  byteswap (wbits k) x < 2 ^ wbits k /\
  byte (byteswap (wbits k) x) i = byte x (N.of_nat k - 1 - i).
Proof. intros k x i Hk Hx Hi. split; [exact (byteswap_lt k x Hk Hx)|exact (byteswap_byte k x i Hk Hx Hi)]. Qed.
Print Assumptions C22_byteswap_reverses_bytes.

Theorem C22_byteswap_involutive :
  forall k x, std_width k -> x < 2 ^ wbits k -> byteswap (wbits k) (byteswap (wbits k) x) = x.
Proof. exact byteswap_involutive. Qed.
Print Assumptions C22_byteswap_involutive.

Theorem C22_endian_round_trips :
  forall e k x, std_width k -> x < 2 ^ wbits k ->
  from_be e (wbits k) (to_be e (wbits k) x) = x /\ from_le e (wbits k) (to_le e (wbits k) x) = x /\
  to_be e (wbits k) (from_be e (wbits k) x) = x /\ to_le e (wbits k) (from_le e (wbits k) x) = x.
Proof. exact endian_roundtrip. Qed.
Print Assumptions C22_endian_round_trips.

(** In memory, on either kind of machine: most significant byte first after to_be, least
    significant first after to_le. *)
Theorem C22_to_be_bytes_msb_first :
  forall e k x, std_width k -> x < 2 ^ wbits k ->
  mem_of e (wbits k) (to_be e (wbits k) x) = map (fun i => byte x (N.of_nat i)) (rev (seq 0 k)).
Proof. exact mem_to_be. Qed.
Print Assumptions C22_to_be_bytes_msb_first.
Theorem C22_to_le_bytes_lsb_first :
  forall e k x, std_width k -> x < 2 ^ wbits k ->
  mem_of e (wbits k) (to_le e (wbits k) x) = map (fun i => byte x (N.of_nat i)) (seq 0 k).
Proof. exact mem_to_le. Qed.
Print Assumptions C22_to_le_bytes_lsb_first.

Example C22_nonvacuous :
  byteswap 32 0x01020304 = 0x04030201 /\ mem_of Little 32 (to_be Little 32 0x01020304) = [1; 2; 3; 4] /\
  mem_of Big 32 (to_be Big 32 0x01020304) = [1; 2; 3; 4].
Proof. repeat split; reflexivity. Qed.

(** ** C23.  [sz] pieces of [kt] bytes make a value of [sz * kt] bytes. *)
Theorem C23_bit_unpack_gives_digits_msb_first :
  forall e kt sz x, std_width kt -> std_width (sz * kt) -> x < 2 ^ wbits (sz * kt) ->
  bit_unpack e (wbits (sz * kt)) (wbits kt) x = Some (be_digits (wbits kt) sz x).
Proof. exact bit_unpack_ok. Qed.
Print Assumptions C23_bit_unpack_gives_digits_msb_first.

Theorem C23_bit_pack_then_unpack :
  forall e kt sz args, std_width kt -> std_width (sz * kt) -> (2 <= sz)%nat -> length args = sz ->
  Forall (fun d => d < 2 ^ wbits kt) args ->
  exists v, bit_pack (wbits (sz * kt)) (map Z.of_N args) = Some v /\ v < 2 ^ wbits (sz * kt) /\
            bit_unpack e (wbits (sz * kt)) (wbits kt) v = Some args.
Proof.
  intros e kt sz args Hk Hf Hs Hl Hb. destruct (pack_any e kt sz (map Z.of_N args) Hk Hf Hs) as (v & A & B & C); [rewrite map_length; exact Hl|].
  exists v. split; [exact A|]. split; [exact B|]. rewrite C, unsigned_all by exact Hb. reflexivity.
Qed.
Print Assumptions C23_bit_pack_then_unpack.

Theorem C23_bit_unpack_then_pack :
  forall e kt sz x, std_width kt -> std_width (sz * kt) -> (2 <= sz)%nat -> x < 2 ^ wbits (sz * kt) ->
  exists l, bit_unpack e (wbits (sz * kt)) (wbits kt) x = Some l /\
            Forall (fun d => d < 2 ^ wbits kt) l /\ length l = sz /\
            bit_pack (wbits (sz * kt)) (map Z.of_N l) = Some x.
Proof. exact unpack_then_pack. Qed.
Print Assumptions C23_bit_unpack_then_pack.

(** bit_pack compiles exactly for the documented combinations of widths and numbers of arguments, whatever the
    integer types of the arguments, and packs their residues. *)
Theorem C23_bit_pack_integers :
  forall w_to (args : list Z),
  ((exists v, bit_pack w_to args = Some v) <->
   exists kt sz, std_width kt /\ std_width (sz * kt) /\ (2 <= sz)%nat /\ w_to = wbits (sz * kt) /\ length args = sz) /\
  forall e kt sz, std_width kt -> std_width (sz * kt) -> (2 <= sz)%nat -> w_to = wbits (sz * kt) -> length args = sz ->
  exists v, bit_pack w_to args = Some v /\
            bit_unpack e w_to (wbits kt) v = Some (map (fun z => Z.to_N (z mod 2 ^ Z.of_N (wbits kt))) args).
Proof.
  intros w_to args. split; [split|].
  - intros (v & H). apply pack_counts in H.
    destruct H as [(-> & ->)|[(-> & [->| ->])|(-> & [->|[->| ->]])]];
      [exists 1%nat, 2%nat|exists 2%nat, 2%nat|exists 1%nat, 4%nat|exists 4%nat, 2%nat|exists 2%nat, 4%nat|exists 1%nat, 8%nat];
      unfold std_width; repeat split; try lia; reflexivity.
  - intros (kt & sz & Hk & Hf & Hs & -> & Hl). destruct (pack_any Little kt sz args Hk Hf Hs Hl) as (v & A & _). exists v. exact A.
  - intros e kt sz Hk Hf Hs -> Hl. destruct (pack_any e kt sz args Hk Hf Hs Hl) as (v & A & _ & C). exists v. split; [exact A|exact C].
Qed.
Print Assumptions C23_bit_pack_integers.
(** FINDING: an argument that does not fit is cut without a word, so that unpacking gives something else. *)
Theorem C23_wide_arguments_refuted :
  forall e kt sz (args : list Z) z, std_width kt -> std_width (sz * kt) -> (2 <= sz)%nat -> length args = sz ->
  In z args -> (z < 0 \/ 2 ^ Z.of_N (wbits kt) <= z)%Z ->
  exists v l, bit_pack (wbits (sz * kt)) args = Some v /\ bit_unpack e (wbits (sz * kt)) (wbits kt) v = Some l /\ map Z.of_N l <> args.
Proof.
  intros e kt sz args z Hk Hf Hs Hl Hz Hw. destruct (pack_any e kt sz args Hk Hf Hs Hl) as (v & A & _ & C). exists v. eexists.
  split; [exact A|]. split; [exact C|]. intros E. rewrite <- E in Hz. apply in_map_iff in Hz. destruct Hz as (x & <- & Hx).
  apply in_map_iff in Hx. destruct Hx as (y & <- & _). pose proof (unsigned_lt (wbits kt) y) as B.
  apply N2Z.inj_lt in B. rewrite N2Z.inj_pow in B. change (Z.of_N 2) with 2%Z in B. lia.
Qed.
Print Assumptions C23_wide_arguments_refuted.

(** The last is docs/bit.adoc with the halves exchanged for wider ones. *)
Example C23_nonvacuous :
  bit_unpack Little 32 8 0x01020304 = Some [1; 2; 3; 4] /\ bit_unpack Big 64 16 0x0102030405060708 = Some [0x0102; 0x0304; 0x0506; 0x0708] /\
  bit_pack 32 [1; 2; 3; 4]%Z = Some 0x01020304 /\ std_width 1 /\ std_width (4 * 1) /\
  bit_pack 32 [0x1234; 0x5678]%Z = Some 0x12345678 /\ bit_pack 32 [0x11234; -1]%Z = Some 0x1234ffff.
Proof. repeat split; try reflexivity; unfold std_width; auto. Qed.

(** ** C24.  For a word type or any nesting of arrays of it. *)
Theorem C24_bit_mask_exact :
  forall pl s msb lsb, positive_shape s -> lsb <= msb -> msb < bits_of s ->
  exists l, bit_mask pl s msb lsb = Some l /\ length l = words_of s /\
    Forall (fun x => x < 2 ^ word_w s) l /\
    forall i, i < bits_of s -> array_bit (word_w s) l i = (lsb <=? i) && (i <=? msb).
Proof. intros pl s msb lsb. rewrite <- num_digits_bits, <- num_words_words. apply bit_mask_ok. Qed.
Print Assumptions C24_bit_mask_exact.

Example C24_nonvacuous :
  positive_shape (Arr 2 (Arr 2 (Word 8))) /\
  bit_mask lp64 (Arr 2 (Arr 2 (Word 8))) 20 5 = Some [0xe0; 0xff; 0x1f; 0] /\
  bit_mask lp64 (Word 64) 63 0 = Some [0xffffffffffffffff].
Proof. cbn [positive_shape]. repeat split; try lia; reflexivity. Qed.

(** ** C25. *)
Theorem C25_bit_destructure_slices :
  forall pl w offs x, 0 < w -> w < size_mod -> x < 2 ^ w -> increasing 0 (offs ++ [w]) = true ->
  bit_destructure pl w offs x = Some (slices x 0 (offs ++ [w])) /\
  reassemble 0 (offs ++ [w]) (slices x 0 (offs ++ [w])) = x.
Proof.
  intros pl w offs x Hw HM Hx Hi.
  split; [exact (bit_destructure_ok pl w offs x Hw HM Hx Hi)|exact (destructure_reassemble w offs x Hx Hi)].
Qed.
Print Assumptions C25_bit_destructure_slices.

(** Offsets that are not strictly increasing inside (0, w) never compile. *)
Theorem C25_bit_destructure_rejects_unordered_offsets :
  forall pl w offs x l, 0 < w -> 2 * w + 1 < size_mod -> Forall (fun o => o + w + 1 < size_mod) offs ->
  bit_destructure pl w offs x = Some l -> increasing 0 (offs ++ [w]) = true.
Proof.
  intros pl w offs x l Hw HM Hf H. apply (extract_all_increasing pl w Hw (offs ++ [w]) 0 0 x l); [|lia|exact H].
  apply Forall_app. split; [exact Hf|]. repeat constructor. lia.
Qed.
Print Assumptions C25_bit_destructure_rejects_unordered_offsets.

Example C25_nonvacuous :
  increasing 0 [5; 11; 32] = true /\ bit_destructure lp64 32 [5; 11] 0x12345678 = Some [0x18; 0x33; 0x2468a] /\
  32 < size_mod.
Proof. repeat split; reflexivity. Qed.

(** ** C26.  Every width up to that of unsigned long long. *)
Theorem C26_counting :
  forall pl w x, good_platform pl -> w <= llong_w pl -> x < 2 ^ w ->
  (exists k, countl_zero pl w x = Some k /\ leading w false x k) /\
  (exists k, countl_one pl w x = Some k /\ leading w true x k) /\
  (exists k, countr_zero pl w x = Some k /\ trailing w false x k) /\
  (exists k, countr_one pl w x = Some k /\ trailing w true x k) /\
  popcount pl w x = ones_below w x.
Proof.
  intros pl w x Hp Hw Hx.
  split; [exact (countl_zero_ok pl w x Hp Hw Hx)|]. split; [exact (countl_one_ok pl w x Hp Hw Hx)|].
  split; [exact (countr_zero_ok pl w x Hp Hw Hx)|]. split; [exact (countr_one_ok pl w x Hp Hw Hx)|].
  exact (popcount_ok pl w x Hp Hw Hx).
Qed.
Print Assumptions C26_counting.

Theorem C26_has_single_bit : forall x, has_single_bit x = true <-> exists k, x = 2 ^ k.
Proof. exact has_single_bit_ok. Qed.
Print Assumptions C26_has_single_bit.

Theorem C26_bit_width :
  forall pl w x, good_platform pl -> w <= llong_w pl -> x < 2 ^ w ->
  exists k, bit_width pl w x = Some k /\ x < 2 ^ k /\ forall j, x < 2 ^ j -> k <= j.
Proof. exact bit_width_ok. Qed.
Print Assumptions C26_bit_width.

(** Rotation by less than the width, in either direction. *)
Theorem C26_rotation_partial :
  forall pl w x s, (Z.abs s < Z.of_N w)%Z -> x < 2 ^ w -> (- 2 ^ (Z.of_N (int_w pl) - 1) < s)%Z ->
  (exists y, rotl pl w x s = Some y /\ rotated_left w x s y) /\
  (exists y, rotr pl w x s = Some y /\ rotated_left w x (- s) y).
Proof. intros pl w x s H1 H2 H3. split; [exact (rotl_ok pl w x s H1 H2 H3)|exact (rotr_ok pl w x s H1 H2 H3)]. Qed.
Print Assumptions C26_rotation_partial.

(** FINDING: std::rotl is defined for every amount; the fallback has undefined behaviour for
    every amount from the width up when T is at least as wide as int. *)
Theorem C26_rotation_by_width_or_more_refuted :
  forall pl w x s, int_w pl <= w -> (Z.of_N w <= s < Z.of_N (2 ^ w))%Z -> 0 < w ->
  rotl pl w x s = None /\ rotr pl w x s = None.
Proof. exact rotl_overlong. Qed.
Print Assumptions C26_rotation_by_width_or_more_refuted.
(** FINDING: and for the least int, of which the fallback takes the negative, whatever the width. *)
Theorem C26_rotation_by_int_min_refuted :
  forall pl w x, 0 < int_w pl ->
  rotl pl w x (- 2 ^ (Z.of_N (int_w pl) - 1)) = None /\ rotr pl w x (- 2 ^ (Z.of_N (int_w pl) - 1)) = None.
Proof. exact rot_int_min. Qed.
Print Assumptions C26_rotation_by_int_min_refuted.

(** bit_floor and bit_ceil for values that fit an unsigned int. *)
Theorem C26_bit_floor_partial :
  forall pl w x, good_platform pl -> w <= llong_w pl -> x < 2 ^ w -> 0 < x -> x < 2 ^ int_w pl ->
  exists y, bit_floor pl w x = Some y /\ greatest_pow2_le x y.
Proof. exact bit_floor_ok. Qed.
Print Assumptions C26_bit_floor_partial.
Theorem C26_bit_floor_zero : forall pl w, bit_floor pl w 0 = Some 0.
Proof. reflexivity. Qed.
Print Assumptions C26_bit_floor_zero.

Theorem C26_bit_ceil_partial :
  forall pl w x, good_platform pl -> 0 < w -> w <= llong_w pl -> x <= 2 ^ (w - 1) -> x <= 2 ^ (int_w pl - 1) ->
  exists y, bit_ceil pl w x = Some y /\ least_pow2_ge x y.
Proof. exact bit_ceil_ok. Qed.
Print Assumptions C26_bit_ceil_partial.

(** FINDING: [1U << n] is computed in unsigned int, so for a 64-bit T every value above
    2^32 (bit_floor: from 2^32, bit_ceil: above 2^31) is undefined behaviour. *)
Theorem C26_bit_floor_wide_refuted :
  forall pl w x, good_platform pl -> w <= llong_w pl -> x < 2 ^ w -> 2 ^ int_w pl <= x -> bit_floor pl w x = None.
Proof. exact bit_floor_overflow. Qed.
Print Assumptions C26_bit_floor_wide_refuted.
Theorem C26_bit_ceil_wide_refuted :
  forall pl w x, good_platform pl -> w <= llong_w pl -> x < 2 ^ w -> 2 ^ (int_w pl - 1) < x -> bit_ceil pl w x = None.
Proof. exact bit_ceil_overflow. Qed.
Print Assumptions C26_bit_ceil_wide_refuted.

Example C26_nonvacuous :
  countl_zero lp64 8 0x10 = Some 3 /\ countr_one lp64 16 0x17 = Some 3 /\ popcount lp64 64 0xff00 = 8 /\
  rotl lp64 8 0x81 1 = Some 3 /\ rotr lp64 32 1 1 = Some 0x80000000 /\ bit_width lp64 16 0x1ff = Some 9 /\
  bit_floor lp64 32 0x1ff = Some 0x100 /\ bit_ceil lp64 64 0x101 = Some 0x200 /\
  rotl lp64 32 1 32 = None /\ bit_floor lp64 64 0x100000001 = None.
Proof. repeat split; reflexivity. Qed.
