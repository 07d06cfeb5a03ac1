(** Properties C14 to C19: <stdx/bitset.hpp>.
    [n] is the size, [w] the number of bits of the storage word, [pl] the widths of int, long
    and long long.  Every theorem holds for every n > 0 and every w up to long long. *)
From Verif Require Import Base BaseLemmas BitModel BitSpec BitsetModel BitsetSpec TypeBitsetModel TypeBitsetSpec BitsetProofs2 TypeBitsetProofs2.
Open Scope N_scope.

Definition lp64 : platform := {| int_w := 32; long_w := 64; llong_w := 64 |}.
Example sizes_ok_nonvacuous : sizes_ok lp64 100 8 /\ sizes_ok lp64 64 64 /\ sizes_ok lp64 5 8.
Proof. unfold sizes_ok, good_platform, lp64. cbn [int_w long_w llong_w]. repeat split; try lia; reflexivity. Qed.

(** ** C14.  Any program over [k] bitset variables, all initially empty, whose calls are not
    >>=, lowest_unset or transform_reduce: each call is defined and gives exactly the answer
    and effect of the N-boolean specification. *)
Theorem C14_bitset_is_index_set_partial :
  forall pl n w same64 k ops, sizes_ok pl n w -> (same64 = true -> w = 64) ->
  Forall (fun op => sensitive op = false) ops ->
  conforms (bstep pl n w same64) (bpre n w same64) (bspec n)
    (repeat (make n w) k) (repeat (tab n (fun _ => false)) k) ops.
Proof. intros pl n w same64 k ops (H1 & H2 & H3 & H4 & H5). exact (programs_conform pl n w H1 H2 H3 H4 H5 same64 k ops). Qed.
Print Assumptions C14_bitset_is_index_set_partial.

(** Every call, including those three, in programs that never put a bit above N: no set(),
    flip(), ~ or <<=, and integer constructors only with values below 2^N; or any program at
    all if N is a multiple of the word size. *)
Theorem C14_bitset_is_index_set_tidy_partial :
  forall pl n w same64 k ops, sizes_ok pl n w -> (same64 = true -> w = 64) ->
  Forall (fun op => untidy n w op = false) ops ->
  conforms (bstep pl n w same64) (bpre n w same64) (bspec n)
    (repeat (make n w) k) (repeat (tab n (fun _ => false)) k) ops.
Proof. intros pl n w same64 k ops (H1 & H2 & H3 & H4 & H5). exact (tidy_programs_conform pl n w H1 H2 H3 H4 H5 same64 k ops). Qed.
Print Assumptions C14_bitset_is_index_set_tidy_partial.

(** If N is a multiple of the word size no program is excluded. *)
Theorem C14_bitset_is_index_set_whole_words :
  forall pl n w same64 k ops, sizes_ok pl n w -> (same64 = true -> w = 64) -> n mod w = 0 ->
  conforms (bstep pl n w same64) (bpre n w same64) (bspec n)
    (repeat (make n w) k) (repeat (tab n (fun _ => false)) k) ops.
Proof.
  intros pl n w same64 k ops H H64 Hm. apply C14_bitset_is_index_set_tidy_partial; [exact H|exact H64|].
  apply Forall_forall. intros op _. unfold untidy. rewrite Hm. reflexivity.
Qed.
Print Assumptions C14_bitset_is_index_set_whole_words.

Example C14_nonvacuous :
  forall m, m = run (bstep lp64 13 8 false) (repeat (make 13 8) 2)
    [BSetRange 0 3 9 true; BFlip 0 5; BNot 1 0; BCount 0; BCount 1; BShl 0 2; BEachSet 0; BEq 0 1; BTo 0 false 16] ->
  match m with Done _ outs _ => outs = [BUnit; BUnit; BUnit; BNum 6; BNum 7; BUnit; BList [5; 6; 8; 9; 10; 11]; BBool false; BNum 3936] | _ => False end.
Proof. intros m ->. vm_compute. reflexivity. Qed.
Example C14_tidy_nonvacuous :
  Forall (fun op => untidy 13 8 op = false) [BAllBits 0; BReset 0 5; BShr 0 3; BLowestUnset 0; BReduce 0] /\
  match run (bstep lp64 13 8 false) (repeat (make 13 8) 1) [BAllBits 0; BReset 0 5; BShr 0 3; BLowestUnset 0; BReduce 0] with
  | Done _ outs _ => outs = [BUnit; BUnit; BUnit; BNum 2; BList [0; 1; 3; 4; 5; 6; 7; 8; 9]] | _ => False end.
Proof. split; [repeat constructor|vm_compute; reflexivity]. Qed.

(** The bits above N are observable: after set(), shifting right by one leaves bit N-1 set.
    For every N that is not a multiple of the word size. *)
Theorem C14_storage_above_N_observable_refuted :
  forall pl n w, sizes_ok pl n w -> n mod w <> 0 ->
  exists s', shr_assign n w (set_all w (make n w)) 1 = Some s' /\ get w s' (n - 1) = Some true.
Proof. intros pl n w (H1 & H2 & H3 & H4 & H5). exact (shr_leak pl n w H2 H3 H4 H5). Qed.
Print Assumptions C14_storage_above_N_observable_refuted.
(** set(lsb, length 0) is undefined when lsb is a positive multiple of the word size. *)
Theorem C14_set_zero_length_refuted :
  forall pl n w s l v, sizes_ok pl n w -> 0 < l -> l mod w = 0 -> l < 2 ^ 32 -> set_len w s l 0 v = None.
Proof. intros pl n w s l v (H1 & H2 & H3 & H4 & H5). exact (set_len_zero pl n w H2 H3 H4 H5 s l v). Qed.
Print Assumptions C14_set_zero_length_refuted.

(** ** C15. *)
Theorem C15_shift_left :
  forall pl n w s k, sizes_ok pl n w -> valid n w s -> k < capacity n w ->
  exists s', shl_assign n w s k = Some s' /\ valid n w s' /\
  forall i, i < n -> get w s' i = if i <? k then Some false else get w s (i - k).
Proof. intros pl n w s k (H1 & H2 & H3 & H4 & H5). exact (shl_get pl n w H2 H3 H4 H5 s k). Qed.
Print Assumptions C15_shift_left.
Theorem C15_shift_right_tidy_partial :
  forall pl n w s k, sizes_ok pl n w -> valid n w s -> tidy n w s -> k < capacity n w ->
  exists s', shr_assign n w s k = Some s' /\ valid n w s' /\ tidy n w s' /\
  forall i, i < n -> get w s' i = if i + k <? n then get w s (i + k) else Some false.
Proof. intros pl n w s k (H1 & H2 & H3 & H4 & H5). exact (shr_get pl n w H2 H3 H4 H5 s k). Qed.
Print Assumptions C15_shift_right_tidy_partial.
(** What >>= really does: it shifts the whole storage. *)
Theorem C15_shift_right_exact :
  forall pl n w s k, sizes_ok pl n w -> valid n w s -> k < capacity n w ->
  exists s', shr_assign n w s k = Some s' /\ valid n w s' /\
  forall i, i < n -> get w s' i = if i + k <? capacity n w then get w s (i + k) else Some false.
Proof. intros pl n w s k (H1 & H2 & H3 & H4 & H5). exact (shr_get_any pl n w H2 H3 H4 H5 s k). Qed.
Print Assumptions C15_shift_right_exact.
Example C15_nonvacuous :
  valid 13 8 [0xb5; 0x13] /\ tidy 13 8 [0xb5; 0x13] /\ 9 < capacity 13 8 /\
  shl_assign 13 8 [0xb5; 0x13] 9 = Some [0; 0x6a] /\ shr_assign 13 8 [0xb5; 0x13] 3 = Some [0x76; 0x02].
Proof.
  split; [split; [reflexivity|repeat constructor]|]. split; [|repeat split; reflexivity].
  intros i H1 H2. change (capacity 13 8) with 16 in H2.
  assert (H : In i (map N.of_nat (seq 13 3))) by (apply in_map_iff; exists (N.to_nat i); split; [lia|apply in_seq; lia]).
  repeat (destruct H as [<-|H]; [reflexivity|]). destruct H.
Qed.
(** Shifts by the capacity or more: << is undefined for every bitset, >> moves the last word
    to the front instead of clearing (so an all-ones bitset keeps bit 0). *)
Theorem C15_shift_left_by_capacity_refuted :
  forall pl n w s k, sizes_ok pl n w -> capacity n w <= k -> shl_assign n w s k = None.
Proof. intros pl n w s k (H1 & H2 & H3 & H4 & H5). exact (shl_far pl n w H2 H3 H4 H5 s k). Qed.
Print Assumptions C15_shift_left_by_capacity_refuted.
Theorem C15_shift_right_by_capacity_refuted :
  forall pl n w, sizes_ok pl n w ->
  exists a s', all_ones n w = Some a /\ shr_assign n w a (capacity n w) = Some s' /\ get w s' 0 = Some true.
Proof. intros pl n w (H1 & H2 & H3 & H4 & H5). exact (shr_far_all pl n w H2 H3 H4 H5). Qed.
Print Assumptions C15_shift_right_by_capacity_refuted.
(** In general: >> by the capacity or more is >> by a smaller number of bits, which the theorem above describes;
    it never clears a bitset on which set() was called, however far it is shifted. *)
Theorem C15_shift_right_far_refuted :
  forall pl n w s k, sizes_ok pl n w -> capacity n w <= k ->
  capacity n w - w + k mod w < capacity n w /\ shr_assign n w s k = shr_assign n w s (capacity n w - w + k mod w) /\
  exists s', shr_assign n w (set_all w (make n w)) k = Some s' /\ get w s' 0 = Some true.
Proof.
  intros pl n w s k (H1 & H2 & H3 & H4 & H5) Hk. destruct (shr_far_any pl n w H2 H3 H4 H5 s k Hk) as (A & B).
  split; [exact A|]. split; [exact B|]. exact (shr_far_set pl n w H2 H3 H4 H5 k Hk).
Qed.
Print Assumptions C15_shift_right_far_refuted.
(** bitset<100> over 64-bit words, shifted by 1000. *)
Example C15_far_nonvacuous : capacity 100 64 <= 1000 /\ capacity 100 64 - 64 + 1000 mod 64 = 104.
Proof. split; [vm_compute; congruence|reflexivity]. Qed.

(** ** C16.  [holds n w s f]: f gives the bits of s below n. *)
Theorem C16_lowest_unset_tidy_partial :
  forall pl n w s f, sizes_ok pl n w -> valid n w s -> tidy n w s -> holds n w s f ->
  exists k, lowest_unset pl w s = Some k /\ k <= n /\ (forall i, i < k -> f i = true) /\ (k < n -> f k = false).
Proof. intros pl n w s f (H1 & H2 & H3 & H4 & H5). exact (lowest_tidy pl n w H1 H2 H3 H4 H5 s f). Qed.
Print Assumptions C16_lowest_unset_tidy_partial.
Theorem C16_transform_reduce_tidy_partial :
  forall T U pl n w s f (g : N -> U) (r : T -> U -> T) init, sizes_ok pl n w ->
  valid n w s -> tidy n w s -> holds n w s f ->
  transform_reduce pl w g r init s = Some (fold_left (fun a i => r a (g i)) (indices_where n f) init).
Proof. intros T U pl n w s f g r init (H1 & H2 & H3 & H4 & H5). exact (reduce_tidy pl n w H1 H2 H3 H4 H5 s f g r init). Qed.
Print Assumptions C16_transform_reduce_tidy_partial.
Example C16_nonvacuous :
  lowest_unset lp64 8 [0xff; 0x17] = Some 11 /\
  transform_reduce lp64 8 (fun i => 2 ^ i) N.add 0 [0x81; 0x11] = Some 4481.
Proof. split; vm_compute; reflexivity. Qed.
(** Two equal bitsets with different answers, for every N that is not a multiple of the word
    size: all_bits and set() compare equal, but lowest_unset gives N for one and the capacity
    of the storage for the other. *)
Theorem C16_equal_bitsets_differ_refuted :
  forall pl n w, sizes_ok pl n w -> n mod w <> 0 ->
  exists a, all_ones n w = Some a /\ eq n w a (set_all w (make n w)) = Some true /\
  lowest_unset pl w a = Some n /\ lowest_unset pl w (set_all w (make n w)) = Some (capacity n w) /\ n < capacity n w.
Proof. intros pl n w (H1 & H2 & H3 & H4 & H5). exact (equal_but_different pl n w H1 H2 H3 H4 H5). Qed.
Print Assumptions C16_equal_bitsets_differ_refuted.
(** transform_reduce after set() also visits the indices from N up to the capacity. *)
Theorem C16_transform_reduce_visits_above_N_refuted :
  forall pl n w, sizes_ok pl n w -> n mod w <> 0 ->
  transform_reduce pl w (fun i => i) (fun l i => l ++ [i]) [] (set_all w (make n w))
  = Some (map N.of_nat (seq 0 (N.to_nat (capacity n w)))).
Proof. intros pl n w (H1 & H2 & H3 & H4 & H5). exact (reduce_phantom pl n w H1 H2 H3 H4 H5). Qed.
Print Assumptions C16_transform_reduce_visits_above_N_refuted.

(** ** C17.  [same64]: the word type is std::uint64_t; [uw]: bits of the target of to<T>(),
    [same]: the target is the word type. *)
Theorem C17_from_integer :
  forall pl n w same64 v, sizes_ok pl n w -> (same64 = true -> w = 64) -> v < 2 ^ 64 -> (same64 = true \/ w < 64) ->
  exists s, of_u64 n w same64 v = Some s /\ valid n w s /\ holds n w s (N.testbit v).
Proof. intros pl n w same64 v (H1 & H2 & H3 & H4 & H5). exact (of_u64_holds pl n w H2 H3 H4 H5 same64 v). Qed.
Print Assumptions C17_from_integer.
Theorem C17_to_integer :
  forall pl n w s same uw v, sizes_ok pl n w -> valid n w s -> n <= uw -> (if same : bool then uw = w else w <= uw) ->
  (to_uint n w same uw s = Some v <-> v < 2 ^ n /\ holds n w s (N.testbit v)).
Proof. intros pl n w s same uw v (H1 & H2 & H3 & H4 & H5). exact (to_value pl n w H2 H3 H4 H5 s same uw v). Qed.
Print Assumptions C17_to_integer.
Theorem C17_integer_round_trip :
  forall pl n w same64 v same uw, sizes_ok pl n w -> (same64 = true -> w = 64) -> v < 2 ^ 64 -> (same64 = true \/ w < 64) ->
  n <= uw -> (if same : bool then uw = w else w <= uw) ->
  exists s, of_u64 n w same64 v = Some s /\ to_uint n w same uw s = Some (v mod 2 ^ n).
Proof. intros pl n w same64 v same uw (H1 & H2 & H3 & H4 & H5). exact (u64_roundtrip pl n w H2 H3 H4 H5 same64 v same uw). Qed.
Print Assumptions C17_integer_round_trip.
(** A target narrower than the word type is rejected, even if it has N digits. *)
Theorem C17_to_narrower_integer_refuted :
  forall n w uw s, n <= uw -> uw < w -> to_uint n w false uw s = None.
Proof.
  intros n w uw s H1 H2. unfold to_uint. destruct (N.ltb_spec uw n); [reflexivity|].
  destruct (N.ltb_spec uw w); [reflexivity|lia].
Qed.
Print Assumptions C17_to_narrower_integer_refuted.
(** to_natural: the type is the narrowest with N digits; the value that of the bits, if the word type is no
    wider. *)
Theorem C17_to_natural_partial :
  forall pl n w s (same : bool) v, sizes_ok pl n w -> valid n w s -> n <= 64 ->
  (if same then natural_width n = w else w <= natural_width n) ->
  (to_natural n w same s = Some v <-> v < 2 ^ n /\ holds n w s (N.testbit v)) /\
  n <= natural_width n /\ (forall u, In u [8; 16; 32; 64] -> n <= u -> natural_width n <= u).
Proof.
  intros pl n w s same v H V L E.
  assert (B : n <= natural_width n /\ (forall u, In u [8; 16; 32; 64] -> n <= u -> natural_width n <= u)).
  { unfold natural_width. destruct (N.leb_spec n 8), (N.leb_spec n 16), (N.leb_spec n 32); try lia;
      (split; [lia|intros u [<-|[<-|[<-|[<-|[]]]]]; lia]). }
  split; [|exact B]. unfold to_natural. destruct (N.ltb_spec (natural_width n) n); [lia|].
  apply (C17_to_integer pl n w s same (natural_width n) v H V); [apply B|exact E].
Qed.
Print Assumptions C17_to_natural_partial.
(** With a wider word type it does not compile. *)
Theorem C17_to_natural_refuted :
  forall n w s, natural_width n < w -> to_natural n w false s = None.
Proof.
  intros n w s H. unfold to_natural. destruct (N.ltb_spec (natural_width n) n); [reflexivity|].
  apply C17_to_narrower_integer_refuted; assumption.
Qed.
Print Assumptions C17_to_natural_refuted.
(** Enumerations: as their underlying types, except that a scoped one must have the word type as its underlying type. *)
Theorem C17_to_enum_partial :
  forall pl n w s (scoped same : bool) uw v, sizes_ok pl n w -> valid n w s -> n <= uw -> (if same then uw = w else w <= uw) ->
  (scoped = true -> same = true) ->
  (to_enum n w scoped same uw s = Some v <-> v < 2 ^ n /\ holds n w s (N.testbit v)).
Proof.
  intros pl n w s scoped same uw v H V L E S1. unfold to_enum.
  assert (X : scoped && negb same = false) by (destruct scoped; [rewrite S1 by reflexivity|]; reflexivity).
  rewrite X.
  apply (C17_to_integer pl n w s same uw v H V L E).
Qed.
Print Assumptions C17_to_enum_partial.
Theorem C17_to_scoped_enum_refuted : forall n w uw s, to_enum n w true false uw s = None.
Proof. reflexivity. Qed.
Print Assumptions C17_to_scoped_enum_refuted.
Example C17_to_nonvacuous :
  to_natural 11 8 false [0x88; 0xfc] = Some 0x488 /\ to_natural 11 16 true [0xf488] = Some 0x488 /\
  to_natural 11 32 false [0x488] = None /\ to_uint 11 32 false 16 [0x488] = None /\ to_uint 11 8 false 16 [0x88; 4] = Some 0x488 /\
  to_enum 4 8 true true 8 [0x1f] = Some 15 /\ to_enum 4 8 false false 32 [0x1f] = Some 15 /\ to_enum 4 8 true false 32 [0x1f] = None.
Proof. repeat split. Qed.
Theorem C17_place_bits :
  forall pl n w ps, sizes_ok pl n w -> Forall (fun p => p < n) ps ->
  exists s, place n w ps = Some s /\ valid n w s /\ tidy n w s /\ holds n w s (fun i => existsb (N.eqb i) ps).
Proof. intros pl n w ps (H1 & H2 & H3 & H4 & H5). exact (place_holds pl n w H2 H3 H4 H5 ps). Qed.
Print Assumptions C17_place_bits.
Theorem C17_all_bits :
  forall pl n w, sizes_ok pl n w ->
  exists s, all_ones n w = Some s /\ valid n w s /\ tidy n w s /\ holds n w s (fun _ => true).
Proof. intros pl n w (H1 & H2 & H3 & H4 & H5). exact (all_holds pl n w H2 H3 H4 H5). Qed.
Print Assumptions C17_all_bits.
(** The string: the substring from pos, at most cnt and at most N characters of it; its last
    character is bit 0; a character equal to [one] means 1, any other 0. *)
Theorem C17_from_string :
  forall pl n w str pos cnt one, sizes_ok pl n w -> pos <= len str ->
  let sub := firstn (N.to_nat (N.min cnt n)) (skipn (N.to_nat pos) str) in
  exists s, of_string n w str pos cnt one = Some s /\ valid n w s /\ tidy n w s /\
  holds n w s (fun i => match nth_error (rev sub) (N.to_nat i) with Some c => c =? one | None => false end).
Proof. intros pl n w str pos cnt one (H1 & H2 & H3 & H4 & H5). exact (string_holds pl n w H2 H3 H4 H5 str pos cnt one). Qed.
Print Assumptions C17_from_string.
Example C17_nonvacuous :
  of_u64 20 8 false 0x12345 = Some [0x45; 0x23; 1] /\ to_uint 20 8 false 32 [0x45; 0x23; 1] = Some 0x12345 /\
  of_u64 70 64 true 7 = Some [7; 0] /\ place 20 8 [3; 19] = Some [8; 0; 8] /\
  of_string 4 8 [48; 49; 49; 48; 49; 48] 1 4 49 = Some [13].
Proof. repeat split; vm_compute; reflexivity. Qed.
(** With a 64-bit word type other than std::uint64_t (e.g. unsigned long long on LP64) the
    integer constructor shifts by 64: undefined for every non-zero value. *)
Theorem C17_from_integer_other_64_bit_refuted :
  forall n v, 0 < n -> 0 < v -> of_u64 n 64 false v = None.
Proof. exact u64_wide. Qed.
Print Assumptions C17_from_integer_other_64_bit_refuted.

(** ** C18.  The recorded calls of each iteration. *)
Theorem C18_for_each_exact :
  forall pl n w s f, sizes_ok pl n w -> valid n w s -> holds n w s f ->
  for_each_set pl n w s = Some (indices_where n f) /\
  for_each_unset pl n w s = Some (indices_where n (fun i => negb (f i))) /\
  for_each_bit pl n w s = Some (map (fun i => (i, f i)) (map N.of_nat (seq 0 (N.to_nat n)))).
Proof. intros pl n w s f (H1 & H2 & H3 & H4 & H5). exact (each_exact pl n w H1 H2 H3 H4 H5 s f). Qed.
Print Assumptions C18_for_each_exact.
Example C18_nonvacuous :
  for_each_set lp64 13 8 [0x81; 0xf1] = Some [0; 7; 8; 12] /\
  for_each_unset lp64 13 8 [0x7f; 0xf5] = Some [7; 9; 11] /\
  for_each_bit lp64 3 8 [0xfd] = Some [(0, true); (1, false); (2, true)].
Proof. repeat split; vm_compute; reflexivity. Qed.
(** bitset<0>: the loop bound storage_size - 1 wraps. *)
Theorem C18_for_each_empty_bitset_refuted : forall pl w s, 0 < w -> for_each_set pl 0 w s = None.
Proof. exact each_empty. Qed.
Print Assumptions C18_for_each_empty_bitset_refuted.

(** ** C19.  Types are numbers; [ts] is the type list. *)
Theorem C19_set_types_partial :
  forall pl ts w s us v, types_ok pl ts w -> NoDup ts -> valid (tb_N ts) w s -> us <> [] -> Forall (fun u => In u ts) us ->
  exists s', tb_set ts w s us v = Some s' /\ valid (tb_N ts) w s' /\
  forall t, In t ts -> tb_get ts w s' t = if listed t us then Some v else tb_get ts w s t.
Proof. intros pl ts w s us v (H1 & H2 & H3 & H4 & H5). exact (tb_set_ok pl ts w H2 H3 H4 H5 s us v). Qed.
Print Assumptions C19_set_types_partial.
Theorem C19_reset_types_partial :
  forall pl ts w s us, types_ok pl ts w -> NoDup ts -> valid (tb_N ts) w s -> us <> [] -> Forall (fun u => In u ts) us ->
  exists s', tb_reset ts w s us = Some s' /\ valid (tb_N ts) w s' /\
  forall t, In t ts -> tb_get ts w s' t = if listed t us then Some false else tb_get ts w s t.
Proof. intros pl ts w s us (H1 & H2 & H3 & H4 & H5). exact (tb_reset_ok pl ts w H2 H3 H4 H5 s us). Qed.
Print Assumptions C19_reset_types_partial.
Theorem C19_flip_types_partial :
  forall pl ts w s us, types_ok pl ts w -> NoDup ts -> valid (tb_N ts) w s -> us <> [] -> Forall (fun u => In u ts) us ->
  exists s', tb_flip ts w s us = Some s' /\ valid (tb_N ts) w s' /\
  forall t b, In t ts -> tb_get ts w s t = Some b -> tb_get ts w s' t = Some (xorb (odd_times t us) b).
Proof. intros pl ts w s us (H1 & H2 & H3 & H4 & H5). exact (tb_flip_ok pl ts w H2 H3 H4 H5 s us). Qed.
Print Assumptions C19_flip_types_partial.
(** Without types, all are meant: with or without duplicates, set(), reset() and flip() do to every type
    what they say. *)
Theorem C19_all_types :
  forall pl ts w s, types_ok pl ts w -> valid (tb_N ts) w s ->
  (exists s', tb_set ts w s [] true = Some s' /\ valid (tb_N ts) w s' /\ forall t, In t ts -> tb_get ts w s' t = Some true) /\
  (exists s', tb_reset ts w s [] = Some s' /\ valid (tb_N ts) w s' /\ forall t, In t ts -> tb_get ts w s' t = Some false) /\
  (exists s', tb_flip ts w s [] = Some s' /\ valid (tb_N ts) w s' /\ forall t b, In t ts -> tb_get ts w s t = Some b -> tb_get ts w s' t = Some (negb b)).
Proof. intros pl ts w s (H1 & H2 & H3 & H4 & H5) H. destruct (tb_whole_ok pl ts w H2 H3 H4 H5 s H) as (A & B). split; [apply A|exact B]. Qed.
Print Assumptions C19_all_types.
(** But set(false) sets them all. *)
Theorem C19_set_false_refuted :
  forall pl ts w s, types_ok pl ts w -> valid (tb_N ts) w s ->
  exists s', tb_set ts w s [] false = Some s' /\ forall t, In t ts -> tb_get ts w s' t = Some true.
Proof. intros pl ts w s (H1 & H2 & H3 & H4 & H5) H. destruct (tb_whole_ok pl ts w H2 H3 H4 H5 s H) as (A & _). destruct (A false) as (s' & E & _ & F). eauto. Qed.
Print Assumptions C19_set_false_refuted.
(** The constructor from a type list and for_each are right even with duplicates. *)
Theorem C19_from_type_list :
  forall pl ts w us, types_ok pl ts w -> Forall (fun u => In u ts) us ->
  exists s, tb_of_types ts w us = Some s /\ valid (tb_N ts) w s /\ forall t, In t ts -> tb_get ts w s t = Some (listed t us).
Proof. intros pl ts w us (H1 & H2 & H3 & H4 & H5). exact (tb_ctor_ok pl ts w H2 H3 H4 H5 us). Qed.
Print Assumptions C19_from_type_list.
Theorem C19_for_each_types :
  forall pl ts w s, types_ok pl ts w -> valid (tb_N ts) w s ->
  tb_for_each_set pl ts w s =
  Some (filter (fun t => match tb_get ts w s t with Some b => b | None => false end) (firsts ts)).
Proof. intros pl ts w s (H1 & H2 & H3 & H4 & H5). rewrite <- mp_unique_firsts. exact (tb_each_ok pl ts w H1 H2 H3 H4 H5 s). Qed.
Print Assumptions C19_for_each_types.
Example C19_nonvacuous :
  types_ok lp64 [10; 20; 30] 8 /\ NoDup [10; 20; 30] /\ valid (tb_N [10; 20; 30]) 8 [1] /\
  tb_set [10; 20; 30] 8 [1] [30; 20] true = Some [7] /\ tb_get [10; 20; 30] 8 [5] 20 = Some false /\
  tb_for_each_set lp64 [10; 10; 20; 30] 8 [5] = Some [10; 30].
Proof.
  repeat split; try (vm_compute; reflexivity); try (vm_compute; discriminate);
    repeat constructor; cbn; intuition discriminate.
Qed.
(** With a duplicate before T in the list, set<T>() (where it compiles) sets another type's
    bit and leaves T's alone. *)
Theorem C19_duplicates_refuted :
  forall pl ts a t b w s s' v, types_ok pl ts w -> valid (tb_N ts) w s -> ts = a ++ t :: b -> ~ In t a -> ~ NoDup a ->
  tb_set ts w s [t] v = Some s' ->
  tb_get ts w s' t = tb_get ts w s t /\ exists u, In u ts /\ u <> t /\ tb_get ts w s' u = Some v.
Proof.
  intros pl ts a t b w s s' v (H1 & H2 & H3 & H4 & H5) Hs -> Ha D. apply (tb_wrong pl _ w H2 H3 H4 H5 s s' t v Hs); [apply in_app_iff; right; left; reflexivity|].
  rewrite index_after by exact Ha. apply unique_before; assumption.
Qed.
Print Assumptions C19_duplicates_refuted.
Example C19_duplicates_nonvacuous :
  tb_set [10; 10; 20; 30] 8 [0] [20] true = Some [4] /\ tb_get [10; 10; 20; 30] 8 [4] 20 = Some false /\
  tb_get [10; 10; 20; 30] 8 [4] 30 = Some true.
Proof. repeat split; vm_compute; reflexivity. Qed.
