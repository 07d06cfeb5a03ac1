(** C27 byterator. *)
From Verif Require Import Base BaseLemmas BitModel BitSpec ByteratorModel ByteratorSpec ByteratorProofs ByteratorProofs2.
Open Scope N_scope.

(** Any program over any number of byterators into one array of bytes behaves as the cursors
    of ByteratorSpec: reads give the bytes (or the integer in the machine's byte order) at the
    cursor, writes change exactly the bytes written, cursors move by the size read or written,
    and advance_to_alignment goes to the next multiple of a power-of-two size. *)
Theorem C27_cursors : forall e aw ops s, good_state s -> conforms (ystep e aw) (ypre aw) (yspec e) s (view s) ops.
Proof. exact ystep_conforms. Qed.
Print Assumptions C27_cursors.

(** What is written through a byterator, as a sequence of values of any sizes, is read back
    as the same sequence by a byterator starting at the same place; both end right after the
    last byte, and no other byte changes. *)
Theorem C27_stream_round_trip : forall r p vs,
  base r <= p -> p + len (concat vs) <= base r + len (bytes r) ->
  exists r', write_all r p vs = Some (r', p + len (concat vs)) /\
    read_all r' p (map len vs) = Some (vs, p + len (concat vs)) /\
    base r' = base r /\ len (bytes r') = len (bytes r) /\
    (forall i, i < p - base r \/ p - base r + len (concat vs) <= i -> rd (bytes r') i = rd (bytes r) i).
Proof. exact stream_round_trip. Qed.
Print Assumptions C27_stream_round_trip.

(** Alignment to a power-of-two size, the only sizes for which it is exact. *)
Theorem C27_align_partial : forall aw k p, p + 2 ^ k - 1 < 2 ^ aw -> next_multiple (2 ^ k) p (align_up aw (2 ^ k) p).
Proof. exact align_ok. Qed.
Print Assumptions C27_align_partial.
Theorem C27_next_multiple_unique : forall sz p q1 q2, 0 < sz -> next_multiple sz p q1 -> next_multiple sz p q2 -> q1 = q2.
Proof. exact next_multiple_unique. Qed.
Print Assumptions C27_next_multiple_unique.

(** advance_to_alignment<T>(n), as documented: it ends at a multiple of the size, and the multiples
    at or after the starting address are the one [n] sizes before that end and all later ones. So
    -1 gives the last multiple before the start, -2 the one before that, and so on. *)
Theorem C27_nth_alignment : forall aw k r p n q, p + 2 ^ k - 1 < 2 ^ aw ->
  advance_to_alignment aw r p (2 ^ k) n = Some q ->
  q mod 2 ^ k = 0 /\ forall i : Z, (Z.of_N p <= Z.of_N q + i * 2 ^ Z.of_N k <-> - n <= i)%Z.
Proof.
  intros aw k r p n q B E. destruct (align_ok aw k p B) as (A1 & A2 & A3). unfold advance_to_alignment, advance_by in E.
  set (a := align_up aw (2 ^ k) p) in *. clearbody a. destruct (_ && _)%bool eqn:L in E; [|discriminate]. injection E as <-.
  apply andb_true_iff in L as (L & _). apply Z.leb_le in L. rewrite N2Z.inj_pow in *. change (Z.of_N 2) with 2%Z in *.
  assert (P : (0 < 2 ^ Z.of_N k)%Z) by (apply Z.pow_pos_nonneg; lia).
  assert (Q : (Z.of_N a + n * 2 ^ Z.of_N k >= 0)%Z) by lia. rewrite Z2N.id by lia.
  apply (f_equal Z.of_N) in A1. rewrite N2Z.inj_mod, N2Z.inj_pow in A1. change (Z.of_N 2) with 2%Z in A1. change (Z.of_N 0) with 0%Z in A1.
  assert (A3' : (Z.of_N a < Z.of_N p + 2 ^ Z.of_N k)%Z) by (change 2%Z with (Z.of_N 2); rewrite <- N2Z.inj_pow; lia).
  split; [|set (z := (2 ^ Z.of_N k)%Z) in *; clearbody z; intros i; split; intros H; nia].
  apply N2Z.inj. rewrite N2Z.inj_mod, N2Z.inj_pow, Z2N.id by lia. change (Z.of_N 2) with 2%Z. change (Z.of_N 0) with 0%Z.
  rewrite Z.mod_add by lia. exact A1.
Qed.
Print Assumptions C27_nth_alignment.

(** For every other size (a struct of three bytes, say) the address reached from address 1 is
    not a multiple of the size. *)
Theorem C27_align_other_sizes_refuted : forall aw sz, 1 < sz -> sz < 2 ^ aw -> (forall k, sz <> 2 ^ k) ->
  align_up aw sz 1 mod sz <> 0.
Proof. exact align_not_power. Qed.
Print Assumptions C27_align_other_sizes_refuted.

(** ** The hypotheses are met *)
Definition ex_state := YState (Region 1000 [1; 2; 3; 4; 5; 6; 7; 8]) [1000; 1001].
Example C27_ex_good : good_state ex_state.
Proof. split; repeat constructor; cbn; lia. Qed.
Definition ex_ops := [YWriteU 0 16 0x1234; YAdvanceTo 1 4 0; YReadU 1 32 32; YDistance 1 0; YPeek 0 2; YAssign 0 (-2) 0x1ff; YDeref 0 (-2); YLess 0 1].
Example C27_ex_runs : run (ystep Little 64) ex_state ex_ops
  = Done (YState (Region 1000 [0xff; 0x12; 3; 4; 5; 6; 7; 8]) [1002; 1008])
         [YUnit; YUnit; YNum 0x08070605; YInt 6; YBytes [3; 4]; YUnit; YNum 0xff; YBool true] [].
Proof. vm_compute. reflexivity. Qed.
Example C27_ex_big : run (ystep Big 64) ex_state [YWriteU 0 16 0x1234; YReadU 1 16 16]
  = Done (YState (Region 1000 [0x12; 0x34; 3; 4; 5; 6; 7; 8]) [1002; 1003]) [YUnit; YNum 0x3403] [].
Proof. vm_compute. reflexivity. Qed.
Example C27_ex_pre : ypre 64 (view ex_state) (YAdvanceTo 1 4 0) /\ ypre 64 (view ex_state) (YWriteU 0 16 0x1234).
Proof.
  split.
  - split; [exists 2; reflexivity|]. exists 1001. split; [reflexivity|]. split; [reflexivity|]. intros q (_ & H1 & H2). split; cbn; lia.
  - split; [reflexivity|]. exists 1000. split; [reflexivity|]. split; cbn; lia.
Qed.
Example C27_ex_alignment : advance_to_alignment 64 (Region 1000 [1; 2; 3; 4; 5; 6; 7; 8]) 1005 4 (-1) = Some 1004 /\
  advance_to_alignment 64 (Region 1000 [1; 2; 3; 4; 5; 6; 7; 8]) 1004 4 (-1) = Some 1000.
Proof. split; reflexivity. Qed.
Example C27_ex_stream : exists r', write_all (mem ex_state) 1001 [[9; 8]; [7]; []; [6; 5; 4]] = Some (r', 1007) /\
  read_all r' 1001 [2; 1; 0; 3] = Some ([[9; 8]; [7]; []; [6; 5; 4]], 1007).
Proof. eexists. split; vm_compute; reflexivity. Qed.
Example C27_ex_align : align_up 64 3 1 = 1 /\ align_up 64 4 1 = 4 /\ (forall k, 3 <> 2 ^ k).
Proof.
  split; [reflexivity|]. split; [reflexivity|]. intros k. destruct (N.lt_ge_cases k 2) as [H|H].
  - assert (k = 0 \/ k = 1) as [->| ->] by lia; cbn; lia.
  - assert (2 ^ 2 <= 2 ^ k) by (apply N.pow_le_mono_r; lia). change (2 ^ 2) with 4 in *. lia.
Qed.
