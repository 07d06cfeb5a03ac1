(** Proofs for C126. *)
From Verif Require Import Base BaseLemmas BitModel BitSpec BitProofs BitProofs2 ByteratorModel ByteratorSpec ByteratorProofs ByteratorProofs2 WireModel WireSpec.
Open Scope N_scope.

Lemma pow_pos j : 0 < 2 ^ j.
Proof. apply N.neq_0_lt_0, N.pow_nonzero. lia. Qed.

(** ** Alignment *)
Lemma pad_multiple sz p : 0 < sz -> next_multiple sz p (p + (sz - p mod sz) mod sz).
Proof.
  intros Hs. pose proof (N.mod_lt p sz ltac:(lia)) as Hm. unfold next_multiple.
  pose proof (N.mod_lt (sz - p mod sz) sz ltac:(lia)) as Hm2.
  split; [|split; lia].
  rewrite N.add_mod_idemp_r by lia. pose proof (N.div_mod p sz ltac:(lia)) as Hd.
  replace (p + (sz - p mod sz)) with ((p / sz + 1) * sz) by lia. apply N.mod_mul. lia.
Qed.
Lemma align_after aw b o j : b + o + 2 ^ j - 1 < 2 ^ aw -> align_up aw (2 ^ j) (b + o) = b + after b o (FAlign j).
Proof.
  intros H. pose proof (pow_pos j). apply (next_multiple_unique (2 ^ j) (b + o)); [assumption|now apply align_ok|].
  cbn [after]. replace (b + (o + (2 ^ j - (b + o) mod 2 ^ j) mod 2 ^ j)) with (b + o + (2 ^ j - (b + o) mod 2 ^ j) mod 2 ^ j) by lia.
  now apply pad_multiple.
Qed.

(** ** Offsets *)
Lemma after_ge b o f : o <= after b o f.
Proof. destruct f; cbn [after]; lia. Qed.
Lemma end_ge b fs : forall o, o <= end_of b o fs.
Proof.
  induction fs as [|f fs IH]; intros o; cbn [end_of]; [lia|]. pose proof (after_ge b o f). specialize (IH (after b o f)). lia.
Qed.
Lemma bytes_of_len e f d b o : fits f d -> match f with FInt _ _ | FBytes _ => len (bytes_of e f d) = after b o f - o | _ => bytes_of e f d = [] end.
Proof.
  destruct f as [[]k|n|n|j], d as [v|l|]; cbn; try contradiction; try reflexivity; intros H.
  - unfold len. rewrite map_length, rev_length, seq_length. lia.
  - unfold len. rewrite map_length, seq_length. lia.
  - destruct e; unfold len; rewrite map_length, ?rev_length, seq_length; lia.
  - destruct H as [H _]. lia.
Qed.

(** ** Writing *)
Lemma converted_bytes e o k v : std_width k -> v < 2 ^ (8 * N.of_nat k) ->
  mem_of e (8 * N.of_nat k) (converted e o (8 * N.of_nat k) v) = bytes_of e (FInt o k) (DInt v).
Proof.
  intros Hk Hv. change (8 * N.of_nat k) with (wbits k) in *. destruct o; cbn [converted bytes_of].
  - now apply mem_to_be.
  - now apply mem_to_le.
  - destruct e.
    + exact (mem_to_le Little k v Hk Hv).
    + exact (mem_to_be Big k v Hk Hv).
Qed.
Lemma rd_cellr r i x : rd (bytes r) i = Some x -> cellr r (base r + i) = x.
Proof.
  intros H. unfold cellr. destruct (N.leb_spec (base r) (base r + i)); [|lia].
  replace (base r + i - base r) with i by lia. now rewrite H.
Qed.
Lemma cellr_rd r i : i < len (bytes r) -> rd (bytes r) i = Some (cellr r (base r + i)).
Proof. intros H. destruct (rd_lt_Some _ _ H) as [x Hx]. now rewrite (rd_cellr r i x Hx). Qed.

Lemma write_at r o l : o + len l <= len (bytes r) ->
  exists r', write r (base r + o) l = Some (r', base r + (o + len l)) /\ base r' = base r /\ len (bytes r') = len (bytes r) /\
    lies (bytes r') o l /\ (forall i, ~ (o <= i < o + len l) -> rd (bytes r') i = rd (bytes r) i).
Proof.
  intros H. destruct (write_done r (base r + o) l ltac:(lia) ltac:(lia)) as (r' & E & B & L & C). exists r'.
  split; [rewrite E; do 2 f_equal; lia|]. split; [exact B|]. split; [exact L|]. split.
  - intros i x Hx. pose proof (rd_Some_lt _ _ _ Hx). rewrite cellr_rd by lia. rewrite B, C.
    destruct (N.leb_spec (base r + o) (base r + (o + i))); [|lia]. destruct (N.ltb_spec (base r + (o + i)) (base r + o + len l)); [|lia].
    cbn [andb]. replace (base r + (o + i) - (base r + o)) with i by lia. now rewrite Hx.
  - intros i Hi. destruct (N.ltb_spec i (len (bytes r))) as [Hl|Hl]; [|now rewrite !rd_ge_None by lia].
    rewrite (cellr_rd r) by lia. rewrite (cellr_rd r') by lia. f_equal. rewrite B, C.
    destruct (N.leb_spec (base r + o) (base r + i)), (N.ltb_spec (base r + i) (base r + o + len l)); cbn [andb]; try reflexivity. lia.
Qed.
Lemma write_none r o l : o + len l > len (bytes r) -> write r (base r + o) l = None.
Proof.
  intros H. unfold write, store_bytes. destruct (inside r (base r + o) (len l)) eqn:E; [|reflexivity].
  apply inside_ok in E. lia.
Qed.
Lemma advance_at r p d : base r <= p -> p + d <= base r + len (bytes r) -> advance_by r p (Z.of_N d) = Some (p + d).
Proof. intros H1 H2. rewrite advance_by_ok by lia. f_equal. lia. Qed.
Lemma advance_none r p d : p + d > base r + len (bytes r) -> advance_by r p (Z.of_N d) = None.
Proof.
  intros H. unfold advance_by. destruct (Z.leb_spec (Z.of_N p + Z.of_N d) (Z.of_N (base r + len (bytes r)))); [lia|].
  now rewrite andb_false_r.
Qed.

Lemma put_field_ok e aw r o f d : fits f d -> addressable aw (base r) (len (bytes r)) [f] -> after (base r) o f <= len (bytes r) ->
  exists r', put_field e aw r (base r + o) f d = Some (r', base r + after (base r) o f) /\ base r' = base r /\ len (bytes r') = len (bytes r) /\
    lies (bytes r') o (bytes_of e f d) /\
    (forall i, ~ match f with FInt _ _ | FBytes _ => o <= i < after (base r) o f | _ => False end -> rd (bytes r') i = rd (bytes r) i).
Proof.
  intros Hf Ha Ho. pose proof (after_ge (base r) o f) as Hge. pose proof (bytes_of_len e f d (base r) o Hf) as Hlen.
  destruct f as [bo k|n|n|j], d as [v|l|]; cbn [fits] in Hf; try contradiction.
  - destruct Hf as [Hk Hv]. cbn [put_field]. rewrite (converted_bytes e bo k v Hk Hv).
    destruct (write_at r o (bytes_of e (FInt bo k) (DInt v)) ltac:(lia)) as (r' & E & B & L & C & D).
    exists r'. replace (o + len (bytes_of e (FInt bo k) (DInt v))) with (after (base r) o (FInt bo k)) in * by lia. auto.
  - destruct Hf as [Hl _]. cbn [put_field]. rewrite Hl, N.eqb_refl. cbn [bytes_of] in *.
    destruct (write_at r o l ltac:(lia)) as (r' & E & B & L & C & D).
    exists r'. replace (o + len l) with (after (base r) o (FBytes n)) in * by lia. auto.
  - cbn [put_field after] in *. rewrite (advance_at r (base r + o) n) by lia. exists r.
    split; [do 2 f_equal; lia|]. repeat split; auto. cbn. intros i x Hx. destruct i; discriminate.
  - cbn [put_field]. unfold advance_to_alignment. specialize (Ha j (or_introl eq_refl)). pose proof (pow_pos j).
    rewrite align_after by lia. rewrite Z.mul_0_l. change 0%Z with (Z.of_N 0). rewrite (advance_at r _ 0) by lia. exists r.
    split; [do 2 f_equal; lia|]. repeat split; auto. cbn. intros i x Hx. destruct i; discriminate.
Qed.
Lemma put_field_none e aw r o f d : fits f d -> addressable aw (base r) (len (bytes r)) [f] -> o <= len (bytes r) -> len (bytes r) < after (base r) o f ->
  put_field e aw r (base r + o) f d = None.
Proof.
  intros Hf Ha Hr Ho. pose proof (bytes_of_len e f d (base r) o Hf) as Hlen.
  destruct f as [bo k|n|n|j], d as [v|l|]; cbn [fits] in Hf; try contradiction.
  - destruct Hf as [Hk Hv]. cbn [put_field]. rewrite (converted_bytes e bo k v Hk Hv). apply write_none. lia.
  - destruct Hf as [Hl _]. cbn [put_field]. rewrite Hl, N.eqb_refl. cbn [bytes_of] in *. apply write_none. lia.
  - cbn [put_field after] in *. rewrite advance_none by lia. reflexivity.
  - cbn [put_field]. unfold advance_to_alignment. specialize (Ha j (or_introl eq_refl)). pose proof (pow_pos j).
    rewrite align_after by lia. rewrite Z.mul_0_l. change 0%Z with (Z.of_N 0). rewrite advance_none by lia. reflexivity.
Qed.

Lemma addressable_head aw b n f fs : addressable aw b n (f :: fs) -> addressable aw b n [f].
Proof. intros H j [->|[]]. apply H. now left. Qed.
Lemma addressable_tail aw b n f fs : addressable aw b n (f :: fs) -> addressable aw b n fs.
Proof. intros H j Hj. apply H. now right. Qed.

Lemma part_of_ge b fs : forall o i, part_of b o fs i -> o <= i.
Proof.
  induction fs as [|f fs IH]; intros o i; cbn [part_of]; [contradiction|]. pose proof (after_ge b o f).
  intros [H1|H1]; [destruct f; try contradiction; lia|]. specialize (IH _ _ H1). lia.
Qed.
Lemma message_kept e m m' b fs : forall ds o, (forall i, o <= i -> rd m' i = rd m i) -> message_in e m b o fs ds -> message_in e m' b o fs ds.
Proof.
  induction fs as [|f fs IH]; intros ds o Hm; cbn [message_in]; [auto|]. destruct ds as [|d ds]; [auto|].
  intros [H1 H2]. pose proof (after_ge b o f). split.
  - intros i x Hx. rewrite Hm by lia. now apply H1.
  - apply IH; [|assumption]. intros i Hi. apply Hm. lia.
Qed.

Theorem put_ok e aw fs : forall ds r o, Forall2 fits fs ds -> addressable aw (base r) (len (bytes r)) fs -> end_of (base r) o fs <= len (bytes r) ->
  exists r', put_message e aw r (base r + o) fs ds = Some (r', base r + end_of (base r) o fs) /\ base r' = base r /\ len (bytes r') = len (bytes r) /\
    message_in e (bytes r') (base r) o fs ds /\ (forall i, ~ part_of (base r) o fs i -> rd (bytes r') i = rd (bytes r) i).
Proof.
  induction fs as [|f fs IH]; intros ds r o Hf Ha Hend; inversion Hf as [|? d ? ds' Hd Hds]; subst.
  - exists r. cbn. repeat split; auto.
  - cbn [end_of put_message part_of message_in] in *. pose proof (end_ge (base r) fs (after (base r) o f)) as Hge.
    destruct (put_field_ok e aw r o f d Hd (addressable_head _ _ _ _ _ Ha) ltac:(lia)) as (r1 & E1 & B1 & L1 & C1 & D1).
    rewrite E1. cbn [fst snd].
    destruct (IH ds' r1 (after (base r) o f) Hds) as (r2 & E2 & B2 & L2 & C2 & D2).
    + rewrite B1, L1. exact (addressable_tail _ _ _ _ _ Ha).
    + rewrite B1, L1. exact Hend.
    + rewrite B1 in *. exists r2. split; [exact E2|]. split; [congruence|]. split; [congruence|]. split; [split|].
      * intros i x Hx. pose proof (bytes_of_len e f d (base r) o Hd) as Hlen. pose proof (after_ge (base r) o f). pose proof (rd_Some_lt _ _ _ Hx).
        rewrite D2; [now apply C1|]. intros Hp. apply part_of_ge in Hp.
        destruct f; try (rewrite Hlen in Hx; destruct i; discriminate); lia.
      * exact C2.
      * intros i Hi. rewrite D2 by tauto. apply D1. tauto.
Qed.
Theorem put_none e aw fs : forall ds r o, Forall2 fits fs ds -> addressable aw (base r) (len (bytes r)) fs -> o <= len (bytes r) -> len (bytes r) < end_of (base r) o fs ->
  put_message e aw r (base r + o) fs ds = None.
Proof.
  induction fs as [|f fs IH]; intros ds r o Hf Ha Ho Hend; inversion Hf as [|? d ? ds' Hd Hds]; subst; cbn [end_of put_message] in *; [lia|].
  destruct (N.leb_spec (after (base r) o f) (len (bytes r))) as [Hl|Hl].
  - destruct (put_field_ok e aw r o f d Hd (addressable_head _ _ _ _ _ Ha) Hl) as (r1 & E1 & B1 & L1 & _).
    rewrite E1. cbn [fst snd]. rewrite <- B1. apply IH; rewrite ?B1, ?L1; try assumption. exact (addressable_tail _ _ _ _ _ Ha).
  - rewrite put_field_none; auto. exact (addressable_head _ _ _ _ _ Ha).
Qed.

(** ** Reading *)
Lemma of_mem_of e k x : x < 2 ^ (8 * N.of_nat k) -> of_mem e (mem_of e (8 * N.of_nat k) x) = x.
Proof.
  intros Hx. assert (Hk : N.to_nat (8 * N.of_nat k / 8) = k) by (rewrite N.mul_comm, N.div_mul by lia; lia).
  destruct e; cbn [of_mem mem_of]; rewrite ?rev_involutive, of_to_bytes, Hk; now apply N.mod_small.
Qed.
Lemma converted_lt e o k v : std_width k -> v < 2 ^ (8 * N.of_nat k) -> converted e o (8 * N.of_nat k) v < 2 ^ (8 * N.of_nat k).
Proof.
  intros Hk Hv. pose proof (byteswap_lt k v Hk Hv). change (8 * N.of_nat k) with (wbits k) in *.
  destruct o, e; cbn [converted to_be to_le]; assumption.
Qed.
Lemma unconverted_converted e o k v : std_width k -> v < 2 ^ (8 * N.of_nat k) -> unconverted e o (8 * N.of_nat k) (converted e o (8 * N.of_nat k) v) = v.
Proof.
  intros Hk Hv. change (8 * N.of_nat k) with (wbits k) in *. destruct (endian_roundtrip e k v Hk Hv) as (H1 & H2 & _).
  destruct o; cbn [converted unconverted]; auto.
Qed.
Lemma bytes_of_any e e' f d : portable [f] \/ e = e' -> fits f d -> bytes_of e f d = bytes_of e' f d.
Proof.
  intros [H| ->]; [|reflexivity]. destruct f as [[]k|n|n|j], d as [v|l|]; cbn; try contradiction; try reflexivity. intros _.
  rewrite (H k (or_introl eq_refl)). destruct e, e'; reflexivity.
Qed.
Lemma read_at r o l : o + len l <= len (bytes r) -> lies (bytes r) o l -> read r (base r + o) (len l) = Some (l, base r + (o + len l)).
Proof.
  intros H Hl. rewrite read_done; [do 2 f_equal; lia|lia|lia|]. intros j Hj. destruct (rd_lt_Some _ _ Hj) as [x Hx]. rewrite Hx. f_equal.
  replace (base r + o + j) with (base r + (o + j)) by lia. symmetry. apply rd_cellr. now apply Hl.
Qed.
Lemma get_field_ok e e' aw r o f d : portable [f] \/ e = e' -> fits f d -> addressable aw (base r) (len (bytes r)) [f] -> after (base r) o f <= len (bytes r) ->
  lies (bytes r) o (bytes_of e f d) -> get_field e' aw r (base r + o) f = Some (d, base r + after (base r) o f).
Proof.
  intros Hp Hf Ha Ho Hl. rewrite (bytes_of_any e e' f d Hp Hf) in Hl. pose proof (after_ge (base r) o f) as Hge. pose proof (bytes_of_len e' f d (base r) o Hf) as Hlen.
  destruct f as [bo k|n|n|j], d as [v|l|]; cbn [fits] in Hf; try contradiction.
  - destruct Hf as [Hk Hv]. pose proof (read_at r o (bytes_of e' (FInt bo k) (DInt v)) ltac:(lia) Hl) as Hr.
    replace (len (bytes_of e' (FInt bo k) (DInt v))) with (N.of_nat k) in * by (cbn [after] in *; lia).
    cbn [get_field after]. rewrite Hr. cbn [fst snd]. do 3 f_equal. rewrite <- converted_bytes by assumption.
    rewrite of_mem_of by (now apply converted_lt). now apply unconverted_converted.
  - destruct Hf as [Hl' _]. cbn [bytes_of] in *. cbn [get_field after] in *. rewrite <- Hl' in *. rewrite (read_at r o l) by auto. reflexivity.
  - cbn [get_field after] in *. rewrite (advance_at r (base r + o) n) by lia. do 2 f_equal. lia.
  - cbn [get_field]. unfold advance_to_alignment. specialize (Ha j (or_introl eq_refl)). pose proof (pow_pos j).
    rewrite align_after by lia. rewrite Z.mul_0_l. change 0%Z with (Z.of_N 0). rewrite (advance_at r _ 0) by lia. do 2 f_equal. lia.
Qed.
Theorem get_ok e e' aw fs : forall ds r o, portable fs \/ e = e' -> Forall2 fits fs ds -> addressable aw (base r) (len (bytes r)) fs ->
  end_of (base r) o fs <= len (bytes r) -> message_in e (bytes r) (base r) o fs ds ->
  get_message e' aw r (base r + o) fs = Some (ds, base r + end_of (base r) o fs).
Proof.
  induction fs as [|f fs IH]; intros ds r o Hp Hf Ha Hend Hm; inversion Hf as [|? d ? ds' Hd Hds]; subst; [reflexivity|].
  cbn [end_of get_message message_in] in *. destruct Hm as [Hm1 Hm2]. pose proof (end_ge (base r) fs (after (base r) o f)) as Hge.
  assert (Hp1 : portable [f] \/ e = e') by (destruct Hp as [Hp|Hp]; [left|now right]; intros k [->|[]]; apply Hp; now left).
  assert (Hp2 : portable fs \/ e = e') by (destruct Hp as [Hp|Hp]; [left|now right]; intros k Hk; apply Hp; now right).
  rewrite (get_field_ok e e' aw r o f d Hp1 Hd (addressable_head _ _ _ _ _ Ha) ltac:(lia) Hm1). cbn [fst snd].
  rewrite (IH ds' r _ Hp2 Hds (addressable_tail _ _ _ _ _ Ha) Hend Hm2). reflexivity.
Qed.

(** ** Buffers at other addresses *)
Lemma after_alike b b' o f : aligned_alike b b' [f] -> after b o f = after b' o f.
Proof.
  intros H. destruct f as [bo k|n|n|j]; cbn [after]; try reflexivity. pose proof (pow_pos j).
  specialize (H j (or_introl eq_refl)). rewrite <- (N.add_mod_idemp_l b) by lia. rewrite H. rewrite N.add_mod_idemp_l by lia. reflexivity.
Qed.
Lemma alike_head b b' f fs : aligned_alike b b' (f :: fs) -> aligned_alike b b' [f].
Proof. intros H j [->|[]]. apply H. now left. Qed.
Lemma alike_tail b b' f fs : aligned_alike b b' (f :: fs) -> aligned_alike b b' fs.
Proof. intros H j Hj. apply H. now right. Qed.
Lemma end_alike b b' fs : forall o, aligned_alike b b' fs -> end_of b o fs = end_of b' o fs.
Proof.
  induction fs as [|f fs IH]; intros o H; cbn [end_of]; [reflexivity|].
  rewrite (after_alike b b' o f (alike_head _ _ _ _ H)). apply IH. exact (alike_tail _ _ _ _ H).
Qed.
Lemma message_alike e m b b' fs : forall ds o, aligned_alike b b' fs -> message_in e m b o fs ds -> message_in e m b' o fs ds.
Proof.
  induction fs as [|f fs IH]; intros ds o H; cbn [message_in]; [auto|]. destruct ds as [|d ds]; [auto|]. intros [H1 H2]. split; [exact H1|].
  rewrite <- (after_alike b b' o f (alike_head _ _ _ _ H)). apply IH; [exact (alike_tail _ _ _ _ H)|exact H2].
Qed.
Lemma after_not_alike b b' o j : after b o (FAlign j) = after b' o (FAlign j) -> b mod 2 ^ j = b' mod 2 ^ j.
Proof.
  cbn [after]. intros H. pose proof (pow_pos j) as Hp. set (s := 2 ^ j) in *.
  assert (Hb : forall x, (x + o + (s - (x + o) mod s) mod s) mod s = 0) by (intros x; apply pad_multiple; exact Hp).
  pose proof (Hb b) as H1. pose proof (Hb b') as H2.
  set (c := o + (s - (b + o) mod s) mod s) in *. replace (b + o + (s - (b + o) mod s) mod s) with (b + c) in H1 by (unfold c; lia).
  replace (b' + o + (s - (b' + o) mod s) mod s) with (b' + c) in H2 by (rewrite H; lia). clearbody c. clear - Hp H1 H2.
  assert (G : forall x, (x + c) mod s = 0 -> x mod s = (s - c mod s) mod s).
  { intros x Hx. pose proof (N.mod_lt c s ltac:(lia)). pose proof (N.div_mod c s ltac:(lia)) as Hc. pose proof (N.div_mod (x + c) s ltac:(lia)) as Hd.
    rewrite Hx, N.add_0_r in Hd.
    replace (x mod s) with ((x + (c / s + 1) * s) mod s) by (apply N.mod_add; lia).
    replace (x + (c / s + 1) * s) with (s - c mod s + ((x + c) / s) * s) by lia. apply N.mod_add. lia. }
  now rewrite (G b H1), (G b' H2).
Qed.

(** ** Native integers on another machine *)
Lemma native_swapped e e' aw r o k v : e <> e' -> std_width k -> v < 2 ^ (8 * N.of_nat k) -> o + N.of_nat k <= len (bytes r) ->
  lies (bytes r) o (bytes_of e (FInt Native k) (DInt v)) ->
  exists v', get_field e' aw r (base r + o) (FInt Native k) = Some (DInt v', base r + (o + N.of_nat k)) /\
    forall i, i < N.of_nat k -> byte v' i = byte v (N.of_nat k - 1 - i).
Proof.
  intros He Hk Hv Ho Hl. exists (byteswap (wbits k) v). split.
  - pose proof (bytes_of_len e (FInt Native k) (DInt v) (base r) o (conj Hk Hv)) as Hlen. cbn [after] in Hlen.
    pose proof (read_at r o (bytes_of e (FInt Native k) (DInt v)) ltac:(lia) Hl) as Hr. replace (len (bytes_of e (FInt Native k) (DInt v))) with (N.of_nat k) in Hr by lia.
    cbn [get_field]. rewrite Hr. cbn [fst snd unconverted]. do 3 f_equal.
    pose proof (byteswap_lt k v Hk Hv) as Hlt. change (8 * N.of_nat k) with (wbits k) in *.
    destruct e, e'; try congruence.
    + rewrite <- (of_mem_of Big k (byteswap (wbits k) v)) by exact Hlt. f_equal. symmetry.
      change (8 * N.of_nat k) with (wbits k). change (byteswap (wbits k) v) with (to_le Big (wbits k) v). now apply mem_to_le.
    + rewrite <- (of_mem_of Little k (byteswap (wbits k) v)) by exact Hlt. f_equal. symmetry.
      change (8 * N.of_nat k) with (wbits k). change (byteswap (wbits k) v) with (to_be Little (wbits k) v). now apply mem_to_be.
  - intros i Hi. exact (byteswap_byte k v i Hk Hv Hi).
Qed.
