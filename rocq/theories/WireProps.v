(** C126: messages written with byterator and to_be or to_le on one machine are read on another. *)
From Verif Require Import Base BaseLemmas BitModel BitSpec ByteratorModel ByteratorSpec WireModel WireSpec WireProofs.
Open Scope N_scope.

(** Whatever the fields: if there is room, the message is written with every field where and as it should
    be, nothing else changes, and the byterator is at the end of it. *)
Theorem C126_written : forall e aw r o fs ds,
  Forall2 fits fs ds -> addressable aw (base r) (len (bytes r)) fs -> end_of (base r) o fs <= len (bytes r) ->
  exists r', put_message e aw r (base r + o) fs ds = Some (r', base r + end_of (base r) o fs) /\
    base r' = base r /\ len (bytes r') = len (bytes r) /\
    message_in e (bytes r') (base r) o fs ds /\
    (forall i, ~ part_of (base r) o fs i -> rd (bytes r') i = rd (bytes r) i).
Proof. intros e aw r o fs ds. exact (put_ok e aw fs ds r o). Qed.
Print Assumptions C126_written.

(** If there is no room, something undefined happens: byterator does not check. *)
Theorem C126_no_room : forall e aw r o fs ds,
  Forall2 fits fs ds -> addressable aw (base r) (len (bytes r)) fs -> o <= len (bytes r) -> len (bytes r) < end_of (base r) o fs ->
  put_message e aw r (base r + o) fs ds = None.
Proof. intros e aw r o fs ds. exact (put_none e aw fs ds r o). Qed.
Print Assumptions C126_no_room.

(** What one machine wrote, another reads: the same values, and as many bytes.  The machines may have
    different byte orders, address widths and buffer addresses, if the message has no native integers (of
    more than a byte) and the buffers are aligned alike as far as the message aligns. *)
Theorem C126_round_trip : forall e1 e2 aw1 aw2 r1 r2 r1' q1 o fs ds,
  portable fs \/ e1 = e2 -> aligned_alike (base r1) (base r2) fs -> Forall2 fits fs ds ->
  addressable aw1 (base r1) (len (bytes r1)) fs -> addressable aw2 (base r2) (len (bytes r2)) fs ->
  end_of (base r1) o fs <= len (bytes r1) ->
  put_message e1 aw1 r1 (base r1 + o) fs ds = Some (r1', q1) -> bytes r2 = bytes r1' ->
  exists q2, get_message e2 aw2 r2 (base r2 + o) fs = Some (ds, q2) /\ q2 - base r2 = q1 - base r1 /\ base r2 <= q2.
Proof.
  intros e1 e2 aw1 aw2 r1 r2 r1' q1 o fs ds Hp Hb Hf Ha1 Ha2 Hend Hput Hbytes.
  destruct (put_ok e1 aw1 fs ds r1 o Hf Ha1 Hend) as (r' & E & B & L & M & _).
  rewrite Hput in E. injection E as -> ->. exists (base r2 + end_of (base r2) o fs).
  pose proof (end_alike (base r1) (base r2) fs o Hb) as He.
  split; [|split; lia]. apply (get_ok e1 e2 aw2 fs ds r2 o Hp Hf Ha2).
  - rewrite Hbytes, L. lia.
  - rewrite Hbytes. exact (message_alike e1 _ _ _ fs ds o Hb M).
Qed.
Print Assumptions C126_round_trip.

(** Every message can be read wherever its bytes are, however they came there. *)
Theorem C126_read : forall e e' aw r o fs ds,
  portable fs \/ e = e' -> Forall2 fits fs ds -> addressable aw (base r) (len (bytes r)) fs ->
  end_of (base r) o fs <= len (bytes r) -> message_in e (bytes r) (base r) o fs ds ->
  get_message e' aw r (base r + o) fs = Some (ds, base r + end_of (base r) o fs).
Proof. intros e e' aw r o fs ds. exact (get_ok e e' aw fs ds r o). Qed.
Print Assumptions C126_read.

(** The alignment is that of the address, not of the place in the message: for any two buffers that are not
    aligned alike the field after an alignment is written at one offset and looked for at another. *)
Theorem C126_alignment_refuted : forall e1 e2 aw1 aw2 r1 r2 r1' q1 q2 o j,
  base r1 mod 2 ^ j <> base r2 mod 2 ^ j ->
  addressable aw1 (base r1) (len (bytes r1)) [FAlign j] -> addressable aw2 (base r2) (len (bytes r2)) [FAlign j] ->
  put_message e1 aw1 r1 (base r1 + o) [FAlign j] [DNothing] = Some (r1', q1) ->
  get_message e2 aw2 r2 (base r2 + o) [FAlign j] = Some ([DNothing], q2) ->
  o <= len (bytes r1) -> o <= len (bytes r2) ->
  q1 - base r1 <> q2 - base r2.
Proof.
  intros e1 e2 aw1 aw2 r1 r2 r1' q1 q2 o j Hne Ha1 Ha2 Hput Hget Ho1 Ho2 Heq. apply Hne.
  assert (Hf : Forall2 fits [FAlign j] [DNothing]) by (repeat constructor).
  destruct (N.leb_spec (end_of (base r1) o [FAlign j]) (len (bytes r1))) as [H1|H1].
  2:{ rewrite (put_none e1 aw1 _ _ r1 o Hf Ha1 Ho1 H1) in Hput. discriminate. }
  destruct (put_ok e1 aw1 _ _ r1 o Hf Ha1 H1) as (r' & E & _). rewrite Hput in E. injection E as -> ->.
  destruct (N.leb_spec (end_of (base r2) o [FAlign j]) (len (bytes r2))) as [H2|H2].
  - rewrite (get_ok e2 e2 aw2 _ _ r2 o (or_intror eq_refl) Hf Ha2 H2) in Hget.
    + injection Hget as <-. cbn [end_of] in *. apply (after_not_alike (base r1) (base r2) o j).
      cbn [after]. rewrite !(N.add_comm (base _) (o + _)), !N.add_sub in Heq. exact Heq.
    + cbn. split; [|exact I]. intros i x Hx. destruct i; discriminate.
  - pose proof (put_none e2 aw2 _ _ r2 o Hf Ha2 Ho2 H2) as Hn. cbn [put_message get_message put_field get_field] in Hn, Hget.
    destruct (advance_to_alignment aw2 r2 (base r2 + o) (2 ^ j) 0); discriminate.
Qed.
Print Assumptions C126_alignment_refuted.

(** A native integer arrives at a machine of the other byte order with its bytes reversed. *)
Theorem C126_native_refuted : forall e1 e2 aw1 aw2 r1 r2 r1' q1 o k v,
  e1 <> e2 -> std_width k -> v < 2 ^ (8 * N.of_nat k) -> o + N.of_nat k <= len (bytes r1) ->
  put_message e1 aw1 r1 (base r1 + o) [FInt Native k] [DInt v] = Some (r1', q1) -> bytes r2 = bytes r1' ->
  exists v' q2, get_message e2 aw2 r2 (base r2 + o) [FInt Native k] = Some ([DInt v'], q2) /\
    forall i, i < N.of_nat k -> byte v' i = byte v (N.of_nat k - 1 - i).
Proof.
  intros e1 e2 aw1 aw2 r1 r2 r1' q1 o k v He Hk Hv Ho Hput Hbytes.
  assert (Hf : Forall2 fits [FInt Native k] [DInt v]) by (constructor; [split; assumption|constructor]).
  assert (Ha : addressable aw1 (base r1) (len (bytes r1)) [FInt Native k]) by (intros j [H|[]]; discriminate).
  destruct (put_ok e1 aw1 _ _ r1 o Hf Ha Ho) as (r' & E & B & L & [M _] & _). rewrite Hput in E. injection E as -> ->.
  destruct (native_swapped e1 e2 aw2 r2 o k v He Hk Hv ltac:(rewrite Hbytes, L; exact Ho) ltac:(rewrite Hbytes; exact M)) as (v' & G & Hv').
  exists v', (base r2 + (o + N.of_nat k)). split; [|exact Hv']. cbn [get_message]. rewrite G. reflexivity.
Qed.
Print Assumptions C126_native_refuted.

(** A message of five fields, written on a little-endian machine at address 1000 and read on a big-endian one at 2004. *)
Example C126_example :
  let fs := [FInt BigEndian 2; FBytes 1; FAlign 2; FInt LittleEndian 4; FGap 1; FInt Native 1] in
  let ds := [DInt 0x0102; DBytes [0x0a]; DNothing; DInt 0x03040506; DNothing; DInt 7] in
  let r1 := Region 1000 (repeat 0xff 11) in
  Forall2 fits fs ds /\ portable fs /\ aligned_alike 1000 2004 fs /\ addressable 64 1000 11 fs /\ addressable 32 2004 11 fs /\
  end_of 1000 0 fs = 10 /\
  put_message Little 64 r1 1000 fs ds = Some (Region 1000 [1; 2; 0x0a; 0xff; 6; 5; 4; 3; 0xff; 7; 0xff], 1010) /\
  get_message Big 32 (Region 2004 [1; 2; 0x0a; 0xff; 6; 5; 4; 3; 0xff; 7; 0xff]) 2004 fs = Some (ds, 2014) /\
  (** at address 2001 the alignment goes to offset 3, and the integer is read from there *)
  get_message Big 32 (Region 2001 [1; 2; 0x0a; 0xff; 6; 5; 4; 3; 0xff; 7; 0xff]) 2001 fs =
    Some ([DInt 0x0102; DBytes [0x0a]; DNothing; DInt 0x040506ff; DNothing; DInt 0xff], 2010).
Proof.
  cbv zeta.
  assert (Hs : forall k, In k [1; 2; 4; 8]%nat -> std_width k) by (intros k; cbn; unfold std_width; intuition).
  split.
  { constructor; [split; [apply Hs; cbn; tauto|reflexivity]|]. constructor; [split; [reflexivity|repeat constructor]|].
    constructor; [exact I|]. constructor; [split; [apply Hs; cbn; tauto|reflexivity]|]. constructor; [exact I|].
    constructor; [split; [apply Hs; cbn; tauto|reflexivity]|constructor]. }
  split. { intros k H. cbn in H. repeat (destruct H as [H|H]; [try discriminate; injection H; auto|]). contradiction. }
  split. { intros j H. cbn in H. repeat (destruct H as [H|H]; [try discriminate; injection H; intros <-; reflexivity|]). contradiction. }
  split. { intros j H. cbn in H. repeat (destruct H as [H|H]; [try discriminate; injection H; intros <-; vm_compute; discriminate|]). contradiction. }
  split. { intros j H. cbn in H. repeat (destruct H as [H|H]; [try discriminate; injection H; intros <-; vm_compute; discriminate|]). contradiction. }
  repeat split; vm_compute; reflexivity.
Qed.
