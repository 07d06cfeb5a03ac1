(** The assertions of /repo/test/bit.cpp evaluated in the model: they check the model
    against the behaviour the repository's own tests record.  They are tests, not the
    property theorems. *)
From Verif Require Import Base BitModel.
Import ListNotations.
Open Scope N_scope.

Definition lp64_test : platform := {| int_w := 32; long_w := 64; llong_w := 64 |}.
Local Notation pl := lp64_test.
(** Every TestType of the templated cases. *)
Definition test_widths : list N := [8; 16; 32; 64].
Definition for_widths {A} (f : N -> A) (g : N -> A) : Prop := map f test_widths = map g test_widths.

(** bit.cpp:11-17. *)
Example test_byteswap :
  (byteswap 8 1, byteswap 16 0x0102, byteswap 32 0x01020304, byteswap 64 0x0102030405060708)
  = (1, 0x0201, 0x04030201, 0x0807060504030201).
Proof. reflexivity. Qed.

(** bit.cpp:19-89, on either kind of machine. *)
Definition endian_values : list (N * N) :=
  [(16, 0x1234); (32, 0x12345678); (64, 0x123456789abcdef0)].
Definition kept (f : N -> N -> N) : Prop :=
  map (fun p => f (fst p) (snd p)) endian_values = map snd endian_values.
Definition swapped (f : N -> N -> N) : Prop :=
  map (fun p => f (fst p) (snd p)) endian_values
  = [0x3412; 0x78563412; 0xf0debc9a78563412].
Example test_to_le : kept (to_le Little) /\ swapped (to_le Big) /\ forall e, to_le e 8 1 = 1.
Proof. repeat split; try reflexivity; intros []; reflexivity. Qed.
Example test_to_be : kept (to_be Big) /\ swapped (to_be Little) /\ forall e, to_be e 8 1 = 1.
Proof. repeat split; try reflexivity; intros []; reflexivity. Qed.
Example test_from_le : kept (from_le Little) /\ swapped (from_le Big) /\ forall e, from_le e 8 1 = 1.
Proof. repeat split; try reflexivity; intros []; reflexivity. Qed.
Example test_from_be : kept (from_be Big) /\ swapped (from_be Little) /\ forall e, from_be e 8 1 = 1.
Proof. repeat split; try reflexivity; intros []; reflexivity. Qed.

(** bit.cpp:91-101. *)
Example test_popcount :
  for_widths (fun w => (popcount pl w 0, popcount pl w 21, popcount pl w (2 ^ w - 1)))
             (fun w => (0, 3, w)).
Proof. reflexivity. Qed.
(** bit.cpp:103-110. *)
Example test_has_single_bit :
  (has_single_bit 0, has_single_bit 1, has_single_bit 21) = (false, true, false).
Proof. reflexivity. Qed.
(** bit.cpp:112-118. *)
Example test_countl_zero :
  for_widths (fun w => (countl_zero pl w 0, countl_zero pl w 1, countl_zero pl w 2))
             (fun w => (Some w, Some (w - 1), Some (w - 2))).
Proof. reflexivity. Qed.
(** bit.cpp:120-126. *)
Example test_countr_zero :
  for_widths (fun w => (countr_zero pl w 0, countr_zero pl w 1, countr_zero pl w 2))
             (fun w => (Some w, Some 0, Some 1)).
Proof. reflexivity. Qed.
(** bit.cpp:128-136. *)
Example test_countl_one :
  for_widths (fun w => [countl_one pl w 0; countl_one pl w 1; countl_one pl w (2 ^ w - 1);
                        countl_one pl w (2 ^ w - 2)])
             (fun w => [Some 0; Some 0; Some w; Some (w - 1)]).
Proof. reflexivity. Qed.
(** bit.cpp:138-146. *)
Example test_countr_one :
  for_widths (fun w => [countr_one pl w 0; countr_one pl w 1; countr_one pl w (2 ^ w - 1);
                        countr_one pl w (2 ^ w - 2)])
             (fun w => [Some 0; Some 1; Some w; Some 0]).
Proof. reflexivity. Qed.
(** bit.cpp:148-157. *)
Example test_bit_width :
  for_widths (fun w => [bit_width pl w 0; bit_width pl w 1; bit_width pl w 3;
                        bit_width pl w (2 ^ w - 1)])
             (fun w => [Some 0; Some 1; Some 2; Some w]).
Proof. reflexivity. Qed.
(** bit.cpp:159-167. *)
Example test_bit_ceil :
  for_widths (fun w => map (bit_ceil pl w) [0; 1; 3; 4; 5; 45])
             (fun _ => map Some [1; 1; 4; 4; 8; 64]).
Proof. reflexivity. Qed.
(** bit.cpp:169-177. *)
Example test_bit_floor :
  for_widths (fun w => map (bit_floor pl w) [0; 1; 3; 4; 5; 45])
             (fun _ => map Some [0; 1; 2; 4; 4; 32]).
Proof. reflexivity. Qed.
(** bit.cpp:185-198. *)
Example test_rotl :
  for_widths (fun w => (rotl pl w 1 1, rotl pl w (2 ^ (w - 1)) 1)) (fun _ => (Some 2, Some 1)).
Proof. reflexivity. Qed.
Example test_rotr :
  for_widths (fun w => (rotr pl w 2 1, rotr pl w 1 1)) (fun w => (Some 1, Some (2 ^ (w - 1)))).
Proof. reflexivity. Qed.

(** bit.cpp:200-229. *)
Example test_bit_pack :
  [bit_pack 16 [0x12; 0x34]%Z;
   bit_pack 32 [0x1234; 0x5678]%Z;
   bit_pack 32 [0x12; 0x34; 0x56; 0x78]%Z;
   bit_pack 64 [0x12345678; 0x9abcdef0]%Z;
   bit_pack 64 [0x1234; 0x5678; 0x9abc; 0xdef0]%Z;
   bit_pack 64 [0x12; 0x34; 0x56; 0x78; 0x9a; 0xbc; 0xde; 0xf0]%Z]
  = map Some [0x1234; 0x12345678; 0x12345678; 0x123456789abcdef0; 0x123456789abcdef0;
              0x123456789abcdef0].
Proof. reflexivity. Qed.

(** bit.cpp:231-303 (template) and :305-333 (argument form). *)
Example test_bit_mask_word :
  [bit_mask pl (Word 64) 63 0; bit_mask pl (Word 8) 1 0; bit_mask pl (Word 8) 4 3;
   bit_mask pl (Word 8) 7 6; bit_mask pl (Word 8) 5 5]
  = map (fun x => Some [x]) [2 ^ 64 - 1; 3; 24; 192; 32].
Proof. reflexivity. Qed.
Example test_bit_mask_array :
  let A := Arr 3 (Word 8) in
  [bit_mask pl A 23 0; bit_mask pl A 1 0; bit_mask pl A 19 4; bit_mask pl A 23 20;
   bit_mask pl A 5 5; bit_mask pl (Arr 3 (Arr 1 (Word 8))) 19 4;
   bit_mask pl (Arr 4 (Word 64)) 192 192]
  = map Some [[0xff; 0xff; 0xff]; [3; 0; 0]; [240; 0xff; 15]; [0; 0; 240]; [32; 0; 0];
              [240; 0xff; 15]; [0; 0; 0; 1]].
Proof. reflexivity. Qed.

(** bit.cpp:342-391, on either kind of machine. *)
Example test_bit_unpack : forall e,
  [bit_unpack e 64 32 0x123456789abcdef0; bit_unpack e 32 16 0x12345678;
   bit_unpack e 64 16 0x123456789abcdef0; bit_unpack e 16 8 0x1234; bit_unpack e 32 8 0x12345678;
   bit_unpack e 64 8 0x123456789abcdef0]
  = map Some [[0x12345678; 0x9abcdef0]; [0x1234; 0x5678]; [0x1234; 0x5678; 0x9abc; 0xdef0];
              [0x12; 0x34]; [0x12; 0x34; 0x56; 0x78];
              [0x12; 0x34; 0x56; 0x78; 0x9a; 0xbc; 0xde; 0xf0]].
Proof. intros []; reflexivity. Qed.

(** bit.cpp:442-461. *)
Example test_bit_destructure :
  (bit_destructure pl 16 [] 0xff00, bit_destructure pl 16 [8] 0xa55a,
   bit_destructure pl 32 [8; 24] 0x12345678)
  = (Some [0xff00], Some [0x5a; 0xa5], Some [0x78; 0x3456; 0x12]).
Proof. reflexivity. Qed.
