(** The assertions of /repo/test/atomic.cpp, atomic_override.cpp, atomic_bitset.cpp and
    atomic_bitset_override.cpp evaluated in the models: they check the models against the
    behaviour the repository's own tests record.  They are tests, not the property theorems. *)
From Verif Require Import Base BitModel BitsetModel ConcModel AtomicModel AtomicBitsetModel.
Open Scope N_scope.

(** One thread runs [ops] on a word that starts as [mem]: the answers, in order. *)
Definition answers {Op Out} (w : N) (code : Op -> prog Out) (mem : N) (ops : list Op) : option (list Out) :=
  match run_threads w code (repeat 0 (3 * length ops)) mem (start [ops]) with
  | Some (_, _, h) => Some (flat_map (fun e => match e with Res _ _ o => [o] | Inv _ _ => [] end) h)
  | None => None
  end.

(** ** atomic.cpp: std::uint32_t *)
Definition u32 (v : N) (ops : list aop) := answers 32 (acode 32 32 32 false false) (atomic_init 32 32 false (Some v)) ops.
(** atomic.cpp:50-70 *)
Example a_load_store :
  (u32 17 [ALoad], u32 17 [AStore 1337; ALoad], u32 17 [AAssign 1337; ALoad]) =
  (Some [Some 17], Some [None; Some 1337], Some [Some 1337; Some 1337]).
Proof. reflexivity. Qed.
(** atomic.cpp:72-76 *)
Example a_exchange : u32 17 [AExchange 1337; ALoad] = Some [Some 17; Some 1337].
Proof. reflexivity. Qed.
(** atomic.cpp:78-100 *)
Example a_add_sub :
  (u32 17 [AFetchAdd 42; ALoad], u32 59 [AFetchSub 42; ALoad], u32 17 [AAddEq 42; ALoad], u32 59 [ASubEq 42; ALoad]) =
  (Some [Some 17; Some 59], Some [Some 59; Some 17], Some [Some 59; Some 59], Some [Some 17; Some 17]).
Proof. reflexivity. Qed.
(** atomic.cpp:102-124 *)
Example a_inc_dec :
  (u32 17 [APreInc; ALoad], u32 17 [APostInc; ALoad], u32 17 [APreDec; ALoad], u32 17 [APostDec; ALoad]) =
  (Some [Some 18; Some 18], Some [Some 17; Some 18], Some [Some 16; Some 16], Some [Some 17; Some 16]).
Proof. reflexivity. Qed.
(** atomic.cpp:126-142 *)
Example a_fetch_bits :
  (u32 5 [AFetchAnd 4; ALoad], u32 1 [AFetchOr 4; ALoad], u32 5 [AFetchXor 1; ALoad]) =
  (Some [Some 5; Some 4], Some [Some 1; Some 5], Some [Some 5; Some 4]).
Proof. reflexivity. Qed.
(** atomic.cpp:144-160 *)
Example a_bits_eq :
  (u32 5 [AAndEq 4; ALoad], u32 1 [AOrEq 4; ALoad], u32 5 [AXorEq 1; ALoad]) =
  (Some [Some 4; Some 4], Some [Some 5; Some 5], Some [Some 4; Some 4]).
Proof. reflexivity. Qed.

(** ** atomic_bitset.cpp *)
Definition lp : platform := {| int_w := 32; long_w := 64; llong_w := 64 |}.
(** The tests run for storage words of 8, 16, 32 and 64 bits. *)
Definition widths : list N := [8; 16; 32; 64].
Definition is64 (w : N) : bool := w =? 64.
Definition runs (n w : N) (c : abctor) (ops : list abop) : option (list about) :=
  match ab_init lp n w c with Some m => answers w (abcode lp n w w (is64 w)) m ops | None => None end.
Definition all_widths (n : N) (c : abctor) (ops : list abop) (r : list about) : Prop :=
  Forall (fun w => runs n w c ops = Some r) widths.
(** bitset<n, elem_t>{v} when it is one element. *)
Definition bs (v : N) : about := RBits [v].
Ltac run := repeat constructor.

(** atomic_bitset.cpp:42-55 *)
Example ab_set : all_widths 1 CDefault [OGet 0; OSet 0 true; OGet 0; OSet 0 false; OGet 0] [RBool false; bs 0; RBool true; bs 1; RBool false].
Proof. run. Qed.
(** atomic_bitset.cpp:57-63 *)
Example ab_set_all : all_widths 1 CDefault [OGet 0; OSetAll; OGet 0] [RBool false; RUnit; RBool true].
Proof. run. Qed.
(** atomic_bitset.cpp:65-79 *)
Example ab_reset : all_widths 1 (CU64 1) [OGet 0; OReset 0; OGet 0] [RBool true; bs 1; RBool false].
Proof. run. Qed.
Example ab_reset_all : all_widths 1 (CU64 1) [OGet 0; OResetAll; OGet 0] [RBool true; RUnit; RBool false].
Proof. run. Qed.
(** atomic_bitset.cpp:81-103 *)
Example ab_flip : all_widths 3 (CU64 5) [OGet 0; OGet 1; OGet 2; OFlip 0; OGet 0; OGet 1; OGet 2]
  [RBool true; RBool false; RBool true; bs 5; RBool false; RBool false; RBool true].
Proof. run. Qed.
Example ab_flip_all : all_widths 3 (CU64 5) [OFlipAll; OGet 0; OGet 1; OGet 2] [bs 5; RBool false; RBool true; RBool false].
Proof. run. Qed.
(** atomic_bitset.cpp:110-118 *)
Example ab_value : all_widths 1 (CU64 1) [OGet 0] [RBool true] /\ all_widths 3 (CU64 255) [OGet 0; OGet 1] [RBool true; RBool true].
Proof. split; run. Qed.
(** atomic_bitset.cpp:120-128 *)
Example ab_place : all_widths 8 (CPlace [1; 3; 5]) [OGet 0; OGet 1; OGet 3; OGet 5] [RBool false; RBool true; RBool true; RBool true].
Proof. run. Qed.
(** atomic_bitset.cpp:130-138 *)
Example ab_to : Forall (fun w => runs 3 w (CU64 255) [OTo w] = Some [RNum 7]) widths.
Proof. run. Qed.
(** atomic_bitset.cpp:140-149 *)
Example ab_to_other : Forall (fun t => runs 8 8 (CPlace [3; 7]) [OTo t] = Some [RNum 136]) [16; 32; 64].
Proof. run. Qed.
(** atomic_bitset.cpp:151-166 *)
Example ab_natural : all_widths 8 (CPlace [3; 7]) [OToNatural] [RNum 136] /\ runs 4 8 CAllBits [OToNatural] = Some [RNum 15].
Proof. split; [run|reflexivity]. Qed.
(** atomic_bitset.cpp:168-180 *)
Example ab_string : all_widths 4 (CString [49; 48; 49; 48] 0 (2 ^ 64 - 1) 49) [OToNatural] [RNum 10].
Proof. run. Qed.
Example ab_substring : all_widths 4 (CString [88; 79; 88; 79; 88; 79] 2 4 88) [OToNatural] [RNum 10].
Proof. run. Qed.
(** atomic_bitset.cpp:182-207; the second constant is 0xb1111110 with 8 bits kept. *)
Example ab_all : all_widths 8 (CU64 255) [OAll] [RBool true] /\ all_widths 8 (CU64 (11 * 2 ^ 28 + 17895696)) [OAll] [RBool false].
Proof. split; run. Qed.
Example ab_any_none :
  all_widths 8 (CU64 8) [OAny; ONone] [RBool true; RBool false] /\ all_widths 8 CDefault [OAny; ONone] [RBool false; RBool true].
Proof. split; run. Qed.
(** atomic_bitset.cpp:209-216 *)
Example ab_count : all_widths 8 CDefault [OCount] [RNum 0] /\ all_widths 8 (CU64 21) [OCount] [RNum 3].
Proof. split; run. Qed.
(** atomic_bitset.cpp:218-240 *)
Example ab_load : all_widths 8 (CU64 21) [OLoad] [bs 21].
Proof. run. Qed.
Example ab_store : all_widths 8 CDefault [OStore [21]; OToNatural; OStore [10]; OToNatural] [RUnit; RNum 21; RUnit; RNum 10].
Proof. run. Qed.
(** atomic_bitset.cpp:242-264: the bitset fills the word. *)
Definition full (c : abctor) (ops : list abop) (r : N -> list about) : Prop :=
  Forall (fun w => runs w w c ops = Some (r w)) widths.
Example ab_set_len : full CDefault [OSetLen 2 4 true; OGet 2; OGet 3; OGet 4; OGet 5; OCount]
  (fun _ => [bs 0; RBool true; RBool true; RBool true; RBool true; RNum 4]).
Proof. run. Qed.
Example ab_set_range : full CDefault [OSetRange 2 5 true; OGet 2; OGet 3; OGet 4; OGet 5; OCount]
  (fun _ => [bs 0; RBool true; RBool true; RBool true; RBool true; RNum 4]).
Proof. run. Qed.
(** atomic_bitset.cpp:266-296 *)
Example ab_all_bits : all_widths 8 CAllBits [OAll] [RBool true].
Proof. run. Qed.
Example ab_reset_len : full CAllBits [OResetLen 2 4; OGet 2; OGet 3; OGet 4; OGet 5; OCount]
  (fun w => [bs (2 ^ w - 1); RBool false; RBool false; RBool false; RBool false; RNum (w - 4)]).
Proof. run. Qed.
Example ab_reset_range : full CAllBits [OResetRange 2 5; OGet 2; OGet 3; OGet 4; OGet 5; OCount]
  (fun w => [bs (2 ^ w - 1); RBool false; RBool false; RBool false; RBool false; RNum (w - 4)]).
Proof. run. Qed.
(** atomic_bitset.cpp:307-329: enumerators as indices. *)
Example ab_enum :
  runs 4 8 CAllBits [OTo 8; OGet 0; OGet 1; OGet 2; OGet 3] = Some [RNum 15; RBool true; RBool true; RBool true; RBool true] /\
  runs 4 8 CDefault [OSet 0 true; OToNatural; OReset 0; OToNatural; OFlip 0; OToNatural] = Some [bs 0; RNum 1; bs 1; RNum 0; bs 0; RNum 1].
Proof. split; reflexivity. Qed.
(** atomic_bitset.cpp:331-341 *)
Example ab_set_prev : all_widths 8 CDefault [OSet 0 true; OGet 0; OSetLen 1 1 true; OGet 1; OSetRange 2 2 true; OGet 2]
  [bs 0; RBool true; bs 1; RBool true; bs 3; RBool true].
Proof. run. Qed.
(** atomic_bitset.cpp:343-353 *)
Example ab_reset_prev : all_widths 8 (CU64 7) [OReset 0; OGet 0; OResetLen 1 1; OGet 1; OResetRange 2 2; OGet 2]
  [bs 7; RBool false; bs 6; RBool false; bs 4; RBool false].
Proof. run. Qed.
(** atomic_bitset.cpp:355-365 *)
Example ab_flip_prev : all_widths 8 (CU64 7) [OFlip 0; OGet 0; OFlipLen 1 1; OGet 1; OFlipRange 2 2; OGet 2]
  [bs 7; RBool false; bs 6; RBool false; bs 4; RBool false].
Proof. run. Qed.
(** atomic_bitset.cpp:376-382 *)
Example ab_cts :
  runs 4 8 (CString [49; 48; 49; 48] 0 (2 ^ 64 - 1) 49) [OLoad] = Some [bs 10] /\
  runs 9 16 (CString [49; 48; 49; 48; 49; 48; 49; 48; 49] 0 (2 ^ 64 - 1) 49) [OLoad] = Some [bs 341].
Proof. split; reflexivity. Qed.
(** atomic_bitset_override.cpp:17-22: the word has 32 bits, to_natural gives 8. *)
Example ab_override :
  match ab_init lp 4 32 CAllBits with Some m => answers 32 (abcode lp 4 32 8 false) m [OToNatural] | None => None end = Some [RNum 15].
Proof. reflexivity. Qed.
