(** The assertions of /repo/test/bitset.cpp evaluated in the model: they check the model
    against the behaviour the repository's own tests record.  They are tests, not the
    property theorems. *)
From Verif Require Import Base BitModel BitTests BitsetModel.
Import ListNotations.
Open Scope N_scope.

Local Notation pl := lp64_test.

(** The outputs of a program over two variables, default-constructed; [None] at the end if a
    call is undefined. *)
Fixpoint outputs (n w : N) (st : list storage) (ops : list bop) : list (option bout) :=
  match ops with
  | [] => []
  | op :: r => match bstep pl n w (w =? 64) st op with
               | Done st' BUnit _ => outputs n w st' r
               | Done st' out _ => Some out :: outputs n w st' r
               | _ => [None]
               end
  end.
Definition says (n w : N) (ops : list bop) (outs : list bout) : Prop :=
  outputs n w [make n w; make n w] ops = map Some outs.
Definition bools (l : list bool) : list bout := map BBool l.
(** For every TestType of the templated cases. *)
Definition all_say (n : N -> N) (ops : N -> list bop) (outs : N -> list bout) : Prop :=
  List.Forall (fun w => says (n w) w (ops w) (outs w)) test_widths.
Ltac run := unfold all_say, test_widths; repeat constructor; vm_compute; reflexivity.

(** bitset.cpp:10-18. *)
Example test_storage :
  map (fun p => storage_size (fst p) (snd p)) [(1, 8); (8, 8); (9, 8); (1, 16); (16, 16); (17, 16)]
  = [1; 1; 2; 1; 1; 2].
Proof. reflexivity. Qed.
(** bitset.cpp:37-40, :42-50, :52-58. *)
Example test_set :
  all_say (fun _ => 1) (fun _ => [BGet 0 0; BSet 0 0 true; BGet 0 0; BSet 0 0 false; BGet 0 0;
                                  BSetAll 0; BGet 0 0])
          (fun _ => bools [false; true; false; true]).
Proof. run. Qed.
(** bitset.cpp:60-90. *)
Example test_reset :
  all_say (fun _ => 1) (fun _ => [BFromU64 0 1; BGet 0 0; BReset 0 0; BGet 0 0;
                                  BFromU64 0 1; BGet 0 0; BResetAll 0; BGet 0 0])
          (fun _ => bools [true; false; true; false]).
Proof. run. Qed.
(** bitset.cpp:92-115. *)
Example test_flip :
  all_say (fun _ => 3) (fun _ => [BFromU64 0 5; BFlip 0 0; BGet 0 0; BGet 0 1; BGet 0 2;
                                  BFromU64 0 5; BFlipAll 0; BGet 0 0; BGet 0 1; BGet 0 2])
          (fun _ => bools [false; false; true; false; true; false]).
Proof. run. Qed.
(** bitset.cpp:116-124. *)
Example test_value :
  all_say (fun _ => 1) (fun _ => [BFromU64 0 1; BGet 0 0]) (fun _ => bools [true]) /\
  all_say (fun _ => 3) (fun _ => [BFromU64 0 255; BGet 0 0; BGet 0 1]) (fun _ => bools [true; true]).
Proof. split; run. Qed.
(** bitset.cpp:126-133. *)
Example test_place :
  all_say (fun _ => 8) (fun _ => [BPlace 0 [1; 3; 5]; BGet 0 0; BGet 0 1; BGet 0 3; BGet 0 5])
          (fun _ => bools [false; true; true; true]).
Proof. run. Qed.
(** bitset.cpp:135-147: "1010" and "XOXOXO" from 2, 4 characters, 'X' for one. *)
Example test_string :
  all_say (fun _ => 4) (fun _ => [BString 0 [49; 48; 49; 48] 0 (2 ^ 64 - 1) 49; BFromU64 1 10; BEq 0 1;
                                  BString 0 [88; 79; 88; 79; 88; 79] 2 4 88; BEq 0 1])
          (fun _ => bools [true; true]).
Proof. run. Qed.
(** bitset.cpp:149-174. *)
Example test_to :
  all_say (fun _ => 3) (fun w => [BFromU64 0 255; BTo 0 true w]) (fun _ => [BNum 7]) /\
  List.Forall (fun u => says 11 8 [BPlace 0 [3; 7; 10]; BTo 0 false u] [BNum 1160]) [16; 32; 64].
Proof. split; [run|repeat constructor]. Qed.
(** bitset.cpp:176-187. *)
Example test_all :
  all_say (fun _ => 8) (fun w => [BFromU64 0 (2 ^ w - 1); BAll 0; BFromU64 0 0xf7; BAll 0])
          (fun _ => bools [true; false]) /\
  all_say (fun _ => 9) (fun _ => [BFromU64 0 0x1ff; BAll 0]) (fun _ => bools [true]).
Proof. split; run. Qed.
(** bitset.cpp:189-208. *)
Example test_any_none :
  all_say (fun _ => 8) (fun _ => [BFromU64 0 8; BAny 0; BAny 1; BNone 1; BNone 0])
          (fun _ => bools [true; false; true; false]) /\
  all_say (fun _ => 9) (fun _ => [BFromU64 0 0xff; BAny 0]) (fun _ => bools [true]).
Proof. split; run. Qed.
(** bitset.cpp:210-235. *)
Example test_count :
  all_say (fun _ => 8) (fun _ => [BCount 0; BEmpty 0; BFromU64 0 21; BCount 0; BEmpty 0])
          (fun _ => [BNum 0; BBool true; BNum 3; BBool false]).
Proof. run. Qed.
(** bitset.cpp:237-269. *)
Example test_operators :
  all_say (fun _ => 3)
    (fun _ => [BFromU64 0 5; BFromU64 1 2; BOr 0 1; BFromU64 1 7; BEq 0 1;
               BFromU64 0 5; BFromU64 1 4; BAnd 0 1; BFromU64 1 4; BEq 0 1;
               BFromU64 0 5; BFromU64 1 2; BXor 0 1; BFromU64 1 7; BEq 0 1;
               BFromU64 0 5; BNot 0 0; BFromU64 1 2; BEq 0 1;
               BFromU64 0 5; BFromU64 1 3; BMinus 0 0 1; BFromU64 1 4; BEq 0 1])
    (fun _ => bools [true; true; true; true; true]).
Proof. run. Qed.
(** bitset.cpp:271-305. *)
Example test_left_shift :
  all_say (fun _ => 3)
    (fun _ => [BFromU64 0 5; BShl 0 1; BFromU64 1 2; BEq 0 1;
               BFromU64 0 5; BShl 0 2; BFromU64 1 4; BEq 0 1;
               BFromU64 0 5; BShl 0 3; BDefault 1; BEq 0 1]) (fun _ => bools [true; true; true]) /\
  all_say (fun w => 3 * w) (fun w => [BSetAll 0; BShl 0 w; BGet 0 w; BGet 0 (w - 1); BGet 0 0])
    (fun _ => bools [true; false; false]) /\
  all_say (fun w => 2 * w)
    (fun w => [BFromU64 0 5; BShl 0 (w + 1); BGet 0 0; BGet 0 (w + 1); BGet 0 (w + 2); BGet 0 (w + 3)])
    (fun _ => bools [false; true; false; true]).
Proof. split; [|split]; run. Qed.
(** bitset.cpp:307-343. *)
Example test_right_shift :
  all_say (fun _ => 3)
    (fun _ => [BFromU64 0 5; BShr 0 1; BFromU64 1 2; BEq 0 1;
               BFromU64 0 5; BShr 0 2; BFromU64 1 1; BEq 0 1;
               BFromU64 0 5; BShr 0 3; BDefault 1; BEq 0 1]) (fun _ => bools [true; true; true]) /\
  all_say (fun w => 3 * w) (fun w => [BSetAll 0; BShr 0 w; BGet 0 (2 * w); BGet 0 (2 * w - 1); BGet 0 0])
    (fun _ => bools [false; true; true]) /\
  all_say (fun w => 2 * w)
    (fun w => [BSetAll 0; BShr 0 (w + 1); BGet 0 w; BGet 0 (w - 1); BGet 0 (w - 2); BGet 0 0])
    (fun _ => bools [false; false; true; true]).
Proof. split; [|split]; run. Qed.
(** bitset.cpp:345-383: the indices visited, of 0x0102030405060708 and of 0b10101. *)
Definition v64 : N := 0x0102030405060708.
Definition bits_of (v : N) : list N := List.filter (N.testbit v) (map N.of_nat (List.seq 0 64)).
Example test_for_each :
  all_say (fun _ => 64) (fun _ => [BFromU64 0 v64; BEachSet 0; BEachUnset 0; BEachBit 0])
    (fun _ => [BList (bits_of v64); BList (bits_of (2 ^ 64 - 1 - v64));
               BPairs (map (fun i => (i, N.testbit v64 i)) (map N.of_nat (List.seq 0 64)))]) /\
  all_say (fun _ => 5) (fun _ => [BFromU64 0 21; BEachSet 0]) (fun _ => [BList [0; 2; 4]]).
Proof. split; run. Qed.
(** bitset.cpp:385-397: four calls, the second at index 3. *)
Example test_transform_reduce :
  all_say (fun _ => 8) (fun _ => [BFromU64 0 170; BReduce 0]) (fun _ => [BList [1; 3; 5; 7]]).
Proof. run. Qed.
(** bitset.cpp:399-451. *)
Example test_ranges :
  let asks := [BGet 0 6; BGet 0 7; BGet 0 8; BGet 0 9; BCount 0] in
  all_say (fun _ => 64)
    (fun _ => [BSetLen 0 6 4 true] ++ asks ++ [BDefault 0; BSetRange 0 6 9 true] ++ asks ++
              [BAllBits 0; BSetLen 0 6 4 false] ++ asks ++ [BAllBits 0; BSetRange 0 6 9 false] ++ asks)
    (fun _ => bools [true; true; true; true] ++ [BNum 4] ++ bools [true; true; true; true] ++ [BNum 4] ++
              bools [false; false; false; false] ++ [BNum 60] ++
              bools [false; false; false; false] ++ [BNum 60]) /\
  all_say (fun _ => 9) (fun _ => [BAllBits 0; BAll 0]) (fun _ => bools [true]).
Proof. split; run. Qed.
(** bitset.cpp:453-468. *)
Example test_type_capacity :
  all_say (fun w => w)
    (fun w => [BAllBits 0; BAll 0; BTo 0 true w; BSetAll 1; BAll 1; BTo 1 true w; BResetAll 1; BNone 1])
    (fun w => [BBool true; BNum (2 ^ w - 1); BBool true; BNum (2 ^ w - 1); BBool true]).
Proof. run. Qed.
(** bitset.cpp:470-489. *)
Example test_lowest_unset :
  all_say (fun _ => 4) (fun _ => [BPlace 0 [0; 1; 3]; BLowestUnset 0]) (fun _ => [BNum 2]) /\
  all_say (fun w => 2 * w) (fun w => [BAllBits 0; BReset 0 (2 * w - 3); BLowestUnset 0])
          (fun w => [BNum (2 * w - 3)]) /\
  all_say (fun w => w) (fun _ => [BAllBits 0; BLowestUnset 0]) (fun w => [BNum w]).
Proof. split; [|split]; run. Qed.
(** bitset.cpp:495-542: sized by the enumerator of value 4, stored in a byte. *)
Example test_enum :
  says 4 8 [BAllBits 0; BTo 0 true 8; BDefault 0; BSet 0 0 true; BTo 0 true 8; BReset 0 0; BTo 0 true 8;
            BFlip 0 0; BTo 0 true 8; BAllBits 0; BGet 0 0; BGet 0 1; BGet 0 2; BGet 0 3;
            BPlace 0 [0]; BTo 0 true 8; BLowestUnset 0]
    ([BNum 15; BNum 1; BNum 0; BNum 1] ++ bools [true; true; true; true] ++ [BNum 1; BNum 1]).
Proof. reflexivity. Qed.
(** bitset.cpp:544-550. *)
Example test_ct_string :
  says 4 8 [BString 0 [49; 48; 49; 48] 0 (2 ^ 64 - 1) 49; BFromU64 1 10; BEq 0 1] [BBool true] /\
  says 9 16 [BString 0 [49; 48; 49; 48; 49; 48; 49; 48; 49] 0 (2 ^ 64 - 1) 49; BFromU64 1 341; BEq 0 1]
       [BBool true].
Proof. split; reflexivity. Qed.
(** bitset.cpp:552-570. *)
Example test_zero_size :
  says 0 8 [BCount 0; BAll 0; BAny 0; BNone 0; BEq 0 1; BTo 1 true 8; BShl 0 1; BTo 0 true 8; BShr 0 1;
            BTo 0 true 8; BAllBits 0; BTo 0 true 8]
    [BNum 0; BBool true; BBool false; BBool true; BBool true; BNum 0; BNum 0; BNum 0; BNum 0].
Proof. reflexivity. Qed.
