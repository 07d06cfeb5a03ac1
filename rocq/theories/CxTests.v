(** The assertions of /repo/test/cx_vector.cpp, cx_queue.cpp, cx_set.cpp, cx_map.cpp and
    cx_multimap.cpp evaluated in the models: they check the models against the behaviour
    the repository's own tests record.  They are tests, not the property theorems. *)
From Verif Require Import Base CxVectorModel CxQueueModel CxSetModel CxMapModel CxMultimapModel.
Import ListNotations.
Open Scope N_scope.

(** What each call of a program shows: its result, the panic it stops with (the object lives
    on when the handler throws), or undefined behaviour. *)
Inductive seen (P O : Type) := Out (o : O) | Panics (p : P) | UB.
Arguments Out {P O}. Arguments Panics {P O}. Arguments UB {P O}.
Fixpoint replay {P S Op O} (step : S -> Op -> outcome P S O) (s : S) (ops : list Op) : list (seen P O) :=
  match ops with
  | [] => []
  | op :: r => match step s op with
               | Done s' o _ => Out o :: replay step s' r
               | Stopped s' p => Panics p :: replay step s' r
               | Undef => [UB]
               end
  end.
Definition from {P S Op O} (step : S -> Op -> outcome P S O) (s : option S) (ops : list Op) : list (seen P O) :=
  match s with Some s => replay step s ops | None => [UB] end.

(** ** cx_vector *)
Definition vec (cap : N) (l : list N) := from (v_step cap) (v_make cap 0 l).
(** cx_vector.cpp:8-13. *)
Example test_vector_empty : vec 3 [] [VSize; VEmpty] = [Out (VNum 0); Out (VBool true)].
Proof. reflexivity. Qed.
(** cx_vector.cpp:20-34. *)
Example test_vector_mutable :
  vec 6 [0x13; 0x8; 0x43; 0x1024; 0xdeadbeef; 0x600]
    [VSize; VGet 0; VGet 1; VGet 2; VGet 3; VGet 4; VGet 5; VSet 2 0x55; VGet 2]
  = map Out [VNum 6; VVal 0x13; VVal 0x8; VVal 0x43; VVal 0x1024; VVal 0xdeadbeef; VVal 0x600; VUnit;
             VVal 0x55].
Proof. reflexivity. Qed.
(** cx_vector.cpp:36-44. *)
Example test_vector_const :
  vec 7 [0xFF0F; 0x1420; 0x5530] [VSize; VGet 0; VGet 1; VGet 2]
  = map Out [VNum 3; VVal 0xFF0F; VVal 0x1420; VVal 0x5530].
Proof. reflexivity. Qed.
(** cx_vector.cpp:46-87. *)
Example test_vector_iterator :
  vec 12 [0x12; 0x23; 0x34; 0x45; 0x56; 0x67] [VItems] = [Out (VList [0x12; 0x23; 0x34; 0x45; 0x56; 0x67])] /\
  vec 7 [0x54; 0x70; 0x31] [VItems] = [Out (VList [0x54; 0x70; 0x31])].
Proof. split; reflexivity. Qed.
(** cx_vector.cpp:89-102. *)
Example test_vector_push_back :
  vec 6 [0x1; 0x12; 0x123; 0x1234]
    [VSize; VFull; VPush 0x12345; VSize; VGet 4; VFull; VPush 0x123456; VSize; VGet 5; VFull]
  = map Out [VNum 4; VBool false; VVal 0x12345; VNum 5; VVal 0x12345; VBool false; VVal 0x123456; VNum 6;
             VVal 0x123456; VBool true].
Proof. reflexivity. Qed.
(** cx_vector.cpp:104-117. *)
Example test_vector_pop_back :
  vec 14 [0xA; 0xB; 0xC; 0xD; 0xE; 0xF]
    [VPop; VSize; VEmpty; VPop; VPop; VPop; VPop; VEmpty; VPop; VEmpty]
  = map Out [VVal 0xF; VNum 5; VBool false; VVal 0xE; VVal 0xD; VVal 0xC; VVal 0xB; VBool false; VVal 0xA;
             VBool true].
Proof. reflexivity. Qed.
(** cx_vector.cpp:119-131. *)
Example test_vector_ends :
  vec 4 [] [VPush 1; VPush 2; VFront; VBack] = map Out [VVal 1; VVal 2; VVal 1; VVal 2].
Proof. reflexivity. Qed.
(** cx_vector.cpp:133-159. *)
Definition vec_eq (cap : N) (a b : list N) : option bool :=
  match v_make cap 0 a, v_make cap 0 b with Some x, Some y => v_eq N.eqb x y | _, _ => None end.
Example test_vector_equality :
  map (vec_eq 10 [4; 9; 2; 3; 1]) [[4; 9; 2; 3; 1]; [4; 9; 2; 3; 1; 0]; [4; 9; 2; 3]; [1; 9; 2; 3; 1]]
  = map Some [true; false; false; false].
Proof. reflexivity. Qed.
(** cx_vector.cpp:161-169. *)
Example test_vector_zero_capacity :
  vec 0 [] [VSize; VEmpty; VFull; VItems] = map Out [VNum 0; VBool true; VBool true; VList []] /\
  vec_eq 0 [] [] = Some true.
Proof. split; reflexivity. Qed.
(** cx_vector.cpp:171-180. *)
Example test_vector_overwrite :
  vec 5 [1; 2; 3; 4; 5] [VOverwrite [(0, 17)] 1; VSize; VGet 0] = map Out [VUnit; VNum 1; VVal 17].
Proof. reflexivity. Qed.

(** ** cx_queue, with a handler that throws *)
Definition que (cap : N) := replay (q_step (fun x => x) Safe DoesNotReturn cap) (q_init cap (0 : N)).
(** cx_queue.cpp:23-38. *)
Example test_queue_empty_full :
  que 1 [Size; Empty; Full] = map Out [ONum 0; OBool true; OBool false] /\
  que 1 [Push 1; Size; Empty; Full] = map Out [OVal 1; ONum 1; OBool false; OBool true].
Proof. split; reflexivity. Qed.
(** cx_queue.cpp:40-58. *)
Example test_queue_push_pop :
  que 6 [Push 1; Size; Push 2; Size; Push 3; Size; Pop; Size; Pop; Size; Pop; Size; Full; Empty]
  = map Out [OVal 1; ONum 1; OVal 2; ONum 2; OVal 3; ONum 3; OVal 1; ONum 2; OVal 2; ONum 1; OVal 3; ONum 0;
             OBool false; OBool true].
Proof. reflexivity. Qed.
(** cx_queue.cpp:60-65. *)
Example test_queue_reference : que 1 [PushSet 1 2; Pop] = map Out [OUnit; OVal 2].
Proof. reflexivity. Qed.
(** cx_queue.cpp:67-84. *)
Example test_queue_wraparound :
  que 2 [Push 1; Size; Push 2; Size; Pop; Size; Push 3; Size; Pop; Pop; Size; Full; Empty]
  = map Out [OVal 1; ONum 1; OVal 2; ONum 2; OVal 1; ONum 1; OVal 3; ONum 2; OVal 2; OVal 3; ONum 0;
             OBool false; OBool true].
Proof. reflexivity. Qed.
(** cx_queue.cpp:86-94. *)
Example test_queue_safe :
  que 1 [Push 1; Push 2; Pop; Pop; Front; Back]
  = [Out (OVal 1); Panics Overflow; Out (OVal 1); Panics Underflow; Panics Underflow; Panics Underflow].
Proof. reflexivity. Qed.
(** cx_queue.cpp:112-124. *)
Example test_queue_ends :
  que 2 [Push 1; Push 2; Front; Back; SetFront 2; Front; SetBack 3; Back]
  = map Out [OVal 1; OVal 2; OVal 1; OVal 2; OUnit; OVal 2; OUnit; OVal 3].
Proof. reflexivity. Qed.

(** ** cx_set *)
Definition set64 (l : list N) := from (s_step N.eqb) (s_make 64 0 l).
(** cx_set.cpp:5-13, :20-31. *)
Example test_set_contains :
  set64 [] [SSize; SEmpty; SContains 10; SInsert 10; SSize; SEmpty; SContains 10; SContains 11]
  = map Out [SNum 0; SBool true; SBool false; SBool true; SNum 1; SBool false; SBool true; SBool false].
Proof. reflexivity. Qed.
(** cx_set.cpp:33-42. *)
Example test_set_create :
  set64 [1; 2; 3] [SSize; SEmpty; SContains 1; SContains 2; SContains 3; SContains 11]
  = map Out [SNum 3; SBool false; SBool true; SBool true; SBool true; SBool false].
Proof. reflexivity. Qed.
(** cx_set.cpp:44-53. *)
Example test_set_insert_multiple :
  set64 [] [SInsert 10; SSize; SInsert 10; SSize; SEmpty; SContains 10]
  = map Out [SBool true; SNum 1; SBool false; SNum 1; SBool false; SBool true].
Proof. reflexivity. Qed.
(** cx_set.cpp:55-78. *)
Example test_set_erase :
  set64 [] [SInsert 10; SErase 10; SSize; SEmpty; SContains 10]
  = map Out [SBool true; SNum 1; SNum 0; SBool true; SBool false] /\
  set64 [] [SInsert 10; SContains 10; SInsert 11; SErase 10; SSize; SEmpty; SContains 10; SContains 11]
  = map Out [SBool true; SBool true; SBool true; SNum 1; SNum 1; SBool false; SBool false; SBool true].
Proof. split; reflexivity. Qed.
(** cx_set.cpp:80-114. *)
Example test_set_constexpr :
  set64 [10; 11; 12; 32; 40; 42; 56]
    [SErase 10; SErase 11; SErase 11; SErase 32; SErase 56; SErase 56; SEmpty; SContains 12; SContains 40;
     SContains 42; SContains 10; SContains 11; SContains 32; SContains 56]
  = map Out [SNum 1; SNum 1; SNum 0; SNum 1; SNum 1; SNum 0; SBool false; SBool true; SBool true; SBool true;
             SBool false; SBool false; SBool false; SBool false].
Proof. reflexivity. Qed.

(** ** cx_map *)
Definition map64 := from (m_step N.eqb 64) (m_make 64 (0 : N, 0 : N) []).
(** cx_map.cpp:7-15. *)
Example test_map_empty :
  map64 [MSize; MEmpty; MPut 10 50; MSize; MEmpty]
  = map Out [MNum 0; MBool true; MBool true; MNum 1; MBool false].
Proof. reflexivity. Qed.
(** cx_map.cpp:17-42, :108-122. *)
Example test_map_contains :
  map64 [MPut 10 50; MPut 11 100; MEmpty; MContains 10; MGet 10; MContains 11; MGet 11; MContains 12]
  = map Out [MBool true; MBool true; MBool false; MBool true; MVal 50; MBool true; MVal 100; MBool false].
Proof. reflexivity. Qed.
(** cx_map.cpp:44-53, :140-151. *)
Example test_map_update :
  map64 [MPut 13 500; MContains 13; MGet 13; MPut 13 700; MContains 13; MGet 13; MSize]
  = map Out [MBool true; MBool true; MVal 500; MBool false; MBool true; MVal 700; MNum 1].
Proof. reflexivity. Qed.
(** cx_map.cpp:55-64. *)
Example test_map_pop_back :
  map64 [MPut 13 500; MPop; MSize; MEmpty] = map Out [MBool true; MEntry (13, 500); MNum 0; MBool true].
Proof. reflexivity. Qed.
(** cx_map.cpp:66-89. *)
Example test_map_erase :
  map64 [MPut 13 500; MPut 18 600; MPut 19 700; MErase 18; MSize; MContains 18; MGet 13; MGet 19]
  = map Out [MBool true; MBool true; MBool true; MNum 1; MNum 2; MBool false; MVal 500; MVal 700] /\
  map64 [MPut 13 500; MPut 18 600; MErase 50; MSize; MContains 50; MGet 13; MGet 18]
  = map Out [MBool true; MBool true; MNum 0; MNum 2; MBool false; MVal 500; MVal 600].
Proof. split; reflexivity. Qed.
(** cx_map.cpp:91-100. *)
Example test_map_iterators :
  map64 [MItems; MPut 18 600; MItems] = map Out [MList []; MBool true; MList [(18, 600)]].
Proof. reflexivity. Qed.
(** cx_map.cpp:124-138, :153-166. *)
Example test_map_constexpr_erase :
  map64 [MPut 10 50; MPut 11 100; MErase 11; MErase 12; MEmpty; MContains 10; MGet 10; MContains 11]
  = map Out [MBool true; MBool true; MNum 1; MNum 0; MBool false; MBool true; MVal 50; MBool false] /\
  map64 [MPut 10 50; MPut 11 100; MErase 10; MEmpty; MContains 11; MGet 11; MContains 10]
  = map Out [MBool true; MBool true; MNum 1; MBool false; MBool true; MVal 100; MBool false].
Proof. split; reflexivity. Qed.

(** ** cx_multimap *)
Definition mmap64 := from (mm_step N.eqb N.eqb 64 0) (mm_init 64 64 (0 : N) (0 : N)).
(** cx_multimap.cpp:5-32. *)
Example test_multimap_put :
  mmap64 [MMSize; MMEmpty; MMContains 10; MMContains2 10 10; MMInsert 60 40; MMSize; MMEmpty; MMContains 60;
          MMContains 40; MMContains2 60 40; MMContains2 60 60; MMContains2 40 40]
  = map Out [MMNum 0; MMBool true; MMBool false; MMBool false; MMUnit; MMNum 1; MMBool false; MMBool true;
             MMBool false; MMBool true; MMBool false; MMBool false].
Proof. reflexivity. Qed.
(** cx_multimap.cpp:34-46. *)
Example test_multimap_multiple :
  mmap64 [MMInsert 60 1; MMInsert 60 2; MMInsert 60 3; MMSize; MMContains2 60 1; MMContains2 60 2;
          MMContains2 60 3; MMContains2 60 0]
  = map Out [MMUnit; MMUnit; MMUnit; MMNum 1; MMBool true; MMBool true; MMBool true; MMBool false].
Proof. reflexivity. Qed.
(** cx_multimap.cpp:48-73. *)
Example test_multimap_erase :
  mmap64 [MMInsert 60 1; MMInsert 60 2; MMInsert 61 3; MMInsert 62 4; MMSize;
          MMErase 60 1; MMSize; MMContains2 60 1; MMContains2 60 2;
          MMErase 60 2; MMSize; MMContains2 60 2; MMContains2 61 3; MMContains2 62 4;
          MMEraseKey 61; MMSize; MMContains2 62 4; MMEraseKey 62; MMEmpty]
  = map Out [MMUnit; MMUnit; MMUnit; MMUnit; MMNum 3; MMNum 1; MMNum 3; MMBool false; MMBool true;
             MMNum 1; MMNum 2; MMBool false; MMBool true; MMBool true; MMNum 1; MMNum 1; MMBool true;
             MMNum 1; MMBool true].
Proof. reflexivity. Qed.
(** cx_multimap.cpp:75-98. *)
Example test_multimap_constexpr :
  mmap64 [MMInsert 10 100; MMInsert 10 101; MMInsert 10 110; MMInsert 50 1; MMEmpty; MMSize; MMContains 10;
          MMOnSet 10 SEmpty; MMOnSet 10 SSize; MMContains2 10 100; MMContains2 10 101; MMContains2 10 110;
          MMContains2 10 50; MMOnSet 50 SEmpty; MMOnSet 50 SSize; MMContains2 50 1; MMContains2 50 2]
  = map Out [MMUnit; MMUnit; MMUnit; MMUnit; MMBool false; MMNum 2; MMBool true; MMSet (SBool false);
             MMSet (SNum 3); MMBool true; MMBool true; MMBool true; MMBool false; MMSet (SBool false);
             MMSet (SNum 1); MMBool true; MMBool false].
Proof. reflexivity. Qed.
