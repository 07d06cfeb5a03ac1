(** The assertions of /repo/test/byterator.cpp and span.cpp, and the programs of /repo/test/fail
    about spans, evaluated in the models: they check the models against the behaviour the
    repository's own tests record.  They are tests, not the property theorems. *)
From Verif Require Import Base BitModel ByteratorModel SpanModel CxTests.
Import ListNotations.
Open Scope N_scope.

(** ** byterator: memory [l] at address 4096, byterators [0] and [1] at its start; on machines of
    both byte orders. *)
Definition both (l : list N) (ops : list yop) (want : endian -> list (seen unit yout)) : Prop :=
  forall e, replay (ystep e 64) (YState (Region 4096 l) [4096; 4096]) ops = want e.
Definition be16 (e : endian) (x : N) := to_be e 16 x.
Definition a2 := [1; 2; 3; 4].
Definition a4 := [1; 2; 3; 4; 5; 6; 7; 8].
Ltac both := let e := fresh in intros e; destruct e; reflexivity.
(** The array { to_be(0x0102), to_be(0x0304) } has these bytes. *)
Example test_bytes : forall e, mem_of e 16 (to_be e 16 0x0102) ++ mem_of e 16 (to_be e 16 0x0304) = a2.
Proof. intros []; reflexivity. Qed.

(** byterator.cpp:53-116. *)
Example test_moves :
  both a2 [YAdvanceBy 0 1; YEqual 0 1; YAdvanceBy 0 (-1); YEqual 0 1; YLess 1 0; YAdvanceBy 0 1; YDistance 0 1;
           YLess 1 0; YLess 0 1; YAdvanceBy 0 (-1); YEqual 0 1]
    (fun _ => map Out [YUnit; YBool false; YUnit; YBool true; YBool false; YUnit; YInt 1; YBool true; YBool false;
                       YUnit; YBool true]).
Proof. both. Qed.
(** byterator.cpp:118-127. *)
Example test_deref_read :
  both a2 [YDeref 0 0; YAdvanceBy 0 1; YDeref 0 0; YAdvanceBy 0 1; YDeref 0 0; YAdvanceBy 0 1; YDeref 0 0;
           YAdvanceBy 0 1; YDistance 0 1]
    (fun _ => map Out [YNum 1; YUnit; YNum 2; YUnit; YNum 3; YUnit; YNum 4; YUnit; YInt 4]).
Proof. both. Qed.
(** byterator.cpp:129-135. *)
Example test_deref_write :
  both a2 [YAssign 0 0 3; YPeekU 0 16 16] (fun e => map Out [YUnit; YNum (be16 e 0x0302)]).
Proof. both. Qed.
(** byterator.cpp:137-143. *)
Example test_index_read : both a2 [YDeref 0 2] (fun _ => [Out (YNum 3)]).
Proof. both. Qed.
(** byterator.cpp:145-151. *)
Example test_index_write :
  both a2 [YAssign 0 2 5; YAdvanceBy 0 2; YPeekU 0 16 16] (fun e => map Out [YUnit; YUnit; YNum (be16 e 0x0504)]).
Proof. both. Qed.
(** byterator.cpp:153-189. *)
Example test_u8 :
  both a2 [YPeekU 0 8 8; YEqual 0 1; YAdvanceBy 0 1; YDistance 0 1] (fun _ => map Out [YNum 1; YBool true; YUnit; YInt 1]) /\
  both a2 [YReadU 0 8 8; YDistance 0 1] (fun _ => map Out [YNum 1; YInt 1]) /\
  both a2 [YWriteU 0 8 3; YPeekU 1 16 16; YDistance 0 1] (fun e => map Out [YUnit; YNum (be16 e 0x0302); YInt 1]).
Proof. repeat split; both. Qed.
(** byterator.cpp:191-227. *)
Example test_u16 :
  both a2 [YPeekU 0 16 16; YEqual 0 1] (fun e => map Out [YNum (be16 e 0x0102); YBool true]) /\
  both a2 [YReadU 0 16 16; YDistance 0 1] (fun e => map Out [YNum (be16 e 0x0102); YInt 2]) /\
  both a2 [YWriteU 0 16 3; YPeekU 1 16 16; YDistance 0 1] (fun e => map Out [YUnit; YNum 3; YInt 2]).
Proof. repeat split; both. Qed.
(** byterator.cpp:229-263. *)
Example test_u32 :
  both a2 [YPeekU 0 32 32; YEqual 0 1] (fun e => map Out [YNum (to_be e 32 0x01020304); YBool true]) /\
  both a2 [YReadU 0 32 32; YDistance 0 1] (fun e => map Out [YNum (to_be e 32 0x01020304); YInt 4]) /\
  (forall e, replay (ystep e 64) (YState (Region 4096 a2) [4096; 4096])
               [YWriteU 0 32 (to_be e 32 0x05060708); YReadU 1 16 16; YReadU 1 16 16; YEqual 0 1]
             = map Out [YUnit; YNum (be16 e 0x0506); YNum (be16 e 0x0708); YBool true]).
Proof. repeat split; both. Qed.
(** byterator.cpp:265-305. *)
Example test_u64 :
  both a4 [YPeekU 0 64 64; YEqual 0 1] (fun e => map Out [YNum (to_be e 64 0x0102030405060708); YBool true]) /\
  both a4 [YReadU 0 64 64; YDistance 0 1] (fun e => map Out [YNum (to_be e 64 0x0102030405060708); YInt 8]) /\
  (forall e, replay (ystep e 64) (YState (Region 4096 a4) [4096; 4096])
               [YWriteU 0 64 (to_be e 64 0x05060708090A0B0C); YReadU 1 16 16; YReadU 1 16 16; YReadU 1 16 16;
                YReadU 1 16 16; YEqual 0 1]
             = map Out [YUnit; YNum (be16 e 0x0506); YNum (be16 e 0x0708); YNum (be16 e 0x090A);
                        YNum (be16 e 0x0B0C); YBool true]).
Proof. repeat split; both. Qed.
(** byterator.cpp:311-392: enumerations of one byte, and of four bytes read as one. *)
Example test_enum :
  both a2 [YPeek 0 1; YRead 0 1; YDistance 0 1] (fun _ => map Out [YBytes [1]; YBytes [1]; YInt 1]) /\
  both a2 [YWrite 0 [3]; YPeekU 1 16 16] (fun e => map Out [YUnit; YNum (be16 e 0x0302)]) /\
  both a2 [YPeekU 0 8 32; YReadU 0 8 32; YDistance 0 1] (fun _ => map Out [YNum 1; YNum 1; YInt 1]).
Proof. repeat split; both. Qed.
(** byterator.cpp:394-418: the array is aligned. *)
Example test_align_next :
  both (a4 ++ a4)
    [YAdvanceTo 0 1 0; YDistance 0 1; YAdvanceBy 0 1; YAdvanceTo 0 1 0; YDistance 0 1; YAdvanceTo 0 2 0; YDistance 0 1;
     YAdvanceTo 0 4 0; YDistance 0 1; YAdvanceTo 0 8 0; YDistance 0 1; YAdvanceTo 0 8 0; YDistance 0 1]
    (fun _ => map Out [YUnit; YInt 0; YUnit; YUnit; YInt 1; YUnit; YInt 2; YUnit; YInt 4; YUnit; YInt 8; YUnit; YInt 8]).
Proof. both. Qed.
(** byterator.cpp:420-439. *)
Example test_align_previous :
  both (a4 ++ a4)
    [YAdvanceBy 0 8; YAdvanceTo 0 1 (-1); YDistance 0 1; YAdvanceTo 0 2 (-1); YDistance 0 1; YAdvanceTo 0 4 (-1);
     YDistance 0 1; YAdvanceTo 0 8 (-1); YDistance 0 1]
    (fun _ => map Out [YUnit; YUnit; YInt 7; YUnit; YInt 6; YUnit; YInt 4; YUnit; YInt 0]).
Proof. both. Qed.

(** ** span: the array {1, 2, 3, 4}; span [0] is made first, the program starts with it. *)
Definition on (ops : list (sop N)) : list (seen unit (sout N)) :=
  replay sstep (SState [1; 2; 3; 4] (repeat (Span 0 0 0) 6)) ops.
(** span.cpp:49-226: from an iterator and a size or an end, an array, a range; with and without
    extent; they show the array. *)
Example test_span_make :
  forall e, In e [dyn; 4] ->
  on [SIter 0 e 0 4; SSize 0; SAll 0] = map Out [SUnit; SNum 4; SList [1; 2; 3; 4]] /\
  on [SArray 0 e; SSize 0; SAll 0] = map Out [SUnit; SNum 4; SList [1; 2; 3; 4]].
Proof. intros e [<-|[<-|[]]]; split; reflexivity. Qed.
(** span.cpp:245-287. *)
Example test_span_ranges :
  on [SArray 0 4; SFront 0; SSize 0; SPut 0 0 2; SAll 0; SRev 0; SPut 0 3 2; SRev 0]
  = map Out [SUnit; SVal 1; SNum 4; SUnit; SList [2; 2; 3; 4]; SList [4; 3; 2; 2]; SUnit; SList [2; 3; 2; 2]].
Proof. reflexivity. Qed.
(** span.cpp:289-299. *)
Example test_span_empty :
  on [SIter 0 dyn 0 0; SEmpty 0; SIter 1 4 0 0; SEmpty 1; SIter 2 0 0 0; SEmpty 2]
  = map Out [SUnit; SBool true; SUnit; SBool false; SUnit; SBool true].
Proof. reflexivity. Qed.
(** span.cpp:301-311. *)
Example test_span_size_bytes : size_bytes 4 (mk 4 0 4) = 16 /\ size_bytes 4 (mk dyn 0 4) = 16.
Proof. split; reflexivity. Qed.
(** span.cpp:313-327. *)
Example test_span_elements :
  on [SArray 0 4; SFront 0; SBack 0; SAt 0 0; SAt 0 1; SAt 0 2; SAt 0 3]
  = map Out [SUnit; SVal 1; SVal 4; SVal 1; SVal 2; SVal 3; SVal 4].
Proof. reflexivity. Qed.
(** span.cpp:329-360, of a span with an extent and of a dynamic one. *)
Example test_span_first :
  forall e, In e [dyn; 4] ->
  on [SArray 0 e; SFirstS 1 0 2; SAll 1; SFirst 2 0 2; SSize 2; SAll 2]
  = map Out [SUnit; SUnit; SList [1; 2]; SUnit; SNum 2; SList [1; 2]].
Proof. intros e [<-|[<-|[]]]; reflexivity. Qed.
(** span.cpp:362-393. *)
Example test_span_last :
  forall e, In e [dyn; 4] ->
  on [SArray 0 e; SLastS 1 0 2; SAll 1; SLast 2 0 2; SSize 2; SAll 2]
  = map Out [SUnit; SUnit; SList [3; 4]; SUnit; SNum 2; SList [3; 4]].
Proof. intros e [<-|[<-|[]]]; reflexivity. Qed.
(** span.cpp:395-450. *)
Example test_span_sub :
  subspan_s 4 1 2 (mk 4 0 4) = Formed (mk 2 1 2) /\ subspan_s 4 1 dyn (mk 4 0 4) = Formed (mk 3 1 3) /\
  subspan_d 4 1 2 (mk 4 0 4) = Formed (mk dyn 1 2) /\ subspan_d 4 1 dyn (mk 4 0 4) = Formed (mk dyn 1 3) /\
  subspan_s 4 4 0 (mk 4 0 4) = Formed (mk 0 4 0) /\
  subspan_s 4 1 2 (mk dyn 0 4) = Formed (mk 2 1 2) /\ subspan_s 4 1 dyn (mk dyn 0 4) = Formed (mk dyn 1 3) /\
  subspan_d 4 1 2 (mk dyn 0 4) = Formed (mk dyn 1 2) /\ subspan_d 4 1 dyn (mk dyn 0 4) = Formed (mk dyn 1 3) /\
  subspan_s 4 4 0 (mk dyn 0 4) = Formed (mk 0 4 0).
Proof. repeat split; reflexivity. Qed.
(** span.cpp:452-458, 494-529. *)
Example test_span_convert :
  on [SArray 0 dyn; SConvert 1 0 4; SSize 1; SAll 1; SArray 2 4; SConvert 3 2 dyn; SSize 3; SAll 3]
  = map Out [SUnit; SUnit; SNum 4; SList [1; 2; 3; 4]; SUnit; SUnit; SNum 4; SList [1; 2; 3; 4]].
Proof. reflexivity. Qed.
(** span.cpp:460-492. *)
Example test_span_as_bytes :
  as_bytes 4 (mk 4 0 4) = mk 16 0 16 /\ as_bytes 4 (mk dyn 0 4) = mk dyn 0 16.
Proof. split; reflexivity. Qed.
(** fail/span_insufficient_storage.cpp, span_larger_prefix.cpp, span_larger_suffix.cpp,
    subspan_late_end.cpp, subspan_late_start.cpp, subspan_late_start_dynamic.cpp,
    subspan_too_big.cpp, subspan_wrapping.cpp: none compiles. *)
Example test_span_fail :
  of_array 1 2 = Rejected /\ first_s 5 (mk 4 0 4) = Rejected /\ last_s 4 5 (mk 4 0 4) = Rejected /\
  subspan_s 4 1 4 (mk 4 0 4) = Rejected /\ subspan_s 4 5 2 (mk 4 0 4) = Rejected /\
  subspan_s 4 5 dyn (mk 4 0 4) = Rejected /\ subspan_s 4 0 5 (mk 4 0 4) = Rejected /\
  subspan_s 4 3 (dyn - 2) (mk dyn 0 4) = Rejected.
Proof. repeat split; reflexivity. Qed.
