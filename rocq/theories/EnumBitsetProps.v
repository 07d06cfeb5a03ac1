(** C129: bitsets whose size is an enumerator are sets of enumerators. *)
From Verif Require Import Base BitModel BitSpec BitsetModel BitsetSpec BitsetProps EnumBitsetModel EnumBitsetSpec EnumBitsetProofs.
Open Scope Z_scope.

(** operator[], set, reset and flip compile for exactly the indices that are not of another
    enumeration. *)
Theorem C129_other_enumerations_are_rejected :
  forall Size r x v,
  (compiles Size (ESet r x v) = true <-> ~ other_enumeration Size (type_of x)) /\
  (compiles Size (EReset r x) = true <-> ~ other_enumeration Size (type_of x)) /\
  (compiles Size (EFlip r x) = true <-> ~ other_enumeration Size (type_of x)) /\
  (compiles Size (EGet r x) = true <-> ~ other_enumeration Size (type_of x)).
Proof. intros Size r x v. cbn [compiles]. repeat split; apply admissible_ok. Qed.
Print Assumptions C129_other_enumerations_are_rejected.

(** The variables are sets of the values below the size, for every history, every word type and
    every underlying type.  Without lowest_unset and transform_reduce: *)
Theorem C129_sets_partial :
  forall pl w same64 Size k calls, enum_ok pl w Size -> (same64 = true -> w = 64%N) ->
  Forall (fun c => looks_above c = false) calls ->
  conforms (estep pl w same64 Size) (epre (value Size)) (espec (value Size)) (repeat (make (size Size) w) k) (repeat [] k) calls.
Proof. intros pl w same64 Size k calls H1 H2. exact (enum_programs pl w same64 Size H1 H2 k calls). Qed.
Print Assumptions C129_sets_partial.
(** With them, but without set(), flip() and ~: *)
Theorem C129_sets_tidy_partial :
  forall pl w same64 Size k calls, enum_ok pl w Size -> (same64 = true -> w = 64%N) ->
  Forall (fun c => writes_above c = false) calls ->
  conforms (estep pl w same64 Size) (epre (value Size)) (espec (value Size)) (repeat (make (size Size) w) k) (repeat [] k) calls.
Proof. intros pl w same64 Size k calls H1 H2. exact (enum_tidy pl w same64 Size H1 H2 k calls). Qed.
Print Assumptions C129_sets_tidy_partial.
(** All calls, if the size is a multiple of the word: *)
Theorem C129_sets_whole_words :
  forall pl w same64 Size k calls, enum_ok pl w Size -> (same64 = true -> w = 64%N) -> value Size mod Z.of_N w = 0 ->
  conforms (estep pl w same64 Size) (epre (value Size)) (espec (value Size)) (repeat (make (size Size) w) k) (repeat [] k) calls.
Proof.
  intros pl w same64 Size k calls H1 H2 Hm. apply (enum_whole pl w same64 Size H1 H2 k calls).
  destruct H1 as (_ & P & _). apply N2Z.inj. rewrite N2Z.inj_mod, Z2N.id by lia. exact Hm.
Qed.
Print Assumptions C129_sets_whole_words.

(** enum struct Bits : std::int8_t { A = 0, ..., MAX = 13 }, over 8-bit words. *)
Definition Bits := Enum 0 true 8.
Definition at_ (z : Z) : index := {| type_of := Bits; value := z |}.
Example C129_nonvacuous :
  enum_ok lp64 8 (at_ 13) /\ compiles (at_ 13) (ESet 0 (at_ 3) true) = true /\
  compiles (at_ 13) (ESet 0 {| type_of := Enum 1 true 8; value := 3 |} true) = false /\
  compiles (at_ 13) (ESet 0 {| type_of := Int true 32; value := 3 |} true) = true /\
  run (estep lp64 8 false (at_ 13)) [make 13 8; make 13 8]
    [ESet 0 (at_ 12) true; EFlip 0 (at_ 3); EPlace 1 [at_ 3; at_ 0; at_ 9]; EEachSet 0; EOr 1 0; EEachSet 1; EMinus 1 1 0; EEachSet 1; ELowestUnset 1; EGet 1 (at_ 9)]
  = Done [[8; 16]%N; [1; 2]%N] [EUnit; EUnit; EUnit; EValues [3; 12]; EUnit; EValues [0; 3; 9; 12]; EUnit; EValues [0; 9]; EValue 1; EBool true] [].
Proof.
  split; [|vm_compute; auto 10]. unfold enum_ok, sizes_ok. cbn [value at_ type_of Bits]. split; [|split; [lia|split; [lia|reflexivity]]].
  vm_compute. repeat split; congruence || auto.
Qed.

(** FINDING: the constructor that takes places accepts every enumeration. *)
Theorem C129_places_of_other_enumerations_refuted :
  forall pl w same64 Size x, enum_ok pl w Size -> (same64 = true -> w = 64%N) -> other_enumeration Size (type_of x) -> 0 <= value x < value Size ->
  compiles Size (EPlace 0 [x]) = true /\
  exists s, run (estep pl w same64 Size) [make (size Size) w] [EPlace 0 [x]; EEachSet 0] = Done s [EUnit; EValues [value x]] [].
Proof. exact place_other. Qed.
Print Assumptions C129_places_of_other_enumerations_refuted.
(** FINDING: set, reset and flip of atomic_bitset do too; only operator[] rejects them. *)
Theorem C129_atomic_accepts_other_enumerations_refuted :
  forall Size x v, other_enumeration Size (type_of x) ->
  atomic_compiles Size (ASet x v) = true /\ atomic_compiles Size (AReset x) = true /\ atomic_compiles Size (AFlip x) = true /\
  atomic_compiles Size (APlace [x]) = true /\ atomic_compiles Size (AGet x) = false.
Proof.
  intros Size x v H. cbn [atomic_compiles]. repeat split; try reflexivity. apply Bool.not_true_is_false. intros E. apply admissible_ok in E. tauto.
Qed.
Print Assumptions C129_atomic_accepts_other_enumerations_refuted.
(** FINDING: after set(), transform_reduce also calls the function with values that are not below
    the size, whenever the size does not fill its words. *)
Theorem C129_values_outside_refuted :
  forall pl w same64 Size, enum_ok pl w Size -> (same64 = true -> w = 64%N) -> value Size mod Z.of_N w <> 0 ->
  exists s u l, run (estep pl w same64 Size) [make (size Size) w] [ESetAll 0; EEachUnset 0; ELowestUnset 0; EReduce 0]
    = Done s [EUnit; EValues []; EValue u; EValues l] [] /\ value Size < Z.of_N (len l).
Proof. exact values_outside. Qed.
Print Assumptions C129_values_outside_refuted.
(** FINDING: with the greatest value of an unsigned underlying type as the size, no value is unset
    after set(), and lowest_unset returns the enumerator 0, which is set. *)
Theorem C129_lowest_unset_is_set_refuted :
  forall pl w same64 e b, let Size := {| type_of := Enum e false b; value := 2 ^ Z.of_N b - 1 |} in
  enum_ok pl w Size -> (same64 = true -> w = 64%N) -> (1 < w)%N -> (w <= 2 ^ b)%N -> (2 ^ b mod w = 0)%N ->
  exists s, run (estep pl w same64 Size) [make (size Size) w] [ESetAll 0; EEachUnset 0; ELowestUnset 0; EGet 0 {| type_of := Enum e false b; value := 0 |}]
    = Done s [EUnit; EValues []; EValue 0; EBool true] [].
Proof. exact lowest_is_set. Qed.
Print Assumptions C129_lowest_unset_is_set_refuted.
(** enum struct E : std::uint8_t { ..., MAX = 255 } with the default word type. *)
Example C129_lowest_nonvacuous :
  enum_ok lp64 64 {| type_of := Enum 0 false 8; value := 255 |} /\ (1 < 64)%N /\ (64 <= 2 ^ 8)%N /\ (2 ^ 8 mod 64 = 0)%N.
Proof.
  split; [|vm_compute; repeat split; congruence]. unfold enum_ok, sizes_ok. cbn [value type_of]. split; [|split; [lia|split; [lia|reflexivity]]].
  vm_compute. repeat split; congruence || auto.
Qed.
(** With a signed underlying type whose greatest value is Size, the enumerator given after set() is the
    least value of the type, a negative one, which names no bit. *)
Theorem C129_lowest_unset_negative_refuted :
  forall pl w same64 e b, let Size := {| type_of := Enum e true (b + 1); value := 2 ^ Z.of_N b - 1 |} in
  enum_ok pl w Size -> (same64 = true -> w = 64%N) -> (1 < w)%N -> (w <= 2 ^ b)%N -> (2 ^ b mod w = 0)%N ->
  exists s l, run (estep pl w same64 Size) [make (size Size) w] [ESetAll 0; EEachUnset 0; ELowestUnset 0; EReduce 0]
    = Done s [EUnit; EValues []; EValue (- 2 ^ Z.of_N b); EValues l] [].
Proof. exact lowest_is_negative. Qed.
Print Assumptions C129_lowest_unset_negative_refuted.
(** enum struct E : std::int8_t { ..., MAX = 127 } with the default word type. *)
Example C129_lowest_negative_nonvacuous :
  enum_ok lp64 64 {| type_of := Enum 0 true (7 + 1); value := 127 |} /\ (1 < 64)%N /\ (64 <= 2 ^ 7)%N /\ (2 ^ 7 mod 64 = 0)%N.
Proof.
  split; [|vm_compute; repeat split; congruence]. unfold enum_ok, sizes_ok. cbn [value type_of]. split; [|split; [lia|split; [lia|reflexivity]]].
  vm_compute. repeat split; congruence || auto.
Qed.
