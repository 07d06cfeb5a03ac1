(** The programs of /repo/test/fail that the models reach, and the assertions of /repo/test/overload.cpp,
    priority.cpp and array.cpp, evaluated in the models: they check the models against the behaviour the
    repository's own tests record.  They are tests, not the property theorems. *)
From Coq Require Import String Ascii.
From Verif Require Import Base Ints.
From Verif Require AtomKindModel ProtocolModel TplListModel StaticAssertModel TombModel CompareModel EnumBitsetModel
  BitsetModel ArgsModel TupleModel RollMixModel RollTypeModel OverloadModel SeqModel.
Open Scope Z_scope.

(** fail/atomic_bool_dec.cpp, whatever elem_t is *)
Example atomic_bool_dec : forall same, AtomKindModel.compiles AtomKindModel.Boolean same AtomKindModel.MIncDec = false.
Proof. intros []; reflexivity. Qed.

(** fail/bitset_mixed_enumeration.cpp *)
Section Enumerations.
Import EnumBitsetModel.
Definition E1_MAX := {| type_of := Enum 1 true 32; value := 3 |}.
Definition E2_X := {| type_of := Enum 2 true 32; value := 0 |}.
Definition E1_A := {| type_of := Enum 1 true 32; value := 0 |}.
Example bitset_mixed_enumeration :
  compiles E1_MAX (ESet 0 E2_X true) = false /\ compiles E1_MAX (ESet 0 E1_A true) = true.
Proof. split; reflexivity. Qed.
End Enumerations.

(** fail/bitset_to_uint64_over_64_bits.cpp: 65 bits in bytes *)
Example bitset_to_uint64_over_64_bits :
  BitsetModel.to_uint 65 8 false 64 (BitsetModel.make 65 8) = None /\
  BitsetModel.to_uint 64 8 false 64 (BitsetModel.make 64 8) = Some 0%N.
Proof. split; vm_compute; reflexivity. Qed.

(** fail/dynamic_container_no_ct_capacity.cpp, dynamic_std_span_no_ct_capacity.cpp,
    dynamic_stdx_span_no_ct_capacity.cpp, non_unrolled_for_each.cpp *)
Section Protocols.
Import ProtocolModel.
Definition int_ := Named 0.
Definition host := {| size_t_is_unsigned_int := false |}.
Example no_ct_capacity :
  ct_capacity (Ref (Named 1)) = None /\ ct_capacity (Ref (StdSpan int_ None)) = None /\ ct_capacity (Ref (Span int_ None)) = None.
Proof. repeat split. Qed.
Example non_unrolled_for_each :
  guarded host [Ref (StdArray int_ 3)] = Refused /\ unrolled host [Ref (StdArray int_ 3)] = Steps 3 /\
  guarded host [Ref (Tuple [int_; int_])] = Steps 2.
Proof. repeat split. Qed.
End Protocols.

(** fail/for_each_n_args_bad_size.cpp *)
Example for_each_n_args_bad_size :
  ArgsModel.for_each_n_args (fun w (b : list nat) => (w ++ [b], tt)) 2 2 [] [2; 3; 3]%nat = None.
Proof. reflexivity. Qed.

(** fail/optional_without_tombstone.cpp *)
Example optional_without_tombstone : TombModel.tombstone (TombModel.User None) = None.
Proof. reflexivity. Qed.

(** fail/rollover_less_than.cpp and rollover_less_than_26.cpp (the same program), rollover_signed.cpp *)
Example rollover_less_than :
  RollMixModel.type_of (RollMixModel.Bin RollMixModel.Less (RollMixModel.Var 32 0 0) (RollMixModel.Var 32 0 1)) = RollMixModel.Deleted.
Proof. reflexivity. Qed.
Example rollover_signed :
  RollTypeModel.usable (RollTypeModel.Roll {| RollTypeModel.is_signed := true; RollTypeModel.rank := 3 |}) = false.
Proof. reflexivity. Qed.

(** fail/static_assert.cpp, static_assert_format.cpp *)
Section Asserts.
Import StaticAssertModel.
Local Open Scope string_scope.
Fixpoint chars (s : string) : list N := match s with EmptyString => [] | String c s => N_of_ascii c :: chars s end.
Definition value (t : list (token string)) : option constant :=
  match t with
  | [StaticAssertModel.Other "true"] => Some (CBool true)
  | [StaticAssertModel.Other "false"] => Some (CBool false)
  | _ => None
  end.
Definition message := "01234567890123456789012345678901234567890123456789".
(** STDX_CT_FORMAT of the arguments of these programs. *)
Definition format (l : list (list (token string))) : option (list N) :=
  match l with
  | [[StaticAssertModel.Other "not emitted"]] => Some (chars "not emitted")
  | [[StaticAssertModel.Other "msg"]] => Some (chars message)
  | [[StaticAssertModel.Other "hello {} {} {}"]; [StaticAssertModel.Other "world"]; [StaticAssertModel.Other "T"]; [StaticAssertModel.Other "123"]] =>
      Some (chars "hello world int 123")
  | _ => None
  end.
Example static_asserts : forall modern,
  static_assert value format modern [StaticAssertModel.Other "true"; Comma; StaticAssertModel.Other "not emitted"] = Compiles /\
  static_assert value format modern [StaticAssertModel.Other "false"; Comma; StaticAssertModel.Other "msg"] = FailsWith (chars message) /\
  static_assert value format modern [StaticAssertModel.Other "false"; Comma; StaticAssertModel.Other "hello {} {} {}"; Comma;
    StaticAssertModel.Other "world"; Comma; StaticAssertModel.Other "T"; Comma; StaticAssertModel.Other "123"] = FailsWith (chars "hello world int 123").
Proof. intros []; vm_compute; repeat split; reflexivity. Qed.
End Asserts.

(** fail/template_for_each_not_list.cpp *)
Example template_for_each_not_list :
  TplListModel.template_for_each (TplListModel.NotTemplate 0) (fun w _ => S w) 0%nat = None /\
  TplListModel.template_for_each (TplListModel.type_list [TplListModel.Int (Sint 32)]) (fun w _ => S w) 0%nat = Some 1%nat.
Proof. split; reflexivity. Qed.

(** fail/tuple_equality_with_element.cpp, tuple_spaceship_with_element.cpp *)
Section Comparisons.
Import CompareModel.
Definition S_types := {| is_ref := fun _ => false; eq_with := Nat.eqb; cmp_with := Nat.eqb; member_eq := fun _ => true; member_cmp := fun _ => true |}.
Definition s := {| ty := 0; keys := []; val := tt |}.
Example tuple_with_element :
  equal S_types (fun _ _ _ _ => true) [s] (Other 0%nat tt) = Deleted /\
  three_way S_types (fun _ _ _ _ => Some Eq) [s] (Other 0%nat tt) = Deleted /\
  equal S_types (fun _ _ _ _ => true) [s] (ATuple [s]) = Value true.
Proof. repeat split. Qed.
End Comparisons.

(** fail/tuple_index_out_of_bounds.cpp, tuple_type_not_found.cpp; int is 0, float is 1 *)
Example tuple_index_out_of_bounds : TupleModel.get [0%nat] 1 = None.
Proof. reflexivity. Qed.
Example tuple_type_not_found :
  TupleModel.get_by (fun e : nat => e) Nat.eqb (fun _ => []) [0%nat] 1%nat = None /\
  TupleModel.get_by (fun e : nat => e) Nat.eqb (fun _ => []) [0%nat] 0%nat = Some 0%nat.
Proof. split; reflexivity. Qed.

(** overload.cpp:5-10; int is 0, char is 1, and each converts to the other *)
Section Overloads.
Import OverloadModel.
Definition conv (from to : nat) : option rank := match from, to with 1%nat, 0%nat => Some Promotion | _, _ => Some Conversion end.
Definition fs := [{| id := 0; parameter := Value 0; mutable_ := false |}; {| id := 1; parameter := Value 1; mutable_ := false |}].
Example overload_set :
  option_map id (resolve conv fs true {| type := 0; const := false; rvalue := true |}) = Some 0%nat /\
  option_map id (resolve conv fs true {| type := 1; const := false; rvalue := true |}) = Some 1%nat.
Proof. split; reflexivity. Qed.
End Overloads.

(** priority.cpp:17-21: overloads for anything, integers and floating-point numbers *)
Example priority :
  SeqModel.resolve 2 [(0, true); (1, false); (2, true)]%nat = Some 2%nat /\
  SeqModel.resolve 2 [(0, true); (1, true); (2, false)]%nat = Some 1%nat /\
  SeqModel.resolve 2 [(0, true); (1, false); (2, false)]%nat = Some 0%nat.
Proof. repeat split. Qed.

(** array.cpp:29-76: D<I> and f<I>() are I + 1 *)
Definition one_type (_ : Z) : option unit := Some tt.
Definition same_type (_ _ : unit) : option (Z -> Z) := Some (fun r => r).
Example make_array_by_sequence :
  SeqModel.make_array_values_n one_type same_type (fun i => i + 1) 5 = Some (tt, [1; 2; 3; 4; 5]) /\
  SeqModel.make_array_values_n one_type same_type (fun i => i + 1) 0 = Some (tt, []) /\
  SeqModel.make_array_n one_type same_type (fun (w : list Z) i => (w ++ [i], i + 1)) [] 5 = Some ([0; 1; 2; 3; 4], (tt, [1; 2; 3; 4; 5])) /\
  SeqModel.make_array_n one_type same_type (fun (w : list Z) i => (w ++ [i], i + 1)) [] 0 = Some ([], (tt, [])).
Proof. vm_compute. repeat split. Qed.
