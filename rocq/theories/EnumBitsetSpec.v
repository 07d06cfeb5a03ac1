(** What a user expects of a bitset whose size is an enumerator: sets of the enumerators below it. *)
From Verif Require Import Base BitModel BitSpec BitsetModel BitsetSpec EnumBitsetModel.
Open Scope Z_scope.

Section Spec.
Variable M : Z.   (* the value of the enumerator that is the size *)

(** 0, 1, ..., M - 1. *)
Definition below : list Z := map Z.of_nat (seq 0 (Z.to_nat M)).
Definition mem (z : Z) (s : list Z) : bool := existsb (Z.eqb z) s.
(** The set of the values that satisfy p, in order. *)
Definition such_that (p : Z -> bool) : list Z := filter p below.

(** A variable is the list of its members, in order. *)
Definition sets := list (list Z).
Definition var (m : sets) (r : N) : list Z := match rd m r with Some s => s | None => [] end.
Definition has_var (m : sets) (r : N) : Prop := (r < len m)%N.

(** Only values from 0 to below the size may be used as indices. *)
Definition in_range (x : index) : Prop := 0 <= value x < M.
Definition epre (m : sets) (c : call) : Prop :=
  match c with
  | EDefault r | EAllBits r | ESetAll r | EResetAll r | EFlipAll r | ECount r | EEmpty r | EAll r | EAny r | ENone r
  | EEachSet r | EEachUnset r | EEachBit r | ELowestUnset r | EReduce r => has_var m r
  | EPlace r xs => has_var m r /\ Forall in_range xs
  | ESet r x _ | EReset r x | EFlip r x | EGet r x => has_var m r /\ in_range x
  | ECopy d a | ENot d a | EOr d a | EAnd d a | EXor d a => has_var m d /\ has_var m a
  | EMinus d a b => has_var m d /\ has_var m a /\ has_var m b
  | EEq a b => has_var m a /\ has_var m b
  end.

(** The new members of a variable, and the result. *)
Definition eeffect (m : sets) (c : call) : option (N * (Z -> bool)) * result :=
  match c with
  | EDefault r => (Some (r, fun _ => false), EUnit)
  | EAllBits r => (Some (r, fun _ => true), EUnit)
  | EPlace r xs => (Some (r, fun z => mem z (map value xs)), EUnit)
  | ECopy d a => (Some (d, fun z => mem z (var m a)), EUnit)
  | ESet r x v => (Some (r, fun z => if z =? value x then v else mem z (var m r)), EUnit)
  | EReset r x => (Some (r, fun z => negb (z =? value x) && mem z (var m r)), EUnit)
  | EFlip r x => (Some (r, fun z => if z =? value x then negb (mem z (var m r)) else mem z (var m r)), EUnit)
  | EGet r x => (None, EBool (mem (value x) (var m r)))
  | ESetAll r => (Some (r, fun _ => true), EUnit)
  | EResetAll r => (Some (r, fun _ => false), EUnit)
  | EFlipAll r => (Some (r, fun z => negb (mem z (var m r))), EUnit)
  | ENot d a => (Some (d, fun z => negb (mem z (var m a))), EUnit)
  | EOr d a => (Some (d, fun z => mem z (var m d) || mem z (var m a)), EUnit)
  | EAnd d a => (Some (d, fun z => mem z (var m d) && mem z (var m a)), EUnit)
  | EXor d a => (Some (d, fun z => xorb (mem z (var m d)) (mem z (var m a))), EUnit)
  | EMinus d a b => (Some (d, fun z => mem z (var m a) && negb (mem z (var m b))), EUnit)
  | EEq a b => (None, EBool (if list_eq_dec Z.eq_dec (var m a) (var m b) then true else false))
  | ECount r => (None, ENum (len (var m r)))
  | EEmpty r | ENone r => (None, EBool (len (var m r) =? 0)%N)
  | EAny r => (None, EBool (negb (len (var m r) =? 0)%N))
  | EAll r => (None, EBool (Z.of_N (len (var m r)) =? M))
  | EEachSet r | EReduce r => (None, EValues (var m r))
  | EEachUnset r => (None, EValues (such_that (fun z => negb (mem z (var m r)))))
  | EEachBit r => (None, EPairs (map (fun z => (z, mem z (var m r))) below))
  | ELowestUnset r => (None, EValue (match such_that (fun z => negb (mem z (var m r))) with z :: _ => z | [] => M end))
  end.
Definition espec (m : sets) (c : call) (o : result) (m' : sets) : Prop :=
  o = snd (eeffect m c) /\
  match fst (eeffect m c) with
  | None => m' = m
  | Some (r, p) => wr m r (such_that p) = Some m'
  end.

(** The calls that look at the storage above the size, and those that write there. *)
Definition looks_above (c : call) : bool := match c with ELowestUnset _ | EReduce _ => true | _ => false end.
Definition writes_above (c : call) : bool := match c with ESetAll _ | EFlipAll _ | ENot _ _ => true | _ => false end.
End Spec.

(** The size: a value that its type has, above 0; words no wider than long long. *)
Definition enum_ok (pl : platform) (w : N) (Size : index) : Prop :=
  sizes_ok pl (Z.to_N (value Size)) w /\ 0 < value Size /\
  match type_of Size with
  | Int s b | Enum _ s b => (0 < b)%N /\ value Size < 2 ^ (Z.of_N b - if s then 1 else 0)
  end.
(** An enumeration that is not the one of the size. *)
Definition other_enumeration (Size : index) (t : type) : Prop := is_enum t = true /\ t <> type_of Size.
