(** Model of what bitset.hpp and atomic_bitset.hpp do with indices of enumeration type: which
    calls compile, which bit an enumerator means and which enumerator is given back for a bit.
    A bitset is the list of its words, as in BitsetModel.  Enumerations have a fixed underlying
    type (the casts back to an enumeration without one are undefined for values that it does
    not have). *)
From Verif Require Import Base BitModel BitsetModel.
Open Scope N_scope.

(** Types of indices: integers and enumerations, with the signedness and bits of the
    (underlying) type; [e] tells enumerations apart. *)
Inductive type :=
| Int (signed : bool) (bits : N)
| Enum (e : nat) (signed : bool) (bits : N).
(** std::is_enum_v and std::is_same_v. *)
Definition is_enum (t : type) : bool := match t with Int _ _ => false | Enum _ _ _ => true end.
Definition is_same (t u : type) : bool :=
  match t, u with
  | Int s b, Int s' b' => eqb s s' && (b =? b')
  | Enum e s b, Enum e' s' b' => (e =? e')%nat && eqb s s' && (b =? b')
  | _, _ => false
  end.
(** static_cast to the type from std::size_t. *)
Definition cast (t : type) (v : Z) : Z :=
  match t with
  | Int s b | Enum _ s b =>
      let m := (v mod 2 ^ Z.of_N b)%Z in
      if s && (2 ^ (Z.of_N b - 1) <=? m)%Z then (m - 2 ^ Z.of_N b)%Z else m
  end.
(** A value of a type. *)
Record index := Index { type_of : type; value : Z }.
(** static_cast<std::size_t>(to_underlying(idx)): bitset.hpp:65, :266, :276, :334, :364. *)
Definition to_size_t (v : Z) : N := Z.to_N (v mod 2 ^ 64).

Section EnumBitset.
Variable pl : platform.
Variable w : N.
Variable same64 : bool.
(** The template argument Size. *)
Variable Size : index.

(** bitset.hpp:65. *)
Definition size : N := to_size_t (value Size).
(** bitset.hpp:141-142: iter_arg_t, and the casts to it (:31, :42, :52, :172, :408, :412). *)
Definition iter_arg (i : N) : Z := if is_enum (type_of Size) then cast (type_of Size) (Z.of_N i) else Z.of_N i.
(** bitset.hpp:144-146. *)
Definition admissible_enum (t : type) : bool := negb (is_enum t) || is_same t (type_of Size).

Inductive call :=
| EDefault (r : N) | EAllBits (r : N) | EPlace (r : N) (xs : list index) | ECopy (d a : N)
| ESet (r : N) (x : index) (v : bool) | EReset (r : N) (x : index) | EFlip (r : N) (x : index) | EGet (r : N) (x : index)
| ESetAll (r : N) | EResetAll (r : N) | EFlipAll (r : N)
| ENot (d a : N) | EOr (d a : N) | EAnd (d a : N) | EXor (d a : N) | EMinus (d a b : N)
| EEq (a b : N) | ECount (r : N) | EEmpty (r : N) | EAll (r : N) | EAny (r : N) | ENone (r : N)
| EEachSet (r : N) | EEachUnset (r : N) | EEachBit (r : N) | ELowestUnset (r : N) | EReduce (r : N).
Inductive result :=
| EUnit | EBool (b : bool) | ENum (v : N) | EValue (v : Z) | EValues (l : list Z) | EPairs (l : list (Z * bool)).

(** The static_asserts of operator[] (bitset.hpp:263-265), set (:273-275), reset (:331-333) and
    flip (:361-363).  The constructor from place_bits (:199-204) accepts every integer and
    every enumeration. *)
Definition compiles (c : call) : bool :=
  match c with
  | ESet _ x _ | EReset _ x | EFlip _ x | EGet _ x => admissible_enum (type_of x)
  | _ => true
  end.

(** The call at the level of positions. *)
Definition lower (c : call) : bop :=
  match c with
  | EDefault r => BDefault r | EAllBits r => BAllBits r
  | EPlace r xs => BPlace r (map (fun x => to_size_t (value x)) xs)
  | ECopy d a => BCopy d a
  | ESet r x v => BSet r (to_size_t (value x)) v
  | EReset r x => BReset r (to_size_t (value x))
  | EFlip r x => BFlip r (to_size_t (value x))
  | EGet r x => BGet r (to_size_t (value x))
  | ESetAll r => BSetAll r | EResetAll r => BResetAll r | EFlipAll r => BFlipAll r
  | ENot d a => BNot d a | EOr d a => BOr d a | EAnd d a => BAnd d a | EXor d a => BXor d a | EMinus d a b => BMinus d a b
  | EEq a b => BEq a b | ECount r => BCount r | EEmpty r => BEmpty r | EAll r => BAll r | EAny r => BAny r | ENone r => BNone r
  | EEachSet r => BEachSet r | EEachUnset r => BEachUnset r | EEachBit r => BEachBit r
  | ELowestUnset r => BLowestUnset r | EReduce r => BReduce r
  end.
(** Positions that are handed to the function, or returned by lowest_unset, are cast. *)
Definition lift (c : call) (o : bout) : result :=
  match o with
  | BUnit => EUnit
  | BBool b => EBool b
  | BNum v => match c with ELowestUnset _ => EValue (iter_arg v) | _ => ENum v end
  | BList l => EValues (map iter_arg l)
  | BPairs l => EPairs (map (fun p => (iter_arg (fst p), snd p)) l)
  end.
(** One call on variables of type bitset<Size, elem_t>. *)
Definition estep (st : list storage) (c : call) : outcome Empty_set (list storage) result :=
  match bstep pl size w same64 st (lower c) with
  | Done st' o ps => Done st' (lift c o) ps
  | Stopped st' p => Stopped st' p
  | Undef => Undef
  end.

(** atomic_bitset<Size, elem_t>: set (atomic_bitset.hpp:124-134), reset (:160-166), flip (:192-198)
    and the constructor from place_bits (:70-74) take any type that converts to std::size_t through
    to_underlying; operator[] (:120-122) asks the bitset that load returns. *)
Inductive atomic_call := ASet (x : index) (v : bool) | AReset (x : index) | AFlip (x : index) | AGet (x : index) | APlace (xs : list index).
Definition atomic_compiles (c : atomic_call) : bool :=
  match c with AGet x => admissible_enum (type_of x) | _ => true end.
End EnumBitset.
