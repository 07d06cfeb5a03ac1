(** What a user expects of bitset<0>. *)
From Verif Require Import Base BitModel BitsetModel.
Open Scope N_scope.

(** A bitset of no bits.  The variables a call names, and what it answers: [None] where the call names a bit, or
    goes through the bits with for_each, or asks for a type that is too narrow. *)
Definition registers (op : bop) : list N :=
  match op with
  | BDefault r | BFromU64 r _ | BPlace r _ | BAllBits r | BString r _ _ _ _ | BSet r _ _ | BSetRange r _ _ _
  | BSetLen r _ _ _ | BSetAll r | BReset r _ | BResetAll r | BFlip r _ | BFlipAll r | BShl r _ | BShr r _
  | BGet r _ | BCount r | BEmpty r | BAll r | BAny r | BNone r | BTo r _ _ | BEachSet r | BEachUnset r
  | BEachBit r | BLowestUnset r | BReduce r => [r]
  | BCopy d a | BNot d a | BOr d a | BAnd d a | BXor d a | BEq d a => [d; a]
  | BMinus d a b => [d; a; b]
  end.
Definition zero_answer (w : N) (same64 : bool) (op : bop) : option bout :=
  match op with
  | BDefault _ | BAllBits _ | BCopy _ _ | BSetAll _ | BResetAll _ | BFlipAll _ | BNot _ _ | BOr _ _ | BAnd _ _
  | BXor _ _ | BMinus _ _ _ | BShl _ _ | BShr _ _ => Some BUnit
  | BFromU64 _ _ => if same64 then None else Some BUnit
  | BPlace _ ps => match ps with [] => Some BUnit | _ => None end
  | BString _ str pos _ _ => if pos <=? len str then Some BUnit else None
  | BCount _ | BLowestUnset _ => Some (BNum 0)
  | BEmpty _ | BNone _ | BAll _ | BEq _ _ => Some (BBool true)
  | BAny _ => Some (BBool false)
  | BTo _ same uw => if same || (w <=? uw) then Some (BNum 0) else None
  | BReduce _ => Some (BList [])
  | BSet _ _ _ | BSetRange _ _ _ _ | BSetLen _ _ _ _ | BReset _ _ | BFlip _ _ | BGet _ _
  | BEachSet _ | BEachUnset _ | BEachBit _ => None
  end.
