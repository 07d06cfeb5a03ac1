(** Property C14 for bitsets of no bits (<stdx/bitset.hpp>). *)
From Verif Require Import Base BitModel BitSpec BitsetModel ZeroBitsetSpec ZeroBitsetProofs BitsetProps.
Open Scope N_scope.

(** C14: in any number of variables of type bitset<0> every call is the call on the empty set, or undefined
    (naming a bit, for_each, the integer constructor over std::uint64_t words), or does not compile; and no call
    changes anything. *)
Theorem C14_no_bits :
  forall pl w same64 st op, 0 < w -> Forall (fun s => s = []) st -> Forall (fun r => r < len st) (registers op) ->
  bstep pl 0 w same64 st op = match zero_answer w same64 op with Some o => Done st o [] | None => Undef end.
Proof. exact zero_sized. Qed.
Print Assumptions C14_no_bits.

(** The variables start out so. *)
Example C14_no_bits_nonvacuous :
  repeat (make 0 8) 2 = [[]; []] /\ Forall (fun r => r < len (repeat (make 0 8) 2)) (registers (BMinus 0 1 0)) /\
  run (bstep lp64 0 8 false) (repeat (make 0 8) 2)
    [BAllBits 0; BShl 0 9; BShr 1 100; BCount 0; BAll 0; BAny 0; BEq 0 1; BLowestUnset 1; BString 0 [49; 49] 0 5 49; BReduce 0]
  = Done [[]; []] [BUnit; BUnit; BUnit; BNum 0; BBool true; BBool false; BBool true; BNum 0; BUnit; BList []] [].
Proof. split; [reflexivity|]. split; [repeat constructor|reflexivity]. Qed.
