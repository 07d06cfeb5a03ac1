(** Types and values the laws of counting_iterator are stated for. *)
From Verif Require Import Base CountingModel.
Open Scope Z_scope.
Definition good_type (iw : Z) (t : ity) : Prop := 0 < bits t /\ 1 < iw.
Definition value (t : ity) (i : Z) : Prop := lo t <= i <= hi t.
(** The integers a, a+1, ..., a+n-1. *)
Definition upto (a : Z) (n : nat) : list Z := map (fun k => a + Z.of_nat k) (seq 0 n).
