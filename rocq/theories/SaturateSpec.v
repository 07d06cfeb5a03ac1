(** What saturate_cast should return, and the two families of type pairs for which the code
    does not. *)
From Verif Require Import Base Ints.
Open Scope Z_scope.

(** The nearest representable value. *)
Definition nearest (To : ity) (x : Z) : Z := Z.max (tmin To) (Z.min x (tmax To)).

Definition narrowing_unsigned_to_signed From To : Prop :=
  width To < width From /\ signed From = false /\ signed To = true.
Definition widening_signed_to_unsigned From To : Prop :=
  width From < width To /\ signed From = true /\ signed To = false.

