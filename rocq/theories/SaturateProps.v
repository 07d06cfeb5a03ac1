(** Property C09: saturate_cast. *)
From Verif Require Import Base Ints SaturateModel SaturateSpec SaturateProofs.
Open Scope Z_scope.

(** For every pair of integer types other than the two families refuted below,
    saturate_cast gives the nearest representable value ([nearest To x] clamps x between
    numeric_limits<To>::min() and max()). *)
Theorem C09_saturate_cast_clamps_partial :
  forall From To x, 0 < width From -> 0 < width To -> in_range From x ->
  ~ narrowing_unsigned_to_signed From To -> ~ (widening_signed_to_unsigned From To /\ x < 0) ->
  saturate_cast From To x = Some (nearest To x).
Proof. exact sat_ok. Qed.
Print Assumptions C09_saturate_cast_clamps_partial.

Example C09_nonvacuous :
  in_range (Sint 32) (-70000) /\ ~ narrowing_unsigned_to_signed (Sint 32) (Uint 8) /\
  saturate_cast (Sint 32) (Uint 8) (-70000) = Some 0 /\ saturate_cast (Sint 32) (Sint 16) (-70000) = Some (-32768) /\
  saturate_cast (Uint 16) (Sint 16) 65535 = Some 32767 /\ saturate_cast (Sint 64) (Uint 32) (2 ^ 40) = Some (2 ^ 32 - 1).
Proof.
  unfold in_range, narrowing_unsigned_to_signed; cbn [signed width Uint Sint].
  repeat split; try reflexivity; try (intros (_ & H & _); discriminate H);
  vm_compute; discriminate.
Qed.

(** From a wider unsigned type to a signed type, std::clamp is called with lo > hi:
    undefined behaviour for every input. *)
Theorem C09_unsigned_to_narrower_signed_refuted :
  forall From To x, 0 < width To -> narrowing_unsigned_to_signed From To ->
  saturate_cast From To x = None.
Proof. exact sat_narrow_ub. Qed.
Print Assumptions C09_unsigned_to_narrower_signed_refuted.

Example C09_refuted_nonvacuous : narrowing_unsigned_to_signed (Uint 32) (Sint 8).
Proof. unfold narrowing_unsigned_to_signed; cbn [signed width Uint Sint]. repeat split; lia. Qed.

(** From a narrower signed type to a wider unsigned one, every negative value wraps
    instead of saturating to 0. *)
Theorem C09_negative_to_wider_unsigned_refuted :
  forall From To x, 0 < width From -> in_range From x ->
  widening_signed_to_unsigned From To -> x < 0 ->
  nearest To x = 0 /\ saturate_cast From To x = Some (x + 2 ^ width To) /\ x + 2 ^ width To <> 0.
Proof. exact sat_widen_wraps. Qed.
Print Assumptions C09_negative_to_wider_unsigned_refuted.

Example C09_refuted2_nonvacuous :
  widening_signed_to_unsigned (Sint 8) (Uint 16) /\ in_range (Sint 8) (-1) /\
  saturate_cast (Sint 8) (Uint 16) (-1) = Some 65535.
Proof.
  unfold widening_signed_to_unsigned, in_range; cbn [signed width Uint Sint].
  repeat split; try reflexivity; try lia; vm_compute; discriminate.
Qed.
