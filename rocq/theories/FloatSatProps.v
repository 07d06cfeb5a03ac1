(** Property C76: saturate_cast with floating-point types. *)
From Coq Require Import QArith.
From Verif Require Import Base Ints SaturateModel FloatSatModel FloatSatSpec FloatSatProofs FloatSatProofs2.
Open Scope Z_scope.

(** The model agrees with C09's on integers. *)
Theorem C76_integers :
  forall From To x,
  saturate_cast (I From) (I To) (VI x) = option_map VI (SaturateModel.saturate_cast From To x).
Proof. exact sat_integers. Qed.
Print Assumptions C76_integers.

(** From a floating-point type to a smaller integer type that it represents exactly (double
    to at most 32 bits, float to at most 16, x87 long double to at most 64): every value but
    NaN, infinities included, gives its integer part, clamped to the range of To. *)
Theorem C76_float_to_smaller_integer :
  forall f t x, format f -> 0 < width t -> width t <= prec f -> width t < fsize f -> x <> NaN ->
  saturate_cast (F f) (I t) (VF x) = Some (VI (saturated t x)).
Proof. intros f t x Hf Hw Hp Hs Hx. exact (sat_narrow_int f t Hf Hw x Hp Hs Hx). Qed.
Print Assumptions C76_float_to_smaller_integer.

Example C76_smaller_nonvacuous :
  format binary64 /\
  saturate_cast (F binary64) (I (Sint 32)) (VF (Fin (-5) (-1))) = Some (VI (-2)) /\
  saturate_cast (F binary64) (I (Sint 32)) (VF (Fin 1 100)) = Some (VI 2147483647) /\
  saturate_cast (F binary64) (I (Uint 8)) (VF (Inf true)) = Some (VI 0) /\
  saturate_cast (F binary32) (I (Sint 16)) (VF (Fin (-3) 20)) = Some (VI (-32768)).
Proof. unfold format. cbn [prec emax binary64]. repeat split; try lia; vm_compute; reflexivity. Qed.

(** To an integer type of the same size or wider: correct when the integer part is
    representable in To, and when a value below zero is cast to an unsigned type of the same
    size. *)
Theorem C76_float_to_integer_partial :
  forall f t x, 0 < width t -> fsize f <= width t ->
  ~ overflows t x \/ (signed t = false /\ fsize f = width t /\ below x 0) ->
  saturate_cast (F f) (I t) (VF x) = Some (VI (saturated t x)).
Proof. intros f t x Hw. exact (sat_wide_int_ok f t Hw x). Qed.
Print Assumptions C76_float_to_integer_partial.

Example C76_float_to_integer_nonvacuous :
  ~ overflows (Sint 32) (Fin (-7) (-1)) /\
  saturate_cast (F binary32) (I (Sint 32)) (VF (Fin (-7) (-1))) = Some (VI (-3)) /\
  saturate_cast (F binary32) (I (Uint 32)) (VF (Fin (-7) (-1))) = Some (VI 0).
Proof.
  split; [|split; vm_compute; reflexivity].
  cbn [overflows]. intro H. apply H. unfold in_range. vm_compute. split; discriminate.
Qed.

(** In every other case nothing is clamped: the cast is undefined behaviour. *)
Theorem C76_float_to_integer_refuted :
  forall f t x, fsize f <= width t ->
  overflows t x -> ~ (signed t = false /\ fsize f = width t /\ below x 0) ->
  saturate_cast (F f) (I t) (VF x) = None.
Proof. exact sat_wide_int_ub. Qed.
Print Assumptions C76_float_to_integer_refuted.

Example C76_float_to_integer_refuted_nonvacuous :
  overflows (Sint 32) (Fin 1 31) /\ value binary32 (Fin 1 31) /\
  saturated (Sint 32) (Fin 1 31) = 2147483647 /\
  saturate_cast (F binary32) (I (Sint 32)) (VF (Fin 1 31)) = None.
Proof.
  split; [|split; [|split; vm_compute; reflexivity]].
  - cbn [overflows]. unfold in_range. vm_compute. intros [_ H]. now apply H.
  - cbn. unfold finite_value, emin; cbn. lia.
Qed.

(** Casting NaN to any integer type is undefined behaviour. *)
Theorem C76_nan_to_integer_refuted :
  forall f t, saturate_cast (F f) (I t) (VF NaN) = None.
Proof. exact sat_nan_int. Qed.
Print Assumptions C76_nan_to_integer_refuted.

(** To a smaller floating-point type, a value of at least numeric_limits<To>::min() gives the
    nearest value of To, which beyond max() is max(). *)
Theorem C76_float_to_smaller_float_partial :
  forall f g, format f -> format g -> includes f g -> fsize g < fsize f ->
  (forall m e, (qmin g <= qval m e)%Q ->
    exists r, saturate_cast (F f) (F g) (VF (Fin m e)) = Some (VF r) /\ nearest_float g (qval m e) r) /\
  (exists r, saturate_cast (F f) (F g) (VF (Inf false)) = Some (VF r) /\ is_number r (qmax g)).
Proof.
  intros f g Hf Hg Hi Hs. split.
  - exact (sat_narrow_float f g Hf Hg Hi Hs).
  - exact (sat_narrow_inf f g Hf Hg Hi Hs).
Qed.
Print Assumptions C76_float_to_smaller_float_partial.

Example C76_float_to_smaller_float_nonvacuous :
  format binary64 /\ format binary32 /\ includes binary64 binary32 /\ fsize binary32 < fsize binary64 /\
  (qmin binary32 <= qval 1 0)%Q.
Proof.
  unfold format, includes. cbn [prec emax fsize binary64 binary32].
  repeat split; try lia. vm_compute. discriminate.
Qed.

(** But min() is the smallest positive normal value: zero, every negative number, minus
    infinity and every smaller positive number give it, although zero is nearer to all
    those that are not positive. *)
Theorem C76_float_to_smaller_float_refuted :
  forall f g x, format f -> format g -> includes f g -> fsize g < fsize f -> below x (qmin g) ->
  exists r, saturate_cast (F f) (F g) (VF x) = Some (VF r) /\ is_number r (qmin g) /\
    forall q, (q <= 0)%Q -> ~ nearest_float g q r.
Proof.
  intros f g x Hf Hg Hi Hs Hx.
  destruct (sat_narrow_float_below f g Hf Hg Hi Hs x Hx) as (r & H1 & H2).
  exists r. split; [exact H1|]. split; [exact H2|]. intros q Hq. now apply zero_nearer.
Qed.
Print Assumptions C76_float_to_smaller_float_refuted.

Example C76_float_to_smaller_float_refuted_nonvacuous :
  below (Fin (-1) 0) (qmin binary32) /\
  saturate_cast (F binary64) (F binary32) (VF (Fin (-1) 0)) = Some (VF (Fin 8388608 (-149))).
Proof. split; vm_compute; reflexivity. Qed.

(** To a floating-point type that is not smaller: the same number, infinity or NaN. *)
Theorem C76_float_to_wider_float :
  forall f g x, format f -> format g -> includes g f -> fsize f <= fsize g -> value f x ->
  exists r, saturate_cast (F f) (F g) (VF x) = Some (VF r) /\ value g r /\ same_number r x.
Proof. exact sat_wide_float. Qed.
Print Assumptions C76_float_to_wider_float.

Example C76_float_to_wider_float_nonvacuous :
  includes binary64 binary32 /\ value binary32 (Fin 3 (-149)) /\
  exists r, saturate_cast (F binary32) (F binary64) (VF (Fin 3 (-149))) = Some (VF r) /\
            same_number r (Fin 3 (-149)).
Proof.
  split; [unfold includes; cbn; lia|]. split; [cbn; unfold finite_value, emin; cbn; lia|].
  eexists. split; [vm_compute; reflexivity|]. vm_compute. reflexivity.
Qed.

(** From an integer type to a floating-point type that is not smaller: the nearest value. *)
Theorem C76_integer_to_float :
  forall t f z, format f -> 0 < width t -> width t <= fsize f -> width t < emax f -> in_range t z ->
  exists r, saturate_cast (I t) (F f) (VI z) = Some (VF r) /\ nearest_float f (inject_Z z) r.
Proof. intros t f z Hf Hw. exact (sat_int_float t f Hf Hw z). Qed.
Print Assumptions C76_integer_to_float.

Example C76_integer_to_float_nonvacuous :
  format binary32 /\ in_range (Uint 32) 4294967295 /\
  saturate_cast (I (Uint 32)) (F binary32) (VI 4294967295) = Some (VF (Fin 8388608 9)) /\
  saturate_cast (I (Sint 32)) (F binary32) (VI (-16777217)) = Some (VF (Fin (-8388608) 1)).
Proof.
  unfold format, in_range. cbn [prec emax binary32].
  repeat split; try lia; vm_compute; (reflexivity || discriminate).
Qed.

(** From a wider integer type (int64_t to float): max() does not fit the integer type it is
    converted to, so every call is undefined behaviour. *)
Theorem C76_integer_to_smaller_float_refuted :
  forall t f z, format f -> 0 < width t -> fsize f < width t -> width t < emax f ->
  saturate_cast (I t) (F f) (VI z) = None.
Proof. intros t f z Hf Hw. exact (sat_int_narrow_float_ub t f Hf Hw z). Qed.
Print Assumptions C76_integer_to_smaller_float_refuted.

Example C76_integer_to_smaller_float_refuted_nonvacuous :
  fsize binary32 < width (Sint 64) /\ width (Sint 64) < emax binary32.
Proof. cbn; lia. Qed.

(** If max() does fit (int32_t to a 16-bit float), min() becomes 0 and every negative number
    saturates to zero. *)
Theorem C76_negative_integer_to_half_refuted :
  forall t f z, format f -> 0 < width t -> fsize f < width t -> emax f < width t ->
  in_range t z -> z < 0 ->
  exists r, saturate_cast (I t) (F f) (VI z) = Some (VF r) /\ is_number r 0.
Proof. intros t f z Hf Hw. exact (sat_int_half t f Hf Hw z). Qed.
Print Assumptions C76_negative_integer_to_half_refuted.

Example C76_half_nonvacuous :
  let half := {| fsize := 16; prec := 11; emax := 16 |} in
  format half /\ fsize half < width (Sint 32) /\ emax half < width (Sint 32) /\ in_range (Sint 32) (-5) /\
  finite_value half (-5) 0.
Proof.
  cbn zeta. unfold format, in_range, finite_value. cbn [prec emax fsize width Sint].
  repeat split; try lia; vm_compute; (reflexivity || discriminate).
Qed.
