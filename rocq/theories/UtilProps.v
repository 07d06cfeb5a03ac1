(** Property theorems for the small utilities: C55 (forward_like), C56 (as_unsigned/as_signed),
    C57 (is_aligned_with), C58 (smallest_uint), C59 (arity). *)
From Verif Require Import Base Ints UtilModel UtilSpec UtilProofs.
Open Scope Z_scope.

(** C55: forward_like<T>(u) has the type std::forward_like<T>(u) has.  Missing: an lvalue
    argument and a T that is neither const nor an lvalue reference (see below). *)
Theorem C55_forward_like_partial : forall T U, is_const T = true \/ ref T = LRef \/ ref U <> LRef ->
  forward_like T U = std_forward_like T U.
Proof. exact forward_like_ok. Qed.
Print Assumptions C55_forward_like_partial.
Example C55_nonvacuous :
  let T := {| is_const := true; is_volatile := false; ref := RRef |} in
  let U := {| is_const := false; is_volatile := false; ref := LRef |} in
  forward_like T U = {| is_const := true; is_volatile := false; ref := RRef |}.
Proof. reflexivity. Qed.
(** In every such case the result is an lvalue where std::forward_like gives an rvalue: nothing
    is moved from. *)
Theorem C55_lvalue_argument_refuted : forall T U, is_const T = false -> ref T <> LRef -> ref U = LRef ->
  ref (forward_like T U) = LRef /\ ref (std_forward_like T U) = RRef.
Proof. exact forward_like_bad. Qed.
Print Assumptions C55_lvalue_argument_refuted.
Example C55_refuted_nonvacuous :
  let T := {| is_const := false; is_volatile := false; ref := RRef |} in
  let U := {| is_const := false; is_volatile := false; ref := LRef |} in
  forward_like T U <> std_forward_like T U.
Proof. discriminate. Qed.

(** C56: as_unsigned and as_signed keep the width and every bit, give a value of the other
    signedness, change nothing if the signedness is already right, and undo each other. *)
Theorem C56_sign_conversions : forall t x, 0 < width t -> in_range t x ->
  exists u s, as_unsigned (IInt t) x = Some (Uint (width t), u) /\ as_signed (IInt t) x = Some (Sint (width t), s) /\
    in_range (Uint (width t)) u /\ in_range (Sint (width t)) s /\
    same_bits (width t) u x /\ same_bits (width t) s x /\
    (signed t = false -> u = x /\ as_unsigned (IInt (Sint (width t))) s = Some (Uint (width t), x)) /\
    (signed t = true -> s = x /\ as_signed (IInt (Uint (width t))) u = Some (Sint (width t), x)).
Proof. exact sign_conversions. Qed.
Print Assumptions C56_sign_conversions.
(** ... and neither takes a bool. *)
Theorem C56_bool_rejected : forall x, as_unsigned IBool x = None /\ as_signed IBool x = None.
Proof. now split. Qed.
Print Assumptions C56_bool_rejected.
Example C56_nonvacuous : in_range (Sint 8) (-3) /\ as_unsigned (IInt (Sint 8)) (-3) = Some (Uint 8, 253) /\
  as_signed (IInt (Uint 8)) 253 = Some (Sint 8, -3).
Proof. repeat split; discriminate. Qed.

(** C57: is_aligned_with<T>(v) is true exactly when alignof(T), a power of two, divides v, for
    every integer v (negative ones and ones wider than a pointer included) and every address. *)
Theorem C57_is_aligned_with : forall pw k v, 0 <= k <= pw -> is_aligned_with pw (2 ^ k) v = true <-> (2 ^ k | v).
Proof. exact aligned_iff. Qed.
Print Assumptions C57_is_aligned_with.
Example C57_nonvacuous : is_aligned_with 64 (2 ^ 2) (-12) = true /\ is_aligned_with 32 (2 ^ 3) (2 ^ 40 + 4) = false.
Proof. split; reflexivity. Qed.

(** C58: smallest_uint_t<N> is the narrowest of the four unsigned types with at least N bits. *)
Theorem C58_smallest_uint : forall n, n <= 64 ->
  In (smallest_uint n) [8; 16; 32; 64] /\ n <= smallest_uint n /\
  (forall w, In w [8; 16; 32; 64] -> n <= w -> smallest_uint n <= w).
Proof. exact smallest_ok. Qed.
Print Assumptions C58_smallest_uint.
(** bit_size<T>() of a type with objects of [sz] bytes: there are as many bit patterns of so many bits as of the bytes. *)
Theorem C58_bit_size : forall sz, 0 <= sz -> 0 <= bit_size sz /\ 2 ^ bit_size sz = 256 ^ sz.
Proof. intros sz H. unfold bit_size. split; [lia|]. change 256 with (2 ^ 8). rewrite <- Z.pow_mul_r by lia. f_equal. lia. Qed.
Print Assumptions C58_bit_size.
Example C58_nonvacuous : smallest_uint 16 = 16 /\ smallest_uint 17 = 32.
Proof. split; reflexivity. Qed.

(** C59: arity_t of a callable with one signature is its number of parameters (defaulted ones
    included); of a generic callable, the least number of arguments it accepts. *)
Theorem C59_arity : forall A (f : callable A) n depth, least_accepted f n -> (n <= depth)%nat ->
  arity depth f = Some (match signature f with Some ps => length ps | None => n end).
Proof. exact @arity_ok. Qed.
Print Assumptions C59_arity.
Example C59_nonvacuous : (* [](auto, auto, auto...) *)
  let f := {| signature := @None (list unit); accepts := Nat.leb 2 |} in
  least_accepted f 2 /\ arity 900 f = Some 2%nat.
Proof. split; [|reflexivity]. split; [reflexivity|]. intros [|[|m]] H; try reflexivity. lia. Qed.
(** A callable that accepts no number of such arguments has no arity, even when it has a
    signature: the search runs anyway and never ends. *)
Theorem C59_no_arity : forall A (f : callable A) depth, (forall n, accepts f n = false) -> arity depth f = None.
Proof. exact @arity_none. Qed.
Print Assumptions C59_no_arity.
Example C59_no_arity_nonvacuous : arity 900 {| signature := Some [tt]; accepts := fun _ => false |} = None.
Proof. reflexivity. Qed.
