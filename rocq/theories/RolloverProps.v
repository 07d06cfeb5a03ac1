(** Properties C07 and C08: rollover_t. *)
From Verif Require Import Base Ints RolloverModel RolloverSpec RolloverProofs.
Open Scope Z_scope.

(** [rv w a]: a is a value of the w-bit underlying type.  [widths_ok w iw]: w-bit operands
    are either not promoted or leave room in int for sums (8/16-bit types on 32-bit int,
    8-bit on 16-bit int, and 32/64-bit types everywhere).  Each operator yields the
    mathematical result modulo 2^w, with no undefined behaviour. *)
Theorem C07_rollover_operators_mod_2w :
  forall w iw a b u, widths_ok w iw -> rv w a -> rv w b ->
  r_make w u = u mod 2 ^ w /\
  r_neg w iw a = Some ((- a) mod 2 ^ w) /\
  r_preinc w iw a = Some ((a + 1) mod 2 ^ w, (a + 1) mod 2 ^ w) /\
  r_postinc w iw a = Some ((a + 1) mod 2 ^ w, a) /\
  r_predec w iw a = Some ((a - 1) mod 2 ^ w, (a - 1) mod 2 ^ w) /\
  r_postdec w iw a = Some ((a - 1) mod 2 ^ w, a) /\
  r_add w iw a b = Some ((a + b) mod 2 ^ w) /\
  r_sub w iw a b = Some ((a - b) mod 2 ^ w) /\
  (mul_ok w iw -> r_mul w iw a b = Some ((a * b) mod 2 ^ w)) /\
  (b <> 0 -> r_div w iw a b = Some (a / b) /\ r_mod w iw a b = Some (a mod b)).
Proof. exact rollover_ops. Qed.
Print Assumptions C07_rollover_operators_mod_2w.

Example C07_nonvacuous :
  widths_ok 8 32 /\ widths_ok 16 32 /\ widths_ok 32 32 /\ widths_ok 64 32 /\
  mul_ok 8 32 /\ mul_ok 32 32 /\ mul_ok 64 32 /\ rv 8 200 /\ r_add 8 32 200 100 = Some 44.
Proof. unfold widths_ok, mul_ok, rv. repeat split; try lia; reflexivity. Qed.

(** == and != compare residues: two rollover_t values made from any integers are equal exactly
    when the integers are congruent modulo 2^w. *)
Theorem C07_rollover_equality_is_congruence :
  forall w u v, 0 < w ->
  (r_eq (r_make w u) (r_make w v) = true <-> exists k, u - v = k * 2 ^ w).
Proof. exact r_eq_congruence. Qed.
Print Assumptions C07_rollover_equality_is_congruence.

Example C07_equality_nonvacuous :
  r_eq (r_make 8 300) (r_make 8 44) = true /\ r_eq (r_make 8 300) (r_make 8 45) = false.
Proof. split; reflexivity. Qed.

(** Whole expressions: any expression over +, -, *, unary minus and literals evaluates to
    its integer value modulo 2^w. *)
Theorem C07_rollover_expressions_mod_2w :
  forall w iw env e, widths_ok w iw -> (forall n, rv w (env n)) ->
  (mul_ok w iw \/ mul_free e = true) ->
  r_eval w iw env e = Some (z_eval env e mod 2 ^ w).
Proof. exact r_eval_ok. Qed.
Print Assumptions C07_rollover_expressions_mod_2w.

Example C07_expressions_nonvacuous :
  r_eval 8 32 (fun n => 250) (RMul (RAdd (RVar 0) (RLit 10)) (RNeg (RVar 1)))
  = Some ((260 * -250) mod 256).
Proof. reflexivity. Qed.

(** Exactly when multiplication is undefined: when operands are promoted and the product
    exceeds INT_MAX. *)
Theorem C07_rollover_multiply_undefined_iff :
  forall w iw a b, 0 < w -> w < iw -> rv w a -> rv w b ->
  (r_mul w iw a b = None <-> 2 ^ (iw - 1) - 1 < a * b).
Proof. exact r_mul_ub. Qed.
Print Assumptions C07_rollover_multiply_undefined_iff.

(** So "multiplication is modular for every unsigned type" is false: a 16-bit rollover_t on
    a platform with 32-bit int overflows int. *)
Theorem C07_rollover_u16_multiply_refuted :
  exists a b, rv 16 a /\ rv 16 b /\ r_mul 16 32 a b = None.
Proof. exists 65535, 65535. unfold rv. repeat split; try lia; reflexivity. Qed.
Print Assumptions C07_rollover_u16_multiply_refuted.

(** a is less than b exactly when a lies 1 to 2^(w-1) steps before b on the cycle (half of
    the cycle). *)
Theorem C08_cmp_less_is_half_cycle_before :
  forall w iw a b, widths_ok w iw -> rv w a -> rv w b ->
  exists r, r_cmp_less w iw a b = Some r /\
  (r = true <-> exists k, 1 <= k <= 2 ^ (w - 1) /\ a = (b - k) mod 2 ^ w).
Proof. exact cmp_steps. Qed.
Print Assumptions C08_cmp_less_is_half_cycle_before.

(** On values within half the bit range of a common starting point cmp_less is the order
    of the offsets: hence a strict total order there. *)
Theorem C08_cmp_less_orders_half_windows :
  forall w iw c x y, widths_ok w iw ->
  0 <= x < 2 ^ (w - 1) -> 0 <= y < 2 ^ (w - 1) ->
  r_cmp_less w iw (r_make w (c + x)) (r_make w (c + y)) = Some (x <? y).
Proof. exact cmp_window. Qed.
Print Assumptions C08_cmp_less_orders_half_windows.

Theorem C08_cmp_less_shift_invariant :
  forall w iw a b c, widths_ok w iw -> rv w a -> rv w b ->
  r_cmp_less w iw (r_make w (a + c)) (r_make w (b + c)) = r_cmp_less w iw a b.
Proof. exact cmp_shift. Qed.
Print Assumptions C08_cmp_less_shift_invariant.

(** Neither is less iff equal; both are less iff they are diametrically opposite. *)
Theorem C08_cmp_less_trichotomy_except_opposite :
  forall w iw a b, widths_ok w iw -> rv w a -> rv w b -> 
  exists r1 r2, r_cmp_less w iw a b = Some r1 /\ r_cmp_less w iw b a = Some r2 /\
    (r1 = false /\ r2 = false <-> a = b) /\
    (r1 = true /\ r2 = true <-> (a - b) mod 2 ^ w = 2 ^ (w - 1)).
Proof. exact cmp_both. Qed.
Print Assumptions C08_cmp_less_trichotomy_except_opposite.

Example C08_nonvacuous :
  r_cmp_less 8 32 250 3 = Some true /\ r_cmp_less 8 32 3 250 = Some false /\
  r_make 8 (250 + 9) = 3 /\ 0 <= 9 < 2 ^ (8 - 1) /\
  r_cmp_less 8 32 0 128 = Some true /\ r_cmp_less 8 32 128 0 = Some true.
Proof. repeat split; try reflexivity; lia. Qed.
