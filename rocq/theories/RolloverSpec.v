(** The meaning of an expression in the mathematical integers, for comparison modulo 2^w. *)
From Verif Require Import Base RolloverModel.
Open Scope Z_scope.

Fixpoint z_eval (env : nat -> Z) (e : rexp) : Z :=
  match e with
  | RVar n => env n
  | RLit u => u
  | RNeg e => - z_eval env e
  | RAdd a b => z_eval env a + z_eval env b
  | RSub a b => z_eval env a - z_eval env b
  | RMul a b => z_eval env a * z_eval env b
  end.

Fixpoint mul_free (e : rexp) : bool :=
  match e with
  | RVar _ | RLit _ => true
  | RNeg e => mul_free e
  | RAdd a b | RSub a b => mul_free a && mul_free b
  | RMul _ _ => false
  end.

(** A value of the w-bit underlying type. *)
Definition rv (w a : Z) : Prop := 0 <= a < 2 ^ w.

(** Widths of int for which sums and differences of two promoted values fit: every C++
    platform has w + 2 <= iw for unsigned types narrower than int of at most half its width
    (8- and 16-bit types on a 32-bit int, 8-bit on a 16-bit int). *)
Definition widths_ok (w iw : Z) : Prop := 0 < w /\ (iw <= w \/ w + 2 <= iw).
Definition mul_ok (w iw : Z) : Prop := iw <= w \/ 2 * w + 1 <= iw.

