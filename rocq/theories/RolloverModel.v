(** Model of stdx::rollover_t (include/stdx/rollover.hpp). [w] is the width of the
    underlying unsigned type, [iw] the width of int; values are in [0, 2^w).
    The underlying type bool is in RollTypeModel.v. *)
From Verif Require Import Base Ints.
Open Scope Z_scope.

Section Rollover.
Context (w iw : Z).

(** rollover.hpp:16-20: construction from any integer or any other rollover_t. *)
Definition r_make (u : Z) : Z := cast (Uint w) u.

(** rollover.hpp:30-32: [static_cast<underlying_t>(-value)]. *)
Definition r_neg (a : Z) : option Z := promoted w iw (- a).
(** rollover.hpp:34-44: ++value / value++ : the new value and the value returned. *)
Definition r_preinc (a : Z) : option (Z * Z) := option_map (fun v => (v, v)) (promoted w iw (a + 1)).
Definition r_postinc (a : Z) : option (Z * Z) := option_map (fun v => (v, a)) (promoted w iw (a + 1)).
Definition r_predec (a : Z) : option (Z * Z) := option_map (fun v => (v, v)) (promoted w iw (a - 1)).
Definition r_postdec (a : Z) : option (Z * Z) := option_map (fun v => (v, a)) (promoted w iw (a - 1)).
(** rollover.hpp:46-65 and the binary operators :104-133 that call them. *)
Definition r_add (a b : Z) : option Z := promoted w iw (a + b).
Definition r_sub (a b : Z) : option Z := promoted w iw (a - b).
Definition r_mul (a b : Z) : option Z := promoted w iw (a * b).
Definition r_div (a b : Z) : option Z := if b =? 0 then None else promoted w iw (a / b).
Definition r_mod (a b : Z) : option Z := if b =? 0 then None else promoted w iw (a mod b).
(** rollover.hpp:68-75. *)
Definition r_eq (a b : Z) : bool := a =? b.
(** rollover.hpp:98-102. [lhs.value - rhs.value] is computed in int or in the unsigned
    type and then cast: [promoted]; mid = (2^w - 1) / 2. *)
Definition r_cmp_less (a b : Z) : option bool :=
  let mid := (2 ^ w - 1) / 2 in
  option_map (fun d => mid <? d) (promoted w iw (a - b)).

(** An expression over rollover_t values and operators, as a user would write it. *)
Inductive rexp :=
| RVar (n : nat) | RLit (u : Z) | RNeg (e : rexp)
| RAdd (a b : rexp) | RSub (a b : rexp) | RMul (a b : rexp).

Definition bind {A B} (o : option A) (f : A -> option B) : option B :=
  match o with Some a => f a | None => None end.

Fixpoint r_eval (env : nat -> Z) (e : rexp) : option Z :=
  match e with
  | RVar n => Some (env n)
  | RLit u => Some (r_make u)
  | RNeg e => bind (r_eval env e) r_neg
  | RAdd a b => bind (r_eval env a) (fun x => bind (r_eval env b) (r_add x))
  | RSub a b => bind (r_eval env a) (fun x => bind (r_eval env b) (r_sub x))
  | RMul a b => bind (r_eval env a) (fun x => bind (r_eval env b) (r_mul x))
  end.
End Rollover.
