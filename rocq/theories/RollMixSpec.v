(** What expressions with rollover_t should mean, in the integers. *)
From Verif Require Import Base Ints FloatSatModel RollMixModel.
Open Scope Z_scope.

(** The integer that an expression of +, -, *, unary - and conversions stands for. *)
Inductive stands_for (env : Z -> nat -> nat -> Z) : expr -> Z -> Prop :=
| sf_const t id z : in_range t z -> stands_for env (Const (I t) id (VI z)) z
| sf_var w id n : stands_for env (Var w id n) (env w id n)
| sf_make w id e z : stands_for env e z -> stands_for env (Make w id e) z
| sf_as t id e z : stands_for env e z -> stands_for env (As (I t) id e) z
| sf_under e z : stands_for env e z -> stands_for env (Under e) z
| sf_neg e z : stands_for env e z -> stands_for env (Neg e) (- z)
| sf_add x y a b : stands_for env x a -> stands_for env y b -> stands_for env (Bin Add x y) (a + b)
| sf_sub x y a b : stands_for env x a -> stands_for env y b -> stands_for env (Bin Sub x y) (a - b)
| sf_mul x y a b : stands_for env x a -> stands_for env y b -> stands_for env (Bin Mul x y) (a * b).

(** Something holds of the width of every type in an expression that a value is converted to. *)
Fixpoint widths (P : Z -> Prop) (e : expr) : Prop :=
  match e with
  | Const _ _ _ => True
  | Var w _ _ => P w
  | Make w _ e => P w /\ widths P e
  | As a _ e => (match a with I t => P (width t) | F _ => True end) /\ widths P e
  | Under e | Neg e => widths P e
  | Bin _ x y => widths P x /\ widths P y
  end.

(** An expression multiplies somewhere. *)
Inductive multiplies : expr -> Prop :=
| mu_here x y : multiplies (Bin Mul x y)
| mu_left o x y : multiplies x -> multiplies (Bin o x y)
| mu_right o x y : multiplies y -> multiplies (Bin o x y)
| mu_make w id e : multiplies e -> multiplies (Make w id e)
| mu_as a id e : multiplies e -> multiplies (As a id e)
| mu_under e : multiplies e -> multiplies (Under e)
| mu_neg e : multiplies e -> multiplies (Neg e).

(** Unsigned types of [w] bits that add and subtract without undefined behaviour where int has [iw]
    bits, and those that also multiply without it: of at least int's width, or less than half of it.
    On usual platforms all types are of the first kind, and only uint16_t is not of the second. *)
Definition adds (iw w : Z) : Prop := 0 < w /\ (iw <= w \/ w + 2 <= iw).
Definition multiplies_in (iw w : Z) : Prop := iw <= w \/ 2 * w + 1 <= iw.

(** Congruence modulo 2^w. *)
Definition congruent (w a b : Z) : Prop := exists k, a = b + k * 2 ^ w.

(** What an operator or cmp_less gives for two rollover_t of type [c]; <, <=, > and >= give nothing. *)
Inductive gives : op -> ty -> ty -> Prop :=
| gives_value o c : In o [Add; Sub; Mul; Div; Mod] -> gives o c c
| gives_bool o c : In o [Equal; NotEqual; CmpLess] -> gives o c Bool.

(** A type is a rollover_t. *)
Definition is_rollover (t : ty) : Prop := exists w id, t = Roll w id.
