(** Expressions that mix rollover_t of several types with numbers (include/stdx/rollover.hpp): which of
    them compile, and their values.  Numbers and their conversions are those of FloatSatModel.

    Simplifications: the operands are values, so the assignments +=, ++, ... are left out (RolloverModel
    has them), and so are classes with conversions of their own; rollover_t<bool> is in RollTypeModel. *)
From Verif Require Import Base Ints FloatSatModel RolloverModel.
Open Scope Z_scope.

(** A type: bool, a number, or the rollover_t of the unsigned type of [w] bits.  [id] tells types of
    the same size apart, as unsigned long and unsigned long long. *)
Inductive ty := Bool | Num (a : arith) (id : nat) | Roll (w : Z) (id : nat).
Inductive op := Add | Sub | Mul | Div | Mod | Equal | NotEqual | Less | LessEq | Greater | GreaterEq | CmpLess.
(** [Const]: a number.  [Var]: a rollover_t.  [Make w id e]: rollover_t<T>{e} or static_cast.
    [As a id e]: static_cast to a number.  [Under e]: e.as_underlying(). *)
Inductive expr :=
| Const (a : arith) (id : nat) (v : val) | Var (w : Z) (id : nat) (n : nat)
| Make (w : Z) (id : nat) (e : expr) | As (a : arith) (id : nat) (e : expr) | Under (e : expr)
| Neg (e : expr) | Bin (o : op) (x y : expr).

(** An expression has a type, or chooses a deleted function, or there is no function to call, or it
    is an operator of the language on two numbers, which is not modelled. *)
Inductive verdict := Is (t : ty) | Deleted | NoMatch | BuiltIn.

(** Implicit conversions: between numbers, and none to or from rollover_t but the copy, since its
    constructors (rollover.hpp:16-20) and its conversion (:25) are explicit. *)
Definition implicit (from to : ty) : bool :=
  match from, to with
  | Roll w i, Roll w' i' => (w =? w') && Nat.eqb i i'
  | Roll _ _, _ | _, Roll _ _ => false
  | _, _ => true
  end.
(** The classes that argument-dependent lookup searches for friends. *)
Definition associated (t : ty) : list ty := match t with Roll _ _ => [t] | _ => [] end.
(** rollover.hpp:68-133: the friends of rollover_t, whose parameters both are of that type. *)
Definition friend (o : op) (c : ty) : verdict :=
  match o with
  | Add | Sub | Mul | Div | Mod => Is c
  | Equal | NotEqual | CmpLess => Is Bool
  | Less | LessEq | Greater | GreaterEq => Deleted
  end.
(** Overload resolution for a binary operator, or for cmp_less. *)
Definition resolve (o : op) (a b : ty) : verdict :=
  match associated a ++ associated b with
  | [] => match o with CmpLess => NoMatch | _ => BuiltIn end
  | cs => match List.find (fun c => implicit a c && implicit b c) cs with
          | Some c => friend o c
          | None => NoMatch
          end
  end.
(** static_cast to a number: from a rollover_t by rollover.hpp:25 only, which gives the underlying type;
    an explicit conversion function is not followed by another conversion. *)
Definition cast_to (a : arith) (id : nat) (from : ty) : bool :=
  match from with
  | Roll w i => match a with I t => negb (signed t) && (width t =? w) && Nat.eqb id i | F _ => false end
  | _ => true
  end.

Fixpoint type_of (e : expr) : verdict :=
  match e with
  | Const a id _ => Is (Num a id)
  | Var w id _ => Is (Roll w id)
  | Make w id e => match type_of e with Is _ => Is (Roll w id) | x => x end   (* :16-20 *)
  | As a id e => match type_of e with Is t => if cast_to a id t then Is (Num a id) else NoMatch | x => x end
  | Under e =>                                                               (* :22-24 *)
      match type_of e with Is (Roll w id) => Is (Num (I (Uint w)) id) | Is _ => NoMatch | x => x end
  | Neg e =>                                                                 (* :30-32 *)
      match type_of e with Is (Roll w id) => Is (Roll w id) | Is _ => BuiltIn | x => x end
  | Bin o x y =>
      match type_of x with
      | Is a => match type_of y with Is b => resolve o a b | v => v end
      | v => v
      end
  end.

(** The type whose conversions a value undergoes. *)
Definition arith_of (t : ty) : arith :=
  match t with Bool => I (Uint 1) | Num a _ => a | Roll w _ => I (Uint w) end.
Definition of_bool (b : bool) : val := VI (if b then 1 else 0).
(** rollover.hpp:68-133, with the definitions of RolloverModel. *)
Definition apply_op (w iw : Z) (o : op) (x y : Z) : option val :=
  match o with
  | Add => option_map VI (r_add w iw x y)
  | Sub => option_map VI (r_sub w iw x y)
  | Mul => option_map VI (r_mul w iw x y)
  | Div => option_map VI (r_div w iw x y)
  | Mod => option_map VI (r_mod w iw x y)
  | Equal => Some (of_bool (r_eq x y))
  | NotEqual => Some (of_bool (negb (r_eq x y)))
  | CmpLess => option_map of_bool (r_cmp_less w iw x y)
  | Less | LessEq | Greater | GreaterEq => None
  end.

(** The value of an expression that compiles; [None]: undefined behaviour. *)
Section Eval.
Context (iw : Z) (env : Z -> nat -> nat -> Z).
Fixpoint eval (e : expr) : option val :=
  match e with
  | Const _ _ v => Some v
  | Var w id n => Some (VI (env w id n))
  | Make w id e =>
      match type_of e with Is t => x <- eval e ;; convert (arith_of t) (I (Uint w)) x | _ => None end
  | As a id e =>
      match type_of e with Is t => x <- eval e ;; convert (arith_of t) a x | _ => None end
  | Under e => eval e
  | Neg e =>
      match type_of e with
      | Is (Roll w _) => match eval e with Some (VI x) => option_map VI (r_neg w iw x) | _ => None end
      | _ => None
      end
  | Bin o x y =>
      match type_of x with
      | Is (Roll w _) =>
          match eval x, eval y with Some (VI a), Some (VI b) => apply_op w iw o a b | _, _ => None end
      | _ => None
      end
  end.
End Eval.
