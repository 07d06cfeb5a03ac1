(** What a user expects of CX_VALUE, CX_WRAP and CT_WRAP. *)
From Coq Require Import List ZArith.
From Verif Require Import WrapModel.
Import ListNotations.

(** The type of an expression; an assignment has that of the variable. *)
Inductive has_type (p : program) : expr -> ty -> Prop :=
| ht_lit t z : has_type p (Lit t z) t
| ht_var i : has_type p (Var i) (var_ty (var_of p i))
| ht_call f es : has_type p (Call f es) (fun_ty (fun_of p f))
| ht_cond c a b t : has_type p a t -> has_type p (Cond c a b) t
| ht_assign i e : has_type p (Assign i e) (var_ty (var_of p i)).
(** The expression was evaluated now, once, and the result is its value. *)
Definition evaluated_now (p : program) (e : expr) (s : state) (r : result) (s' : state) : Prop :=
  exists t z, has_type p e t /\ run p e s = (z, s') /\ r = Value t z.
(** The expression means [z] whenever it is evaluated, and evaluating it does nothing else. *)
Definition always (p : program) (e : expr) (z : Z) : Prop := forall s, run p e s = (z, s).
(** Nothing was evaluated, and the result gives [z] whenever it is called and does nothing. *)
Definition deferred (p : program) (z : Z) (s : state) (r : result) (s' : state) : Prop :=
  s' = s /\ forall t, call p r t = Some (z, t).

(** docs/ct_format.adoc, "Things that are compile-time-friendly": literals, constexpr static
    variables and template arguments, const integral variables; and calls of constexpr
    functions with such arguments. *)
Inductive friendly (p : program) : expr -> Z -> Prop :=
| fr_lit t z : friendly p (Lit t z) z
| fr_static i z : local (var_of p i) = false -> fixed (var_of p i) = Some z -> friendly p (Var i) z
| fr_const i z : var_ty (var_of p i) = Scalar -> fixed (var_of p i) = Some z -> friendly p (Var i) z
| fr_call f es zs z : friendlys p es zs -> pure (fun_of p f) zs = Some z -> friendly p (Call f es) z
with friendlys (p : program) : exprs -> list Z -> Prop :=
| fr_nil : friendlys p Nil []
| fr_cons e es z zs : friendly p e z -> friendlys p es zs -> friendlys p (Cons e es) (z :: zs).

(** A type that is neither a compile-time value already nor empty. *)
Definition plain (t : ty) : Prop := t = Scalar \/ t = Structural \/ t = NonStructural.
(** A type that needs no wrapping: a compile-time value, or one that holds nothing. *)
Definition compile_time (t : ty) : Prop := t = CxValue \/ t = Ct \/ t = Empty.
(** The expression names no local variable. *)
Fixpoint no_locals (p : program) (e : expr) : Prop :=
  match e with
  | Lit _ _ => True
  | Var i => local (var_of p i) = false
  | Call _ es => no_localss p es
  | Cond c a b => no_locals p c /\ no_locals p a /\ no_locals p b
  | Assign i a => local (var_of p i) = false /\ no_locals p a
  end
with no_localss (p : program) (es : exprs) : Prop :=
  match es with Nil => True | Cons e es => no_locals p e /\ no_localss p es end.

(** The expression uses a local variable of the enclosing function as an object: it assigns to one,
    or names one that is not a scalar with a value known at compile time. *)
Inductive uses_local (p : program) : expr -> Prop :=
| ul_var i : local (var_of p i) = true -> ~ (var_ty (var_of p i) = Scalar /\ exists z, fixed (var_of p i) = Some z) -> uses_local p (Var i)
| ul_call f es : use_local p es -> uses_local p (Call f es)
| ul_cond c a b : uses_local p c \/ uses_local p a \/ uses_local p b -> uses_local p (Cond c a b)
| ul_target i a : local (var_of p i) = true -> uses_local p (Assign i a)
| ul_assigned i a : uses_local p a -> uses_local p (Assign i a)
with use_local (p : program) : exprs -> Prop :=
| us_here e es : uses_local p e -> use_local p (Cons e es)
| us_later e es : use_local p es -> use_local p (Cons e es).
(** The expression can be evaluated at compile time without such an object, and gives this value. Of a
    condition only the branch that is taken counts. *)
Inductive constant_value (p : program) : expr -> Z -> Prop :=
| cv_lit t z : constant_value p (Lit t z) z
| cv_var i z : fixed (var_of p i) = Some z -> local (var_of p i) = false \/ var_ty (var_of p i) = Scalar -> constant_value p (Var i) z
| cv_call f es zs z : constant_values p es zs -> pure (fun_of p f) zs = Some z -> constant_value p (Call f es) z
| cv_then c a b k z : constant_value p c k -> k <> 0%Z -> constant_value p a z -> constant_value p (Cond c a b) z
| cv_else c a b z : constant_value p c 0%Z -> constant_value p b z -> constant_value p (Cond c a b) z
with constant_values (p : program) : exprs -> list Z -> Prop :=
| cv_nil : constant_values p Nil []
| cv_cons e es z zs : constant_value p e z -> constant_values p es zs -> constant_values p (Cons e es) (z :: zs).
