(** Model of the macros STDX_IS_TYPE, CX_VALUE, CT_WRAP and CX_WRAP of include/stdx/utility.hpp:
    what becomes of the expression or type given to them.

    Expressions are literals, names of variables, calls of functions that take their arguments
    by value, the conditional operator and assignment.  Not modelled: types with qualifiers or
    references, arrays and functions (they decay in [operator+]), objects that cannot be copied,
    types with an operator+ or operator- of their own that takes anything, constant evaluation
    as seen by std::is_constant_evaluated. *)
From Coq Require Import List ZArith Bool.
Import ListNotations.
Open Scope Z_scope.

(** What matters of the type of an expression: a scalar; a class usable as a template argument;
    a class that is not; a class without members; a class with cx_value_t (type_traits.hpp:213-215);
    a std::integral_constant or stdx::type_identity. *)
Inductive ty := Scalar | Structural | NonStructural | Empty | CxValue | Ct.
(** utility.hpp:270-274. *)
Definition is_ct_v (t : ty) : bool := match t with Ct => true | _ => false end.
Definition is_cx_value_v (t : ty) : bool := match t with CxValue => true | _ => false end.
Definition is_empty_v (t : ty) : bool := match t with Empty | Ct => true | _ => false end.
Definition is_structural (t : ty) : bool := match t with NonStructural => false | _ => true end.

Inductive expr :=
| Lit (t : ty) (z : Z)
| Var (i : nat)
| Call (f : nat) (es : exprs)
| Cond (c a b : expr)
| Assign (i : nat) (e : expr)
with exprs := Nil | Cons (e : expr) (es : exprs).

(** A variable: whether it is local to the enclosing function and not static, its type, and its
    value if it is usable in constant expressions (constexpr, or a const integer initialized
    with a constant).  Template arguments are variables that are not local. *)
Record variable := { local : bool; var_ty : ty; fixed : option Z }.
(** A function: the result of a call that is a constant expression, or else what the call does
    to the variables and returns. *)
Record func := { fun_ty : ty; pure : list Z -> option Z; effect : list Z -> (nat -> Z) -> Z * (nat -> Z) }.
Record program := { var_of : nat -> variable; fun_of : nat -> func }.
(** The variables that can change, and the calls made so far that are not constant expressions. *)
Record state := { vars : nat -> Z; calls : list (nat * list Z) }.
Definition put (m : nat -> Z) (i : nat) (z : Z) : nat -> Z := fun j => if Nat.eqb j i then z else m j.

Section Language.
Variable p : program.

Fixpoint type_of (e : expr) : ty :=
  match e with
  | Lit t _ => t
  | Var i => var_ty (var_of p i)
  | Call f _ => fun_ty (fun_of p f)
  | Cond _ a _ => type_of a
  | Assign i _ => var_ty (var_of p i)
  end.

(** The language: evaluation at run time. *)
Fixpoint run (e : expr) (s : state) : Z * state :=
  match e with
  | Lit _ z => (z, s)
  | Var i => (match fixed (var_of p i) with Some z => z | None => vars s i end, s)
  | Call f es =>
      let (zs, s') := runs es s in
      match pure (fun_of p f) zs with
      | Some z => (z, s')
      | None => let (z, m) := effect (fun_of p f) zs (vars s') in
                (z, {| vars := m; calls := calls s' ++ [(f, zs)] |})
      end
  | Cond c a b => let (z, s') := run c s in if Z.eqb z 0 then run b s' else run a s'
  | Assign i a => let (z, s') := run a s in (z, {| vars := put (vars s') i z; calls := calls s' |})
  end
with runs (es : exprs) (s : state) : list Z * state :=
  match es with
  | Nil => ([], s)
  | Cons e es => let (z, s1) := run e s in let (zs, s2) := runs es s1 in (z :: zs, s2)
  end.

(** The language: a [&] closure captures the local variables that are odr-used, that is all but
    scalars usable in constant expressions (reading an object of class type binds a reference
    in its copy constructor). *)
Definition captured (i : nat) : bool :=
  let v := var_of p i in
  local v && negb (match var_ty v, fixed v with Scalar, Some _ => true | _, _ => false end).
Fixpoint captures (e : expr) : list nat :=
  match e with
  | Lit _ _ => []
  | Var i => if captured i then [i] else []
  | Call _ es => capturess es
  | Cond c a b => captures c ++ captures a ++ captures b
  | Assign i a => (if local (var_of p i) then [i] else []) ++ captures a
  end
with capturess (es : exprs) : list nat :=
  match es with Nil => [] | Cons e es => captures e ++ capturess es end.

(** The language: whether the call f() of such a closure, a parameter of the function it occurs
    in, is a constant expression, and its value.  A reference captured by the closure cannot be
    used. *)
Fixpoint constant (e : expr) : option Z :=
  match e with
  | Lit _ z => Some z
  | Var i => if captured i then None else fixed (var_of p i)
  | Call f es => match constants es with Some zs => pure (fun_of p f) zs | None => None end
  | Cond c a b => match constant c with Some z => if Z.eqb z 0 then constant b else constant a | None => None end
  | Assign _ _ => None
  end
with constants (es : exprs) : option (list Z) :=
  match es with
  | Nil => Some []
  | Cons e es => match constant e, constants es with Some z, Some zs => Some (z :: zs) | _, _ => None end
  end.

(** What is given to a macro: the name of a type (a number; the library's own value_marker is
    one of them) or an expression. *)
Inductive arg := Type_ (t : nat) | Expr (e : expr).
Definition value_marker : nat := 0%nat.

(** utility.hpp:317-319, 208-212, 225-226: (X) - type_val{} is the cast of -type_val{} to the
    type X, or calls the binary operator and gives a value_marker. *)
Definition decltype_minus (x : arg) : nat := match x with Type_ t => t | Expr _ => value_marker end.
Definition is_type (t : nat) : bool := negb (Nat.eqb t value_marker).
Definition STDX_IS_TYPE (x : arg) : bool := is_type (decltype_minus x).

(** What a macro gives: stdx::type_identity<t>; a callable with cx_value_t that evaluates the
    expression when called (or makes an object of type value_marker: [Marker]); a
    std::integral_constant; a value of the type of the expression. *)
Inductive result :=
| Identity (t : nat)
| IdentityFn (t : nat)
| Callable (e : expr)
| Marker
| Constant (t : ty) (z : Z)
| Value (t : ty) (z : Z).

(** utility.hpp:323-340.  The lambda has no capture-default: a variable that would have to be
    captured is an error ([None]).  Nothing is evaluated. *)
Definition CX_VALUE (x : arg) (s : state) : option (result * state) :=
  if STDX_IS_TYPE x then match x with Type_ t => Some (IdentityFn t, s) | Expr _ => None end
  else match x with
       | Type_ _ => Some (Marker, s)
       | Expr e => match captures e with [] => Some (Callable e, s) | _ => None end
       end.

(** utility.hpp:376-398, 360-370: [cx_detect] finds out whether f() is a constant expression. *)
Definition CX_WRAP (x : arg) (s : state) : option (result * state) :=
  if STDX_IS_TYPE x then match x with Type_ t => Some (Identity t, s) | Expr _ => None end
  else match x with
       | Type_ _ => Some (Marker, s) (* 382-386: an object of type value_marker, which is empty *)
       | Expr e =>
           if (is_cx_value_v (type_of e) || is_empty_v (type_of e))%bool
           then let (z, s') := run e s in Some (Value (type_of e) z, s')
           else match constant e with
                | Some _ => Some (Callable e, s)
                | None => let (z, s') := run e s in Some (Value (type_of e) z, s')
                end
       end.

(** utility.hpp:344-354, 252-268: stdx::ct<f()>() needs f() to be a constant expression of a
    structural type. *)
Definition ct (e : expr) : option result :=
  match constant e with
  | Some z => if is_structural (type_of e) then Some (Constant (type_of e) z) else None
  | None => None
  end.
(** The closure is an empty class if it captures nothing. *)
Definition closure_is_empty (e : expr) : bool := match captures e with [] => true | _ => false end.
Definition CT_WRAP (x : arg) (s : state) : option (result * state) :=
  match x with
  | Type_ _ => None (* return int; *)
  | Expr e =>
      if is_ct_v (type_of e) then let (z, s') := run e s in Some (Value (type_of e) z, s')
      else if (match ct e with Some _ => true | None => false end || closure_is_empty e)%bool
      then match ct e with Some r => Some (r, s) | None => None end
      else let (z, s') := run e s in Some (Value (type_of e) z, s')
  end.

(** Calling the callable. *)
Definition call (r : result) (s : state) : option (Z * state) :=
  match r with Callable e => Some (run e s) | _ => None end.
End Language.
