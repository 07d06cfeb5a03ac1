(** Model of include/stdx/functional.hpp:147-186 (unary_plus and dereference).
    The operators themselves are the language's, OperSpec.apply_oper. *)
From Verif Require Import Base OperSpec.
Open Scope nat_scope.

(** The parameter U && (149, 158, 175, 184), as it is bound to the argument ([dcl.init.ref],
    [temp.deduct.call]): U is an lvalue reference for an lvalue.  A bit-field does not bind to a
    reference to non-const; a copy of its value is made otherwise.  A prvalue becomes an object.
    None if the call does not compile. *)
Definition bind (e : operand) (m : memory) : option (operand * memory) :=
  match bits e, ocat e, oconst e with
  | Some _, Lvalue, false => None
  | Some _, _, _ =>
      match read m (is e) with
      | Some v => Some (mkop (oty e) (oconst e) (ocat e) None (At (length m)), m ++ [v])
      | None => None
      end
  | None, _, _ =>
      match is e with
      | At l => Some (mkop (oty e) (oconst e) (ocat e) None (At l), m)
      | Is v => Some (mkop (oty e) (oconst e) (ocat e) None (At (length m)), m ++ [v])
      end
  end.
(** std::forward<U>(u): an lvalue if U is an lvalue reference, else an xvalue. *)
Definition forward (u : operand) : operand :=
  mkop (oty u) (oconst u) (match ocat u with Lvalue => Lvalue | _ => Xvalue end) None (is u).
(** unary_plus<void> and dereference<void>: functional.hpp:154-162, 180-188.  The result type is that of
    the operator, so a reference stays one and a value stays one. *)
Definition transparent (P : program) (o : oper) (e : operand) (m : memory) : outcome :=
  match bind e m with Some (u, m') => apply_oper P o (forward u) m' | None => NotCompiled end.

(** concepts.hpp:117-119: the types without const and reference are the same ([T] is already without). *)
Fixpoint ty_eqb (a b : ty) : bool :=
  match a, b with
  | Num i, Num j | Opaque i, Opaque j | Fun i, Fun j | Class i, Class j => i =? j
  | Void, Void => true
  | Ptr c s, Ptr d t => Bool.eqb c d && ty_eqb s t
  | Array s n, Array t k => ty_eqb s t && (n =? k)
  | _, _ => false
  end.
(** unary_plus<T> and dereference<T>: functional.hpp:147-152, 173-178. *)
Definition typed (P : program) (o : oper) (T : ty) (e : operand) (m : memory) : outcome :=
  if ty_eqb (oty e) T then
    match bind e m with Some (u, m') => apply_oper P o (forward u) m' | None => NotCompiled end
  else NotCompiled.
