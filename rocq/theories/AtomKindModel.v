(** Model of include/stdx/atomic.hpp for T other than an integer: bool, enumerations and
    pointers, with elem_t = ::atomic::atomic_type_t<T> either T itself or an integer type chosen
    by the configuration (test/detail/atomic_cfg.hpp does so for all three).  Floating point and
    class types are not modelled. *)
From Verif Require Import Base BitModel ConcModel.
Open Scope N_scope.

Inductive kind := Integer | Boolean | Unscoped | Scoped | Pointer.
(** The operations of the class, all of them member functions of a template: each is checked
    by the compiler when it is used. *)
Inductive member := MDefault | MFromT | MLoad | MStore | MExchange
| MFetchAdd | MFetchSub | MAddEq | MSubEq | MIncDec | MFetchBits | MBitsEq.

Section Compiles.
Variable k : kind.
Variable same : bool. (* elem_t is T *)
(** static_cast<elem_t>(t) and static_cast<T>(e): between an integer and a pointer there is
    none. *)
Definition cast_ok : bool := same || match k with Pointer => false | _ => true end.
(** An elem_t returned as a T: an implicit conversion; none from an integer to an enumeration
    or a pointer. *)
Definition returns_ok : bool := same || match k with Integer | Boolean => true | _ => false end.
(** t + t and t - t, ++t, t & t for a T without overloaded operators. *)
Definition plus_ok : bool := match k with Integer | Boolean | Unscoped => true | _ => false end.
Definition minus_ok : bool := match k with Scoped => false | _ => true end.
Definition inc_ok : bool := match k with Integer | Pointer => true | _ => false end.
Definition bits_ok : bool := match k with Integer | Boolean | Unscoped => true | _ => false end.
(** The type of the sum or of the masked value returned as a T by += and the like: the int of
    a bool or an integer converts, the int of an enumeration and the distance of two pointers
    do not. *)
Definition result_ok : bool := match k with Integer | Boolean => true | _ => false end.
(** Whether a use compiles, as far as this class is concerned: what the primitives of the other
    library accept is left open, so [true] means that nothing here forbids it. *)
Definition compiles (m : member) : bool :=
  match m with
  | MDefault (* 45-47 *) => true
  | MFromT (* 48 *) => cast_ok
  | MLoad (* 52-55, 62 *) => cast_ok
  | MStore (* 57-59, 64-67 *) => cast_ok
  | MExchange (* 69-72 *) => cast_ok && returns_ok
  | MFetchAdd (* 74-77 *) => plus_ok && cast_ok && returns_ok
  | MFetchSub (* 78-81 *) => minus_ok && cast_ok && returns_ok
  | MAddEq (* 83 *) => plus_ok && cast_ok && returns_ok && result_ok
  | MSubEq (* 84 *) => minus_ok && cast_ok && returns_ok && result_ok
  | MIncDec (* 86-101 *) => inc_ok && returns_ok
  | MFetchBits (* 103-114 *) => bits_ok && cast_ok && returns_ok
  | MBitsEq (* 116-118 *) => bits_ok && cast_ok && returns_ok && result_ok
  end.
End Compiles.

(** ** atomic<bool> with an integer of [ew] bits for elem_t *)
Section Bool.
Variable ew : N.
Definition to_elem (b : bool) : N := if b then 1 else 0.
(** Conversion of an integer to bool. *)
Definition to_t (e : N) : bool := negb (e =? 0).
Definition int (b : bool) : Z := if b then 1%Z else 0%Z.
Definition to_bool (x : Z) : bool := negb (x =? 0)%Z.
Inductive bop :=
| BLoad | BStore (b : bool) | BAssign (b : bool) | BExchange (b : bool)
| BFetchAdd (b : bool) | BFetchSub (b : bool) | BAddEq (b : bool) | BSubEq (b : bool)
| BFetchAnd (b : bool) | BFetchOr (b : bool) | BFetchXor (b : bool)
| BAndEq (b : bool) | BOrEq (b : bool) | BXorEq (b : bool).
Definition bcode (op : bop) : prog (option bool) :=
  match op with
  | BLoad (* 52-55, 62 *) => Do PLoad (fun r => Ret (Some (to_t r)))
  | BStore b (* 57-59 *) => Do (PStore (to_elem b)) (fun _ => Ret None)
  | BAssign b (* 64-67 *) => Do (PStore (to_elem b)) (fun _ => Ret (Some b))
  | BExchange b (* 69-72 *) => Do (PExchange (to_elem b)) (fun r => Ret (Some (to_t r)))
  | BFetchAdd b (* 74-77 *) => Do (PAdd (to_elem b)) (fun r => Ret (Some (to_t r)))
  | BFetchSub b (* 78-81 *) => Do (PSub (to_elem b)) (fun r => Ret (Some (to_t r)))
  | BAddEq b (* 83 *) => Do (PAdd (to_elem b)) (fun r => Ret (Some (to_bool (int (to_t r) + int b))))
  | BSubEq b (* 84 *) => Do (PSub (to_elem b)) (fun r => Ret (Some (to_bool (int (to_t r) - int b))))
  | BFetchAnd b (* 103-106 *) => Do (PAnd (to_elem b)) (fun r => Ret (Some (to_t r)))
  | BFetchOr b (* 107-110 *) => Do (POr (to_elem b)) (fun r => Ret (Some (to_t r)))
  | BFetchXor b (* 111-114 *) => Do (PXor (to_elem b)) (fun r => Ret (Some (to_t r)))
  | BAndEq b (* 116 *) => Do (PAnd (to_elem b)) (fun r => Ret (Some (andb (to_t r) b)))
  | BOrEq b (* 117 *) => Do (POr (to_elem b)) (fun r => Ret (Some (orb (to_t r) b)))
  | BXorEq b (* 118 *) => Do (PXor (to_elem b)) (fun r => Ret (Some (xorb (to_t r) b)))
  end.
(** 45-48. *)
Definition binit (b : option bool) : N := match b with None => 0 | Some b => to_elem b end.
End Bool.
