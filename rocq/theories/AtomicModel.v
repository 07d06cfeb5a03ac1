(** Model of include/stdx/atomic.hpp for integral T.  [w]: bits of T, [sg]: T is signed;
    [ew], [esg]: the same for elem_t = ::atomic::atomic_type_t<T> (at least as big as T,
    :29-31).  Values are bit patterns: numbers below 2^w (two's complement if signed).
    bool, enumerations and pointers are in AtomKindModel, floating point is not modelled; memory
    orders are in RelaxedModel and MultiModel. *)
From Verif Require Import Base BitModel ConcModel.
Open Scope N_scope.

Section Atomic.
Variable int_w : N. (* bits of int *)
Variables w ew : N.
Variables sg esg : bool.

(** static_cast<elem_t>(t): sign-extends if T is signed. *)
Definition to_elem (v : N) : N := if sg && N.testbit v (w - 1) then wrap ew (v + 2 ^ ew - 2 ^ w) else v.
(** Conversion of an elem_t to T. *)
Definition to_t (e : N) : N := wrap w e.

(** The value of a bit pattern of [k] bits. *)
Definition value (k : N) (s : bool) (v : N) : Z :=
  if s && N.testbit v (k - 1) then (Z.of_N v - 2 ^ Z.of_N k)%Z else Z.of_N v.
(** a + b and a - b of two values of a [k]-bit type, before conversion of the result: a
    signed type at least as wide as int overflows with undefined behaviour; a narrower one is
    promoted to int; an unsigned one wraps. *)
Definition overflows (k : N) (s : bool) (x : Z) : bool :=
  s && (int_w <=? k) && ((x <? - 2 ^ (Z.of_N k - 1)) || (2 ^ (Z.of_N k - 1) <=? x))%Z.
Definition plus (k : N) (s : bool) (a b : N) : option N :=
  let x := (value k s a + value k s b)%Z in
  if overflows k s x then None else Some (Z.to_N (x mod 2 ^ Z.of_N k)).
Definition minus (k : N) (s : bool) (a b : N) : option N :=
  let x := (value k s a - value k s b)%Z in
  if overflows k s x then None else Some (Z.to_N (x mod 2 ^ Z.of_N k)).
Definition ret (f : N -> N) (r : option N) : prog (option N) :=
  match r with Some v => Ret (Some (f v)) | None => Bad end.

Inductive aop :=
| ALoad | AStore (v : N) | AAssign (v : N) | AExchange (v : N)
| AFetchAdd (v : N) | AFetchSub (v : N) | AAddEq (v : N) | ASubEq (v : N)
| APreInc | APostInc | APreDec | APostDec
| AFetchAnd (v : N) | AFetchOr (v : N) | AFetchXor (v : N)
| AAndEq (v : N) | AOrEq (v : N) | AXorEq (v : N).

Definition acode (op : aop) : prog (option N) :=
  match op with
  | ALoad (* :52-55, :62 *) => Do PLoad (fun r => Ret (Some (to_t r)))
  | AStore v (* :57-59 *) => Do (PStore (to_elem v)) (fun _ => Ret None)
  | AAssign v (* :64-67 *) => Do (PStore (to_elem v)) (fun _ => Ret (Some v))
  | AExchange v (* :69-72 *) => Do (PExchange (to_elem v)) (fun r => Ret (Some (to_t r)))
  | AFetchAdd v (* :74-77 *) => Do (PAdd (to_elem v)) (fun r => Ret (Some (to_t r)))
  | AFetchSub v (* :78-81 *) => Do (PSub (to_elem v)) (fun r => Ret (Some (to_t r)))
  | AAddEq v (* :83 *) => Do (PAdd (to_elem v)) (fun r => ret to_t (plus w sg (to_t r) v))
  | ASubEq v (* :84 *) => Do (PSub (to_elem v)) (fun r => ret to_t (minus w sg (to_t r) v))
  | APreInc (* :86-89; the sum is at elem_t *) => Do (PAdd 1) (fun r => ret to_t (plus ew esg r 1))
  | APostInc (* :90-93 *) => Do (PAdd 1) (fun r => Ret (Some (to_t r)))
  | APreDec (* :94-97 *) => Do (PSub 1) (fun r => ret to_t (minus ew esg r 1))
  | APostDec (* :98-101 *) => Do (PSub 1) (fun r => Ret (Some (to_t r)))
  | AFetchAnd v (* :103-106 *) => Do (PAnd (to_elem v)) (fun r => Ret (Some (to_t r)))
  | AFetchOr v (* :107-110 *) => Do (POr (to_elem v)) (fun r => Ret (Some (to_t r)))
  | AFetchXor v (* :111-114 *) => Do (PXor (to_elem v)) (fun r => Ret (Some (to_t r)))
  | AAndEq v (* :116 *) => Do (PAnd (to_elem v)) (fun r => Ret (Some (N.land (to_t r) v)))
  | AOrEq v (* :117 *) => Do (POr (to_elem v)) (fun r => Ret (Some (N.lor (to_t r) v)))
  | AXorEq v (* :118 *) => Do (PXor (to_elem v)) (fun r => Ret (Some (N.lxor (to_t r) v)))
  end.

(** :45-48: the word after construction from nothing or from a T. *)
Definition atomic_init (v : option N) : N := match v with None => 0 | Some t => to_elem t end.
End Atomic.
