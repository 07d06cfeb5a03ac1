(** What a user expects of atomic<T>: one integer modulo 2^w, each call indivisible. *)
From Verif Require Import Base ConcModel ConcSpec AtomicModel.
Open Scope N_scope.

(** Arguments are values of T. *)
Definition argument (op : aop) : N :=
  match op with
  | AStore v | AAssign v | AExchange v | AFetchAdd v | AFetchSub v | AAddEq v | ASubEq v
  | AFetchAnd v | AFetchOr v | AFetchXor v | AAndEq v | AOrEq v | AXorEq v => v
  | _ => 0
  end.
(** The calls that return a sum computed after the atomic step. *)
Definition returns_sum (op : aop) : bool :=
  match op with AAddEq _ | ASubEq _ | APreInc | APreDec => true | _ => false end.

(** The arguments are values of T, and the sums returned by += -= ++ and -- are not computed
    in a signed type as wide as int. *)
Definition call_ok (int_w w ew : N) (sg esg : bool) (op : aop) : Prop :=
  argument op < 2 ^ w /\
  (returns_sum op = true -> (sg = false \/ w < int_w) /\ (esg = false \/ ew < int_w)).
(** The word holds the value [m]. *)
Definition word_holds (w ew mem m : N) : Prop := mem < 2 ^ ew /\ m = mem mod 2 ^ w.

(** Value stored and value returned, from the old value. *)
Definition aeffect (w : N) (m : N) (op : aop) : N * option N :=
  let add a b := (a + b) mod 2 ^ w in
  let sub a b := (a + (2 ^ w - b)) mod 2 ^ w in
  match op with
  | ALoad => (m, Some m)
  | AStore v => (v, None)
  | AAssign v => (v, Some v)
  | AExchange v => (v, Some m)
  | AFetchAdd v => (add m v, Some m)
  | AFetchSub v => (sub m v, Some m)
  | AFetchAnd v => (N.land m v, Some m)
  | AFetchOr v => (N.lor m v, Some m)
  | AFetchXor v => (N.lxor m v, Some m)
  | AAddEq v => (add m v, Some (add m v))
  | ASubEq v => (sub m v, Some (sub m v))
  | AAndEq v => (N.land m v, Some (N.land m v))
  | AOrEq v => (N.lor m v, Some (N.lor m v))
  | AXorEq v => (N.lxor m v, Some (N.lxor m v))
  | APreInc => (add m 1, Some (add m 1))
  | APostInc => (add m 1, Some m)
  | APreDec => (sub m 1, Some (sub m 1))
  | APostDec => (sub m 1, Some m)
  end.
Definition aspec (w : N) (m : N) (op : aop) (o : option N) (m' : N) : Prop := (m', o) = aeffect w m op.

(** The amount a call adds, for the additive calls. *)
Definition delta (op : aop) : option Z :=
  match op with
  | ALoad => Some 0%Z
  | AFetchAdd v | AAddEq v => Some (Z.of_N v)
  | AFetchSub v | ASubEq v => Some (- Z.of_N v)%Z
  | APreInc | APostInc => Some 1%Z
  | APreDec | APostDec => Some (-1)%Z
  | _ => None
  end.
Definition total_delta (ops : list aop) : Z :=
  fold_right (fun op a => match delta op with Some d => (d + a)%Z | None => a end) 0%Z ops.
