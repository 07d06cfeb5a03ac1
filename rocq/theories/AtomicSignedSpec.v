(** The calls of atomic<T> that return a sum, for a signed T: the integer they return in mathematics. *)
From Verif Require Import Base AtomicModel.
Open Scope N_scope.

(** The integer of a T of [w] bits in two's complement. *)
Definition signed (w v : N) : Z := if v <? 2 ^ (w - 1) then Z.of_N v else (Z.of_N v - Z.of_N (2 ^ w))%Z.
Definition fits (w : N) (x : Z) : Prop := (- Z.of_N (2 ^ (w - 1)) <= x < Z.of_N (2 ^ (w - 1)))%Z.
(** += -= ++x --x on an atomic with the value [m]. *)
Definition sum_of (w m : N) (op : aop) : option Z :=
  match op with
  | AAddEq v => Some (signed w m + signed w v)%Z
  | ASubEq v => Some (signed w m - signed w v)%Z
  | APreInc => Some (signed w m + 1)%Z
  | APreDec => Some (signed w m - 1)%Z
  | _ => None
  end.

(** What a call adds to an atomic that is used as a counter. *)
Definition change (w : N) (op : aop) : option Z :=
  match op with
  | ALoad => Some 0%Z
  | AFetchAdd v | AAddEq v => Some (signed w v)
  | AFetchSub v | ASubEq v => Some (- signed w v)%Z
  | APreInc | APostInc => Some 1%Z
  | APreDec | APostDec => Some (-1)%Z
  | _ => None
  end.
Definition total (f : Z -> Z) (w : N) (ops : list aop) : Z :=
  fold_right (fun op a => match change w op with Some d => (f d + a)%Z | None => a end) 0%Z ops.
(** The sum of all changes, of those up and of those down. *)
Definition net := total (fun d => d).
Definition ups := total (Z.max 0).
Definition downs := total (Z.min 0).
