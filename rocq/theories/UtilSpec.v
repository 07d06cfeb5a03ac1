(** Specifications for the small utilities. *)
From Verif Require Import Base Ints UtilModel.
Open Scope Z_scope.

(** Two values have the same bit pattern in [w] bits. *)
Definition same_bits (w x y : Z) : Prop := forall i, 0 <= i < w -> Z.testbit x i = Z.testbit y i.

(** std::forward_like as the standard describes it ([forward.like]): the argument's type, made
    const if T is (under its reference), as an lvalue if T is an lvalue reference and as an rvalue
    otherwise; whether the argument itself is an lvalue does not matter. *)
Definition std_forward_like (T U : cvref) : cvref :=
  {| is_const := is_const T || is_const U; is_volatile := is_volatile U;
     ref := match ref T with LRef => LRef | _ => RRef end |}.

(** [n] is the least number of arguments the callable accepts. *)
Definition least_accepted {A} (f : callable A) (n : nat) : Prop :=
  accepts f n = true /\ forall m, (m < n)%nat -> accepts f m = false.
