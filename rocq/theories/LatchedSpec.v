(** What a user expects of latched and cached.

    [out i] is the outcome of the i-th call ever made: any sequence of values and throws.
    The specification remembers when the object was last reset (how many calls had been made)
    and how many accesses there were since. *)
From Verif Require Import Base LatchedModel.

Section Spec.
Context {V : Type}.
Variable out : nat -> option V.

(** The first value among the outcomes n, ..., n + a - 1. *)
Fixpoint first_value (n a : nat) : option V :=
  match a with 0 => None | S a' => match out n with Some v => Some v | None => first_value (S n) a' end end.
(** The calls needed for [a] accesses: one each until one succeeds, none after it. *)
Fixpoint needed (n a : nat) : nat :=
  match a with 0 => 0 | S a' => match out n with Some _ => 1 | None => S (needed (S n) a') end end.
Definition answer (o : option V) : result V := match o with Some v => Got v | None => Threw end.
Definition expected_step (o : op) (na : nat * nat) : result V * (nat * nat) :=
  let (n, a) := na in
  match o with
  | Access => (answer (first_value n (S a)), (n, S a))
  | HasValue => (Says (match first_value n a with Some _ => true | None => false end), (n, a))
  | Reset => (Done, (n + needed n a, 0))
  | Refresh => (answer (first_value (n + needed n a) 1), (n + needed n a, 1))
  end.
Fixpoint expected (ops : list op) (na : nat * nat) : list (result V) * (nat * nat) :=
  match ops with
  | [] => ([], na)
  | o :: r => let (x, na1) := expected_step o na in let (xs, na2) := expected r na1 in (x :: xs, na2)
  end.
(** The calls that did not throw among the first [c]. *)
Definition successes (c : nat) : nat := length (List.filter (fun i => match out i with Some _ => true | None => false end) (seq 0 c)).
Definition resets (ops : list op) : nat := length (List.filter (fun o => match o with Reset | Refresh => true | _ => false end) ops).
End Spec.
