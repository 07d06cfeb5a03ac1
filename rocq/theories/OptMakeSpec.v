(** std::optional, for comparison: the value is T(args...). *)
From Coq Require Import List NArith ZArith Bool.
From Verif Require Import OptMakeModel.
Import ListNotations.

(** The numbers of an integer type of [w] bits. *)
Definition number_of (w : N) (sg : bool) (z : Z) : Prop :=
  if sg then (- 2 ^ (Z.of_N w - 1) <= z < 2 ^ (Z.of_N w - 1))%Z else (0 <= z < 2 ^ Z.of_N w)%Z.
(** Every value of [s] is one of [t] (and, for floating point, of the same kind). *)
Definition has_values_of (s t : arith) : Prop :=
  match s, t with
  | Int w1 s1, Int w2 s2 => forall z, number_of w1 s1 z -> number_of w2 s2 z
  | Float r1, Float r2 => (r1 <= r2)%N
  | _, _ => False
  end.
(** The arguments fit the parts of the value. *)
Inductive fit {num} : ty -> list (arith * num) -> Prop :=
| fit_none t : fit t []
| fit_arith a s x : has_values_of s a -> fit (Arith a) [(s, x)]
| fit_rec m ms s x xs : has_values_of s m -> fit (Rec ms) xs -> fit (Rec (m :: ms)) ((s, x) :: xs).
(** T(xs...): a number is converted; an aggregate's members are converted one by one, those left over are
    zero; a class like std::vector is made from a count, or from a count and an element. *)
Definition std_in_place {num} (zero : num) (conv : arith -> arith -> num -> num) (to_count : num -> nat) (t : ty) (xs : list (arith * num)) : option value :=
  match t, xs with
  | Arith _, [] => Some (VNum zero)
  | Arith a, [(s, x)] => Some (VNum (conv s a x))
  | Vec _, [] => Some (VList [])
  | Vec _, [(_, n)] => Some (VList (repeat zero (to_count n)))
  | Vec a, [(_, n); (s, x)] => Some (VList (repeat (conv s a x) (to_count n)))
  | Rec ms, _ =>
      if Nat.leb (length xs) (length ms)
      then Some (VRec (map (fun mx => conv (fst (snd mx)) (fst mx) (snd (snd mx))) (combine ms xs) ++ repeat zero (length ms - length xs)))
      else None
  | _, _ => None
  end.
Definition std_from_value {num} (zero : num) conv to_count t x := std_in_place zero conv to_count t [x].
(** Integer types have at least one bit. *)
Definition sized {num} (x : arith * num) : Prop := match fst x with Int w _ => (1 <= w)%N | Float _ => True end.
