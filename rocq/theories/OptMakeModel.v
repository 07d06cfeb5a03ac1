(** How the constructors of include/stdx/optional.hpp make the value from their arguments, beside how those of
    std::optional do.

    Argument types and the parts of values are arithmetic types.  Numbers and conversions between arithmetic
    types are left open: only which conversions narrow matters here. *)
From Coq Require Import List NArith ZArith Bool.
Import ListNotations.

(** Integer types by width and sign, floating-point types by rank. *)
Inductive arith := Int (w : N) (sg : bool) | Float (r : N).
Definition lowest (w : N) (sg : bool) : Z := if sg then (- 2 ^ (Z.of_N w - 1))%Z else 0%Z.
Definition highest (w : N) (sg : bool) : Z := if sg then (2 ^ (Z.of_N w - 1) - 1)%Z else (2 ^ Z.of_N w - 1)%Z.
(** A conversion of a value that is not a constant narrows: [dcl.init.list] 7. *)
Definition narrows (s t : arith) : bool :=
  match s, t with
  | Int w1 s1, Int w2 s2 => negb ((lowest w2 s2 <=? lowest w1 s1)%Z && (highest w1 s1 <=? highest w2 s2)%Z)
  | Float r1, Float r2 => (r2 <? r1)%N
  | Int _ _, Float _ | Float _, Int _ _ => true
  end.

(** Value types: arithmetic; a class like std::vector, that is made from a list of [a], from a count, or from a
    count and an element; an aggregate with these members. *)
Inductive ty := Arith (a : arith) | Vec (a : arith) | Rec (ms : list arith).

Section Make.
Context {num : Type}.
Variable zero : num.
(** The conversion from one arithmetic type to another; a number as a count. *)
Variable conv : arith -> arith -> num -> num.
Variable to_count : num -> nat.
Inductive value := VNum (x : num) | VList (l : list num) | VRec (l : list num).

Definition arg := (arith * num)%type.
Definition brace (a : arith) (x : arg) : option num := if narrows (fst x) a then None else Some (conv (fst x) a (snd x)).
Fixpoint brace_list (a : arith) (xs : list arg) : option (list num) :=
  match xs with
  | [] => Some []
  | x :: xs' => match brace a x, brace_list a xs' with Some y, Some ys => Some (y :: ys) | _, _ => None end
  end.
Fixpoint brace_members (ms : list arith) (xs : list arg) : option (list num) :=
  match ms, xs with
  | ms, [] => Some (map (fun _ => zero) ms)
  | [], _ :: _ => None
  | m :: ms', x :: xs' => match brace m x, brace_members ms' xs' with Some y, Some ys => Some (y :: ys) | _, _ => None end
  end.
(** T{xs...}. *)
Definition braces (t : ty) (xs : list arg) : option value :=
  match t with
  | Arith a => match xs with [] => Some (VNum zero) | [x] => option_map VNum (brace a x) | _ => None end
  | Vec a => option_map VList (brace_list a xs)
  | Rec ms => option_map VRec (brace_members ms xs)
  end.
Fixpoint paren_members (ms : list arith) (xs : list arg) : option (list num) :=
  match ms, xs with
  | ms, [] => Some (map (fun _ => zero) ms)
  | [], _ :: _ => None
  | m :: ms', x :: xs' => option_map (cons (conv (fst x) m (snd x))) (paren_members ms' xs')
  end.
(** T(xs...), as in std::optional and is_constructible_v. *)
Definition parens (t : ty) (xs : list arg) : option value :=
  match t with
  | Arith a => match xs with [] => Some (VNum zero) | [x] => Some (VNum (conv (fst x) a (snd x))) | _ => None end
  | Vec a =>
      match xs with
      | [] => Some (VList [])
      | [n] => Some (VList (repeat zero (to_count (snd n))))
      | [n; x] => Some (VList (repeat (conv (fst x) a (snd x)) (to_count (snd n))))
      | _ => None
      end
  | Rec ms => option_map VRec (paren_members ms xs)
  end.

(** optional(std::in_place, args...): optional.hpp:107-109. *)
Definition in_place (t : ty) (xs : list arg) : option value := braces t xs.
(** optional(u), for an argument of another type: optional.hpp:111-115.  The requirement is tested first; if it holds and
    the initialization is not possible, that is an error all the same. *)
Definition from_value (t : ty) (x : arg) : option value :=
  match parens t [x] with Some _ => braces t [x] | None => None end.
End Make.
