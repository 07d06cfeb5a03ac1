(** Overload resolution for [o = x] and [optional<T> o = x] in include/stdx/optional.hpp.

    [T] is known by what the constraints ask about it. *)
From Verif Require Import Base.

Section Assign.
Context {V : Type}.

(** is_scalar_v<T>; whether T{} is well-formed, and its value; the tombstone. *)
Record target := Target { scalar : bool; from_braces : bool; zero : V; tombstone : V }.
(** The right-hand side: std::nullopt; {}; an optional<T> that holds [v]; or an expression of another
    type [U], of which is asked: is_same_v<decay_t<U>, T>, is_constructible_v<T, U>,
    is_assignable_v<T &, U>, is_convertible_v<U, T>, and the value it gives.  (U does not convert to
    nullopt_t or to optional<T> by itself.) *)
Inductive operand := Nullopt | Braces | Optional (v : V) | Other (same constructible assignable convertible : bool) (v : V).

(** A candidate: the rank of the conversion of the argument if there is one (0: exact match, 1: user-defined
    conversion), whether it is a template, and what it does.  The better rank wins; then a function that
    is not a template. *)
Record candidate (E : Type) := Candidate { rank : option nat; template : bool; effect : E }.
Arguments Candidate {E} _ _ _.
Arguments rank {E} _.
Arguments template {E} _.
Arguments effect {E} _.
Definition better {E} (a b : candidate E) : bool :=
  match rank a, rank b with
  | Some i, Some j => (i <? j) || ((i =? j) && negb (template a) && template b)
  | Some _, None => true
  | _, _ => false
  end.
Definition resolve {E} (cs : list (candidate E)) : option E :=
  match List.filter (fun c => match rank c with Some _ => true | None => false end) cs with
  | [] => None
  | vs => match List.filter (fun c => List.forallb (fun d => negb (better d c)) vs) vs with [c] => Some (effect c) | _ => None end
  end.

(** The three assignment operators: from nullopt_t (optional.hpp:117-120; {} does not convert to
    nullopt_t), the template (122-131; for {} the default U = T), and the implicit copy and move
    assignments, one candidate (the one that fits the value category is better).  An argument of
    another type does not convert to optional<T>: its constructors are explicit. *)
Definition candidates (t : target) (x : operand) : list (candidate V) :=
  let requires_ (same constructible assignable : bool) := constructible && assignable && (scalar t || negb same) in
  [Candidate (match x with Nullopt => Some 0 | _ => None end) false (tombstone t);
   Candidate (match x with
              | Nullopt | Optional _ => None
              | Braces => if requires_ true true true && from_braces t then Some (if scalar t then 0 else 1) else None
              | Other same constructible assignable _ _ => if requires_ same constructible assignable then Some 0 else None
              end) true (match x with Other _ _ _ _ v => v | _ => zero t end);
   Candidate (match x with Optional _ => Some 0 | Braces => Some 1 | _ => None end) false (match x with Optional v => v | _ => tombstone t end)].
(** What [val] is after [o = x]; [None] if it does not compile. *)
Definition assign (t : target) (x : operand) : option V := resolve (candidates t x).
(** optional<T> o = x: optional.hpp:104-115; all constructors with parameters are explicit, so that only
    the default, copy and move constructors are left. *)
Definition copy_initialize (t : target) (x : operand) : option V :=
  match x with Optional v => Some v | Braces => Some (tombstone t) | _ => None end.
End Assign.
Arguments target : clear implicits.
Arguments operand : clear implicits.
Arguments Candidate {E} _ _ _.
