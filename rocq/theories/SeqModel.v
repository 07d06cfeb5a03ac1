(** Model of include/stdx/array.hpp, of template_for_each and apply_sequence in
    include/stdx/type_traits.hpp, and of include/stdx/priority.hpp.  [None]: does not compile. *)
From Verif Require Import Base Ints TupleModel.
Open Scope ub_scope.

(** ** Sequences *)
(** std::make_integer_sequence<T, N>: the values 0, ..., N-1 of T; a negative N does not compile. *)
Definition make_integer_sequence (n : Z) : option (list Z) :=
  if (n <? 0)%Z then None else Some (map Z.of_nat (seq 0 (Z.to_nat n))).
(** All of a list, if there is all of it. *)
Fixpoint all_of {X Y} (g : X -> option Y) (l : list X) : option (list Y) :=
  match l with [] => Some [] | x :: r => y <- g x;; ys <- all_of g r;; Some (y :: ys) end.
(** type_traits.hpp:124-145: a comma fold of f<I>(), for types, values and integer sequences alike.
    [f] works on a world. *)
Definition template_for_each {W I R} (f : W -> I -> W * R) (w : W) (l : list I) : W := fst (effects f w l).

Section Array.
Context {W I T R : Type}.
(** T{}, a value of the type of the sequence. *)
Variable zero : I.
(** The type (without const) of f<I>(), or of D<I>::value; none if that does not compile. *)
Variable type_of : I -> option T.
(** The conversion from one type to another in a braced list, if there is one that does not narrow. *)
Variable conv : T -> T -> option (R -> R).
Variable f : W -> I -> W * R.
(** Each element of the array is initialized with f<I>(). *)
Definition init (A : T) (i : I) : option (W -> W * R) :=
  t <- type_of i;; c <- conv t A;; Some (fun w => let (w1, r) := f w i in (w1, c r)).
(** array.hpp:32-36: the array has the type of f<T{}>(); the braced list is evaluated from left to
    right. *)
Definition make_array_fn (w : W) (is : list I) : option (W * (T * list R)) :=
  A <- type_of zero;; ks <- all_of (init A) is;;
  let (w1, rs) := effects (fun w k => k w) w ks in Some (w1, (A, rs)).
End Array.
(** array.hpp:38-41. *)
Definition make_array_n {W T R} (type_of : Z -> option T) (conv : T -> T -> option (R -> R)) (f : W -> Z -> W * R) (w : W) (n : Z) :
  option (W * (T * list R)) :=
  is <- make_integer_sequence n;; make_array_fn 0%Z type_of conv f w is.
(** array.hpp:22-26: the values of a template D<I>; there is nothing to call. *)
Definition make_array_values {I T R} (zero : I) (type_of : I -> option T) (conv : T -> T -> option (R -> R)) (D : I -> R) (is : list I) :
  option (T * list R) :=
  r <- make_array_fn zero type_of conv (fun (_ : unit) i => (tt, D i)) tt is;; Some (snd r).
(** array.hpp:28-30. *)
Definition make_array_values_n {T R} (type_of : Z -> option T) (conv : T -> T -> option (R -> R)) (D : Z -> R) (n : Z) : option (T * list R) :=
  is <- make_integer_sequence n;; make_array_values 0%Z type_of conv D is.

(** ** make_array from integers *)
Section Ints.
Open Scope Z_scope.
(** int has [iw] bits; integer types of the same width and signedness are not told apart. *)
Variable iw : Z.
Definition ity_eqb (s t : ity) : bool := Bool.eqb (signed s) (signed t) && (width s =? width t).
(** Integral promotion and the usual arithmetic conversions. *)
Definition promote (t : ity) : ity := if width t <? iw then Sint iw else t.
Definition usual (s t : ity) : ity :=
  let s := promote s in let t := promote t in
  if Bool.eqb (signed s) (signed t) then (if width s <? width t then t else s)
  else let u := if signed s then t else s in let i := if signed s then s else t in
       if width u <? width i then i else u.
(** std::common_type_t of two types: a type with itself is left alone. *)
Definition common2 (s t : ity) : ity := if ity_eqb s t then s else usual s t.
Definition common (t : ity) (ts : list ity) : ity := List.fold_left common2 ts t.
(** A conversion in a braced list from a value that is not a constant narrows unless the target has
    all the values of the source. *)
Definition widening (s t : ity) : bool := (tmin t <=? tmin s) && (tmax s <=? tmax t).
Definition brace (s t : ity) : option (Z -> Z) := if widening s t then Some (cast t) else None.
(** array.hpp:12-14. *)
Definition make_array_as (D : ity) (xs : list (ity * Z)) : option (list Z) :=
  all_of (fun x => c <- brace (fst x) D;; Some (c (snd x))) xs.
(** array.hpp:14-19. *)
Definition make_array (xs : list (ity * Z)) : option (ity * list Z) :=
  match xs with
  | [] => Some (Sint iw, [])
  | x :: r => let A := common (fst x) (map fst r) in vs <- make_array_as A xs;; Some (A, vs)
  end.
End Ints.

(** ** Overloads by priority *)
(** priority.hpp:7-8: priority_t<N> derives from priority_t<N-1>, ..., priority_t<0>.  An overload
    takes a priority_t<k> and is viable if its other parameters and constraints allow; the argument
    converts to its bases only. *)
Definition viable (N : nat) (o : nat * bool) : bool := (fst o <=? N)%nat && snd o.
(** [over.ics.rank]: the conversion to the more derived class is better; the same class is a tie. *)
Definition better (a b : nat) : bool := (b <? a)%nat.
(** Overload resolution: the viable overload (by position) that is better than every other one. *)
Definition resolve (N : nat) (os : list (nat * bool)) : option nat :=
  let at_ i := nth i os (O, false) in
  let ok i := viable N (at_ i) &&
    forallb (fun j => (i =? j)%nat || negb (viable N (at_ j)) || better (fst (at_ i)) (fst (at_ j))) (seq 0 (length os)) in
  find ok (seq 0 (length os)).
