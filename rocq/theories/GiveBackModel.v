(** Model of what the for_each algorithms return: include/stdx/tuple.hpp, tuple_algorithms.hpp,
    bitset.hpp and algorithm.hpp.

    The function given to them is an object with contents [V], which its calls change (or a plain
    function).  [None]: does not compile. *)
From Verif Require Import Base.
Open Scope ub_scope.

(** What the type of the function object allows: initializing another object from an lvalue or a
    const rvalue, and from an rvalue. *)
Record traits := Traits { copies : bool; moves : bool }.
(** The argument: an object of such a type, or a function. *)
Inductive kind := Object (t : traits) | Function.
Inductive category := Lvalue | ConstLvalue | Rvalue | ConstRvalue.

(** Contents of an object: a value, or what a move leaves behind. *)
Inductive cell (V : Type) := Value (v : V) | Gone.
Arguments Value {V}. Arguments Gone {V}.
(** What the caller gets: a reference to the object it passed, a new object ([left]: what is then in
    the object passed), or a reference to an object that is no longer there. *)
Inductive result (V : Type) := Same | New (got left : cell V) | Dangling.
Arguments Same {V}. Arguments New {V}. Arguments Dangling {V}.

(** The type deduced for [Op] in [Op &&op]. *)
Inductive deduced := Reference (const : bool) | NonReference (const : bool).
Definition deduce (c : category) : deduced :=
  match c with
  | Lvalue => Reference false
  | ConstLvalue => Reference true
  | Rvalue => NonReference false
  | ConstRvalue => NonReference true
  end.

Section GiveBack.
Context {V : Type}.
(** Initializing an object of type [t] from an object with contents [x]: what the new one holds, and
    what is left. *)
Definition copy (t : traits) (x : cell V) : option (cell V * cell V) := if copies t then Some (x, x) else None.
Definition move (t : traits) (x : cell V) : option (cell V * cell V) := if moves t then Some (x, Gone) else None.

(** All the calls: they are made on one object. *)
Variable calls : V -> V.
Definition called (x : cell V) : cell V := match x with Value v => Value (calls v) | Gone => Gone end.

(** tuple.hpp:516-522, for one tuple: [return op] in the lambda, whose return type is deduced, copies
    the captured op (a function becomes a pointer); the result has type [Op]. *)
Definition for_each_one (k : kind) (c : category) (x : cell V) : option (result V) :=
  let x' := called x in
  match k with
  | Function => match deduce c with
                | Reference _ => None                       (* function reference = pointer *)
                | NonReference _ => Some (New x' x')
                end
  | Object t =>
      r <- copy t x';;
      match deduce c with
      | NonReference _ => Some (New (fst r) (snd r))
      | Reference true => Some Dangling                     (* reference to the temporary *)
      | Reference false => None                             (* F & = F{...} *)
      end
  end.
(** tuple_algorithms.hpp:202-225, 227-256: detail::unrolled_for_each and unrolled_enumerate return
    their parameter op as an [Op]; an rvalue reference parameter is moved from [class.copy.elision]. *)
Definition unrolled_for_each (k : kind) (c : category) (x : cell V) : option (result V) :=
  let x' := called x in
  match deduce c, k with
  | Reference _, _ => Some Same
  | NonReference false, Object t => r <- move t x';; Some (New (fst r) (snd r))
  | NonReference true, Object t => r <- copy t x';; Some (New (fst r) (snd r))
  | NonReference _, Function => Some (New x' x')
  end.
(** Overload resolution between the two: the one of tuple.hpp takes exactly one stdx::tuple, and is
    more specialized than that of tuple_algorithms.hpp, which takes any number of anything with the
    tuple protocol (and at least one that is not like an array: others are such). *)
Definition tuple_for_each (stdx_tuples others : nat) : kind -> category -> cell V -> option (result V) :=
  if stdx_tuples + others =? 0 then fun _ _ _ => None
  else if (stdx_tuples =? 1) && (others =? 0) then for_each_one else unrolled_for_each.
Definition tuple_enumerate (stdx_tuples others : nat) : kind -> category -> cell V -> option (result V) :=
  if stdx_tuples + others =? 0 then fun _ _ _ => None else unrolled_for_each.
(** bitset.hpp:148-159, 499-507, 690-696: [return std::forward<F>(f)] as an [F]. *)
Definition bitset_for_each (k : kind) (c : category) (x : cell V) : option (result V) :=
  let x' := called x in
  match deduce c, k with
  | Reference _, _ => Some Same
  | NonReference false, Object t => r <- move t x';; Some (New (fst r) (snd r))
  | NonReference true, Object t => r <- copy t x';; Some (New (fst r) (snd r))
  | NonReference _, Function => Some (New x' x')
  end.

(** ** algorithm.hpp: [Operation op] is a parameter by value (a pointer, for a function). *)
Definition decayed (k : kind) : traits := match k with Object t => t | Function => Traits true true end.
(** Initializing the parameter from the argument. *)
Definition pass (k : kind) (c : category) (x : cell V) : option (cell V * cell V) :=
  match c with Rvalue => move (decayed k) x | _ => copy (decayed k) x end.
(** algorithm.hpp:46-55, 57-67: [return {op, ...}] with the parameter as an lvalue. *)
Definition for_each_body (t : traits) (x : cell V) : option (cell V) :=
  r <- copy t (called x);; Some (fst r).
Definition range_for_each (k : kind) (c : category) (x : cell V) : option (result V) :=
  p <- pass k c x;; r <- for_each_body (decayed k) (fst p);; Some (New r (snd p)).
Definition range_for_each_n := range_for_each.
(** algorithm.hpp:69-98, 100-106: one more function in between, two for random access iterators;
    [op] is handed on as an lvalue each time. *)
Definition butlastn_body (random : bool) (t : traits) (x : cell V) : option (cell V) :=
  p <- copy t x;;
  if random then q <- copy t (fst p);; for_each_body t (fst q) else for_each_body t (fst p).
Definition for_each_butlastn (random : bool) (k : kind) (c : category) (x : cell V) : option (result V) :=
  p <- pass k c x;; r <- butlastn_body random (decayed k) (fst p);; Some (New r (snd p)).
(** algorithm.hpp:108-112. *)
Definition for_each_butlast (random : bool) (k : kind) (c : category) (x : cell V) : option (result V) :=
  p <- pass k c x;; q <- copy (decayed k) (fst p);; r <- butlastn_body random (decayed k) (fst q);; Some (New r (snd p)).
End GiveBack.
(** algorithm.hpp:115-127, for a range that is not empty: [icall], [mcalls] and [fcall] are the calls
    of each function.  [get<0>(r)] is what for_each_butlast returned. *)
Definition initial_medial_final {V} (icall mcalls fcall : V -> V) (random : bool) (ti tm tf : traits) (xi xm xf : cell V) : option (cell V * cell V * cell V) :=
  m1 <- copy tm xm;; m2 <- copy tm (fst m1);; m3 <- butlastn_body mcalls random tm (fst m2);;
  i <- copy ti (called icall xi);; m <- copy tm m3;; f <- copy tf (called fcall xf);; Some (fst i, fst m, fst f).
