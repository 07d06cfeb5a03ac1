(** Model of safe_identity and expand as functions over C++ expressions:
    include/stdx/functional.hpp:164-171 and type_traits.hpp:241-243, type_traits.hpp:276-278.

    What is modelled: objects of one class type, by their position in a store,
    with their value, constness and whether they are within their lifetime;
    the value categories of expressions; temporaries and the end of the full
    expression; the constructor that initialises an object from an rvalue.
    Not modelled: volatile, and classes with several copy or move
    constructors. *)
From Coq Require Import List Arith Lia Bool.
Import ListNotations.

Notation "x <- e ;; k" := (match e with Some x => k | None => None end)
  (at level 60, e at next level, right associativity).

(** The standard's rules for classes: a move constructor may be declared,
    deleted or absent. *)
Inductive move_ctor := MoveDeclared | MoveDeleted | MoveAbsent.
Record class := { is_array : bool; has_copy : bool; moving : move_ctor }.

Inductive how := ByMove | ByCopy.

(** [T(std::forward<T>(t))] with T not a reference, functional.hpp:169 and
    type_traits.hpp:242: a prvalue of type T made from an rvalue.
    A const rvalue cannot be given to a move constructor; an array cannot be
    returned. *)
Definition from_rvalue (c : class) (const : bool) : option how :=
  if is_array c then None
  else if const then (if has_copy c then Some ByCopy else None)
  else match moving c with
       | MoveDeclared => Some ByMove
       | MoveDeleted => None
       | MoveAbsent => if has_copy c then Some ByCopy else None
       end.

Section Objects.
  Context {V : Type}.

  (** An object: its value, whether it is const, whether it is within its lifetime. *)
  Record object := Object { value : V; const : bool; alive : bool }.

  Record world := World { objects : list object; moves : nat; copies : nat }.

  (** What an expression evaluates to: an lvalue or an xvalue, which refer to
      an object, or a prvalue, which initialises one later. *)
  Inductive result :=
    | Lvalue (at_ : nat)
    | Xvalue (at_ : nat)
    | Prvalue (v : V) (k : bool).

  (** Expressions: a variable's name, [std::move] of it, a prvalue such as
      [f()], a call of [safe_identity] (functional.hpp:167-170), of [expand]
      (type_traits.hpp:276-278) on something that was not shrunk, and of
      [std::identity{}], which returns [T&&]. *)
  Inductive expr :=
    | Name (x : nat)
    | Move (x : nat)
    | Temp (v : V)
    | SafeIdentity (e : expr)
    | Expand (e : expr)
    | StdIdentity (e : expr).

  (** The state in which a move leaves the object it moves from. *)
  Variable husk : V -> V.
  Variable c : class.

  Definition put (i : nat) (o : object) (l : list object) : list object :=
    firstn i l ++ match skipn i l with [] => [] | _ :: r => o :: r end.

  (** The standard's temporary materialisation: a prvalue bound to [T &&t]
      becomes an object. *)
  Definition materialise (w : world) (v : V) (k : bool) : world * nat :=
    (World (objects w ++ [Object v k true]) (moves w) (copies w), length (objects w)).

  (** functional.hpp:169, type_traits.hpp:242 for [T] not a reference: [t]
      refers to the object [i]. *)
  Definition construct (w : world) (i : nat) : option (world * result) :=
    o <- nth_error (objects w) i ;;
    if alive o then
      h <- from_rvalue c (const o) ;;
      match h with
      | ByMove => Some (World (put i (Object (husk (value o)) (const o) true) (objects w))
                              (S (moves w)) (copies w), Prvalue (value o) (const o))
      | ByCopy => Some (World (objects w) (moves w) (S (copies w)), Prvalue (value o) (const o))
      end
    else None.

  (** functional.hpp:167-170: [T] is [X&] for lvalues, and the cast to [X&] gives
      the same lvalue; [T] is [X] for rvalues. *)
  Definition safe_identity (w : world) (r : result) : option (world * result) :=
    match r with
    | Lvalue i => Some (w, Lvalue i)
    | Xvalue i => construct w i
    | Prvalue v k => let (w', i) := materialise w v k in construct w' i
    end.

  (** type_traits.hpp:276-278 calls [maybe_expand(std::forward<T>(t))], type_traits.hpp:241-243:
      [T] is again [X&] or [X], and the prvalue that [maybe_expand] returns is the
      one that [expand] returns, without another object. *)
  Definition expand (w : world) (r : result) : option (world * result) :=
    match r with
    | Lvalue i => Some (w, Lvalue i)
    | Xvalue i => construct w i
    | Prvalue v k => let (w', i) := materialise w v k in construct w' i
    end.

  (** The standard's [std::identity]: returns [std::forward<T>(t)] as [T&&]. *)
  Definition std_identity (w : world) (r : result) : option (world * result) :=
    match r with
    | Lvalue i => Some (w, Lvalue i)
    | Xvalue i => Some (w, Xvalue i)
    | Prvalue v k => let (w', i) := materialise w v k in Some (w', Xvalue i)
    end.

  Fixpoint eval (w : world) (e : expr) : option (world * result) :=
    match e with
    | Name x => Some (w, Lvalue x)
    | Move x => Some (w, Xvalue x)
    | Temp v => Some (w, Prvalue v false)
    | SafeIdentity e => y <- eval w e ;; safe_identity (fst y) (snd y)
    | Expand e => y <- eval w e ;; expand (fst y) (snd y)
    | StdIdentity e => y <- eval w e ;; std_identity (fst y) (snd y)
    end.

  (** The end of the full expression: the temporaries, which are the objects
      from [n] on, are destroyed. *)
  Definition end_temporaries (n : nat) (l : list object) : list object :=
    firstn n l ++ map (fun o => Object (value o) (const o) false) (skipn n l).

  (** [decltype(auto) r = e;] or [auto&& r = e;]: the place that [r] refers to
      or, for a prvalue, the object that is made. *)
  Definition declare (w : world) (e : expr) : option (world * nat) :=
    y <- eval w e ;;
    let w' := fst y in
    let left := end_temporaries (length (objects w)) (objects w') in
    match snd y with
    | Lvalue i | Xvalue i => Some (World left (moves w') (copies w'), i)
    | Prvalue v k => Some (World (left ++ [Object v k true]) (moves w') (copies w'), length left)
    end.
End Objects.
Arguments object : clear implicits.
Arguments world : clear implicits.
Arguments expr : clear implicits.
Arguments result : clear implicits.
