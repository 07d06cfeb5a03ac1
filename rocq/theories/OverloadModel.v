(** Model of stdx::overload (include/stdx/utility.hpp:16-22): an object that inherits its call operators from the functions
    it is made of, and the overload resolution by which a call with one argument picks one of them.

    The language: C++20 [over.match], with the implicit object parameter of the call operators taken to be the
    overload object itself, as [namespace.udecl] says for operators named by a using-declaration.
    Simplifications: one argument; functions are not volatile or ref-qualified; no T const&& parameters; derived
    classes do not differ from other classes that convert. *)
From Verif Require Import Base.

(** Types are numbers. An argument has a type, may be const, and is an lvalue or an rvalue. *)
Record arg := Arg { type : nat; const : bool; rvalue : bool }.
(** The parameter of a function: auto, auto const&, auto&&, or T, T const&, T&, T&&. *)
Inductive param := AnyValue | AnyConstRef | AnyForward | Value (c : nat) | ConstRef (c : nat) | Ref (c : nat) | RvalueRef (c : nat).
(** A function given to overload: which closure it is, its parameter, and whether its call operator is not const (a mutable lambda). *)
Record function := Function { id : nat; parameter : param; mutable_ : bool }.

(** [over.ics.scs], [over.ics.user]: the ranks of implicit conversions between types. *)
Inductive rank := Promotion | Conversion | UserDefined.
Inductive sequence := Object | Binds (to_const rref : bool) | Converted (r : rank).

Section Resolution.
(** The implicit conversions from one type to another. *)
Variable conv : nat -> nat -> option rank.
Definition to_type (c : nat) (a : arg) (exact : option sequence) : option sequence :=
  if Nat.eqb (type a) c then exact else option_map Converted (conv (type a) c).
(** How an argument gets to a parameter; [None]: it does not. *)
Definition passes (p : param) (a : arg) : option sequence :=
  match p with
  | AnyValue => Some Object
  | AnyConstRef => Some (Binds true false)
  | AnyForward => Some (Binds (const a) (rvalue a))
  | Value c => to_type c a (Some Object)
  | ConstRef c => to_type c a (Some (Binds true false))
  | Ref c => if Nat.eqb (type a) c && negb (rvalue a) && negb (const a) then Some (Binds false false) else None
  | RvalueRef c => to_type c a (if rvalue a && negb (const a) then Some (Binds false true) else None)
  end.
Definition rank_less (r s : rank) : bool := match r, s with Promotion, (Conversion | UserDefined) => true | Conversion, UserDefined => true | _, _ => false end.
(** [over.ics.rank]: no conversion is better than one, a promotion than another conversion, that than a user-defined
    one; an rvalue is better bound to an rvalue reference; of two bindings of the same kind the one to non-const is better. *)
Definition better_sequence (s t : sequence) : bool :=
  match s, t with
  | Converted r, Converted q => rank_less r q
  | Converted _, _ => false
  | _, Converted _ => true
  | Binds c r, Binds d q => r && negb q || Bool.eqb r q && negb c && d
  | _, _ => false
  end.
Definition is_template (p : param) : bool := match p with AnyValue | AnyConstRef | AnyForward => true | _ => false end.
(** [temp.deduct.partial]: auto const& is more specialized than auto&&. *)
Definition more_specialized (p q : param) : bool := match p, q with AnyConstRef, AnyForward => true | _, _ => false end.
(** The implicit object parameter: overload const&, or overload& if the function is mutable. *)
Definition object_sequence (f : function) : sequence := Binds (negb (mutable_ f)) false.
(** [over.match.viable]: on a const object, only functions that are not mutable. *)
Definition viable (const_object : bool) (a : arg) (f : function) : bool :=
  implb (mutable_ f) (negb const_object) && match passes (parameter f) a with Some _ => true | None => false end.
(** [over.match.best], for two viable functions. *)
Definition better (a : arg) (f g : function) : bool :=
  match passes (parameter f) a, passes (parameter g) a with
  | Some s, Some t =>
      negb (better_sequence (object_sequence g) (object_sequence f)) && negb (better_sequence t s) &&
      (better_sequence (object_sequence f) (object_sequence g) || better_sequence s t ||
       negb (is_template (parameter f)) && is_template (parameter g) || more_specialized (parameter f) (parameter g))
  | _, _ => false
  end.
(** The call f(a): the viable function that is better than every other; [None]: no function is viable, or the call is
    ambiguous, and it does not compile. *)
Definition resolve (fs : list function) (const_object : bool) (a : arg) : option function :=
  let vs := filter (viable const_object a) fs in
  find (fun f => forallb (fun g => Nat.eqb (id g) (id f) || better a f g) vs) vs.

(** The object (utility.hpp:16): a base for each function, which keeps the state of the function (its captures). The
    functions are of different classes that can be derived from; [run_ i] is what function [i] does with its state and an argument's value. *)
Section Calls.
Context {S V R : Type}.
Variable run_ : nat -> S -> V -> S * R.
Definition object := nat -> S.
(** One call; a function that is not mutable leaves its state as it is. [None]: does not compile. *)
Definition call (fs : list function) (const_object : bool) (o : object) (a : arg) (v : V) : option (object * R) :=
  match resolve fs const_object a with
  | None => None
  | Some f => let (s, r) := run_ (id f) (o (id f)) v in
              Some (if mutable_ f then fun i => if Nat.eqb i (id f) then s else o i else o, r)
  end.
Fixpoint calls (fs : list function) (const_object : bool) (o : object) (l : list (arg * V)) : option (object * list R) :=
  match l with
  | [] => Some (o, [])
  | (a, v) :: l' =>
      match call fs const_object o a v with
      | None => None
      | Some (o', r) => match calls fs const_object o' l' with None => None | Some (o2, rs) => Some (o2, r :: rs) end
      end
  end.
End Calls.
End Resolution.
