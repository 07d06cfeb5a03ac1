(** Model of is_structural_v (include/stdx/type_traits.hpp).

    A class is what its constructors do with constants, plus whether the language lets it be the type of
    a template parameter.  An aggregate counts as a class with one constructor that takes its members, all
    of them with defaults as far as they can be left out.  Simplification: the constructors of a class
    that take the same number of arguments differ in more than const and references, none is a template
    and none takes a std::initializer_list. *)
From Verif Require Import Base.

(** Scalars are told apart by number. *)
Inductive type := Scalar (s : nat) | LRef (referred : type) | RRef (referred : type) | Class (c : nat).
(** A value: a scalar's, or a class's with what it was made from. *)
Inductive value := Zero (s : nat) | Made (c : nat) (from : list value).
(** A parameter: by value, by const reference or by rvalue reference ([Takes]), or by lvalue reference. *)
Inductive parameter := Takes (t : type) | Binds (t : type).
Record constructor := {
  parameters : list parameter;
  defaults : nat;                             (* how many of the last may be left out *)
  run : list value -> option value            (* [None]: throws, or is not constexpr *)
}.
Record class := { constructors : list constructor; language_structural : bool }.

Section Structural.
Variable classes : nat -> class.

Definition type_eqb (a b : type) : bool :=
  (fix go a b := match a, b with
                 | Scalar x, Scalar y => Nat.eqb x y
                 | LRef a, LRef b => go a b
                 | RRef a, RRef b => go a b
                 | Class x, Class y => Nat.eqb x y
                 | _, _ => false
                 end) a b.
(** type_traits.hpp:194-201: any_t<T> converts to any other type, by value. *)
Definition converts (t : type) (p : parameter) : bool :=
  match p with Takes u => negb (type_eqb t u) | Binds _ => false end.
(** Constructors that take [n] arguments of type any_t<T>. *)
Definition viable (t : type) (n : nat) (k : constructor) : bool :=
  Nat.leb (length (parameters k) - defaults k) n && Nat.leb n (length (parameters k)) && forallb (converts t) (firstn n (parameters k)).
(** std::is_constructible_v, with the constructor that overload resolution selects: none if two are
    viable, since conversions by different functions are not ordered [over.ics.rank]. *)
Definition constructible (c n : nat) : option constructor :=
  match filter (viable (Class c) n) (constructors (classes c)) with [k] => Some k | _ => None end.
(** type_traits.hpp:184-192: the first number of arguments, [n] and up, at most [n + more]. *)
Fixpoint search (c n more : nat) : option (nat * constructor) :=
  match constructible c n with
  | Some k => Some (n, k)
  | None => match more with O => None | S more => search c (S n) more end
  end.
Definition taken (p : parameter) : option type := match p with Takes u => Some u | Binds _ => None end.
Fixpoint all_of {A B} (f : A -> option B) (l : list A) : option (list B) :=
  match l with [] => Some [] | x :: l => match f x, all_of f l with Some y, Some r => Some (y :: r) | _, _ => None end end.
(** try_construct<T>() as a constant expression, with the compiler's limit on the depth of calls. *)
Fixpoint try_construct (depth : nat) (t : type) : option value :=
  match depth with
  | O => None
  | S depth =>
      match t with
      | Scalar s => Some (Zero s)
      | LRef _ => None                              (* not asked, see below; nothing binds *)
      | RRef _ => None                              (* a reference to a temporary that is gone *)
      | Class c =>
          match search c 0 10 with
          | Some (n, k) =>
              match all_of (fun p => match taken p with Some u => try_construct depth u | None => None end) (firstn n (parameters k)) with
              | Some args => run k args
              | None => None
              end
          | None => None
          end
      end
  end.
(** A template argument for [auto]: the language's rule. *)
Definition template_parameter (t : type) : bool :=
  match t with Scalar _ => true | LRef _ => true | RRef _ => false | Class c => language_structural (classes c) end.
(** type_traits.hpp:203-211 *)
Definition is_structural (depth : nat) (t : type) : bool :=
  match t with
  | LRef _ => true
  | _ => match try_construct depth t with Some _ => template_parameter t | None => false end
  end.
End Structural.
