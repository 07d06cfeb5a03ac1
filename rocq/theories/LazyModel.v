(** Model of with_result_of (include/stdx/functional.hpp:13-28) and of the places that store
    what it converts to: latched.hpp:48-52, optional.hpp:106-115, 186-191, 198-227, 327-340.

    Overload resolution of the initialization [T(w)] or [T{w}] from a wrapper [w] is
    modelled after [dcl.init.general], [dcl.init.list] and [over.match.ctor].  Simplified:
    no exceptions here (they are in LatchedModel.v), no explicit constructors, no
    constructors from types other than the ones listed. *)
From Verif Require Import Base LatchedModel.

(** What a call returns: an object, an lvalue, an xvalue. *)
Inductive category := ByValue | ByLvalue | ByXvalue.
(** A callable: a class (lambda) or not (function pointer); final or not; callable when
    const; callable when not const; what it returns. *)
Record callable := Callable
  { is_class : bool; is_final : bool; when_const : bool; when_mutable : bool; returns : category }.

(** A move constructor: usable, deleted, or not declared (the copy constructor serves). *)
Inductive mover := MoveOk | MoveDeleted | MoveAbsent.
(** An initializer_list constructor: none, one whose elements are built from anything, one
    whose elements are built from the class itself. *)
Inductive lister := ListNone | ListAny | ListSelf.
Record members := Members { copyable : bool; move : mover; greedy : bool; lists : lister }.
(** The type of the result: a scalar; a class with its constructors ([greedy]: has an
    unconstrained constructor template [T(U &&)]); an aggregate whose first member is, or is
    not, built from anything. *)
Inductive vtype := Scalar | Class (m : members) | Aggregate (cp : bool) (mv : mover) (first_any : bool).

Inductive event := Called | Copied | Moved.
(** What the new object holds: the function's result, the wrapper, or a list of one. *)
Inductive content := TheResult | TheWrapper | ListOfResult | ListOfWrapper.
(** [None]: does not compile. *)
Definition outcome := option (list event * content).

(** [T(w)] and [T{w}]. *)
Inductive form := Parens | Braces.
(** Whether a by-value conversion function competes with the constructors of a class type
    (CWG 2327, done by GCC and Clang) in either form; in C++20 as published it does not. *)
Record rules := Rules { elide_parens : bool; elide_braces : bool }.
Definition elides (r : rules) (f : form) : bool :=
  match f with Parens => elide_parens r | Braces => elide_braces r end.

(** functional.hpp:13: the wrapper derives from the callable; 14: the callable is invoked as
    a non-const rvalue to name the result. *)
Definition wraps (c : callable) : bool := is_class c && negb (is_final c) && when_mutable c.
(** functional.hpp:16-19 for const wrappers, 21-23 otherwise. *)
Definition converts (const : bool) (c : callable) : bool :=
  wraps c && (if const then when_const c else when_mutable c).

(** Initializing an object of a class from the result of a call, by the copy or the move
    constructor. *)
Definition transfer (cp : bool) (mv : mover) (r : category) : option event :=
  match r, mv with
  | ByLvalue, _ => if cp then Some Copied else None
  | _, MoveOk => Some Moved
  | _, MoveDeleted => None
  | _, MoveAbsent => if cp then Some Copied else None
  end.
(** Through the copy or move constructor, whose parameter binds to the result. *)
Definition through (cp : bool) (mv : mover) (r : category) : outcome :=
  match transfer cp mv r with Some e => Some ([Called; e], TheResult) | None => None end.
Definition by_value (c : callable) : bool :=
  match returns c with ByValue => true | _ => false end.

(** The constructors of a class. [over.match.ctor]: a greedy template is an exact match and
    beats the copy and move constructors, which need the conversion; where the conversion
    function competes it is as good a match and not a template. *)
Definition constructors (elide const : bool) (c : callable) (cp : bool) (mv : mover) (greedy : bool) : outcome :=
  if elide && by_value c && wraps c then if converts const c then Some ([Called], TheResult) else None
  else if greedy then Some ([], TheWrapper)
  else if converts const c then through cp mv (returns c) else None.

(** [T(w)] or [T{w}] for a wrapper around [c], const or not. *)
Definition init (r : rules) (f : form) (const : bool) (c : callable) (t : vtype) : outcome :=
  if negb (wraps c) then None else
  match t with
  | Scalar => if converts const c then Some ([Called], TheResult) else None
  | Class m =>
      match f, lists m with
      | Braces, ListAny => Some ([], ListOfWrapper)
      | Braces, ListSelf => if converts const c then Some ([Called], ListOfResult) else None
      | _, _ => constructors (elides r f) const c (copyable m) (move m) (greedy m)
      end
  | Aggregate cp mv any =>
      match f with
      | Parens => constructors (elides r f) const c cp mv false
      | Braces => if any then Some ([], TheWrapper) else None
      end
  end.

(** [std::is_constructible_v<T, U &&>]. *)
Definition constructible (r : rules) (c : callable) (t : vtype) : bool :=
  match init r Parens false c t with Some _ => true | None => false end.

(** A library lambda [[&] { return f(args...); }] (optional.hpp:65-68, 77-80, 334-336): a class,
    not final, callable when const, and returning [auto], so an object. *)
Definition closure : callable := Callable true false true true ByValue.
(** Returning from that lambda: a reference is copied or moved from. *)
Definition in_closure (t : vtype) (r : category) : option (list event) :=
  match r, t with
  | ByValue, _ | _, Scalar => Some [Called]
  | _, Class m => option_map (fun e => [Called; e]) (transfer (copyable m) (move m) r)
  | _, Aggregate cp mv _ => option_map (fun e => [Called; e]) (transfer cp mv r)
  end.
(** What the closure does in place of one call of it. *)
Definition inside (t : vtype) (r : category) (o : outcome) : outcome :=
  match in_closure t r, o with
  | Some es, Some (evs, x) =>
      Some (flat_map (fun e => match e with Called => es | _ => [e] end) evs, x)
  | _, _ => None
  end.

(** The places where the library, or a user as documented, stores a function's result. *)
Inductive site :=
| Emplace                       (* stdx::optional::emplace (optional.hpp:186-191), or a standard one *)
| Construct                     (* stdx::optional's constructor from a wrapper (optional.hpp:110-115) *)
| ConstructInPlace              (* ... with std::in_place (optional.hpp:106-108) *)
| LatchedValue                  (* latched and cached: latched.hpp:48-52 *)
| MemberTransform               (* optional::transform: optional.hpp:198-227 *)
| FreeTransform                 (* transform over stdx::optional: optional.hpp:327-340 *)
| FreeTransformStd.             (* transform over std::optional: the same *)

(** Storing the result of [c], a function whose result has the type [t] without reference. *)
Definition store (r : rules) (s : site) (c : callable) (t : vtype) : outcome :=
  match s with
  | Emplace => init r Parens false c t
  | ConstructInPlace => init r Braces false c t
  | Construct => if constructible r c t then init r Braces false c t else None
  | LatchedValue => init r Parens true c t
  | MemberTransform =>
      if constructible r closure t then inside t (returns c) (init r Braces false closure t) else None
  | FreeTransform =>
      (* R, and with it optional<R>, is what the function returns: 329-332 *)
      if by_value c && constructible r closure t then inside t ByValue (init r Braces false closure t) else None
  | FreeTransformStd =>
      if by_value c && constructible r closure t then inside t ByValue (init r Parens false closure t) else None
  end.

(** The value a latched object holds: the result of the call, or the wrapper. *)
Inductive stored (V : Type) := Result (v : V) | Wrapped.
Arguments Result {V}. Arguments Wrapped {V}.
Section Run.
Context {W V : Type}.
Variable call : W -> W * option V.
(** What populating runs (latched.hpp:48-52), with a log of the events; a throwing call ends it. *)
Definition run (p : list event * content) (s : W * list event) : (W * list event) * option (stored V) :=
  match snd p with
  | TheResult | ListOfResult =>
      let (w, r) := call (fst s) in
      match r with
      | Some v => ((w, snd s ++ fst p), Some (Result v))
      | None => ((w, snd s ++ [Called]), None)
      end
  | _ => ((fst s, snd s ++ fst p), Some Wrapped)
  end.
End Run.
