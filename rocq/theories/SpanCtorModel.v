(** Which constructor of stdx::span, and which deduction guide, is used for an array: include/stdx/span.hpp.

    SpanModel starts from the constructor that checks the size.  Here overload resolution is modelled for
    arrays, C arrays and std::array, const or not, named or temporary, and for initialization that considers
    explicit constructors ([Direct]: span<T, E> s{x}) or does not ([Copy]: passing x for a span).
    Element types of source and span are the same up to const. *)
From Coq Require Import List NArith Bool.
Import ListNotations.

Inductive cat := Lvalue | Rvalue.
Inductive init := Direct | Copy.
(** T[n] and T const[n]; std::array<T, n> and std::array<T const, n>, const or not. *)
Inductive src := CArr (k : bool) (n : N) | StdArr (ek : bool) (k : bool) (n : N).
Definition const_of (s : src) : bool := match s with CArr k _ => k | StdArr _ k _ => k end.
Definition count (s : src) : N := match s with CArr _ n | StdArr _ _ n => n end.

(** The type of a span: of const elements or not, [None] for dynamic extent. *)
Record span_type := { tc : bool; extent : option N }.
(** Construction does not compile, or gives a span at the start of the array with a size. *)
Inductive made := Rejected | Formed (size : N).

(** Reference parameters: the kind, and whether to const. *)
Inductive kind := LRef | RRef.
Definition binds (p : kind * bool) (c : cat) (k : bool) : bool :=
  match p, c with
  | (LRef, false), Lvalue => negb k
  | (LRef, false), Rvalue => false
  | (LRef, true), _ => true
  | (RRef, pk), Rvalue => implb k pk
  | (RRef, _), Lvalue => false
  end.
(** One conversion is better than another: [over.ics.rank] 3.2.3 and 3.2.6. *)
Definition better_binding (p q : kind * bool) : bool :=
  match p, q with
  | (RRef, _), (LRef, _) => true
  | (LRef, false), (LRef, true) | (RRef, false), (RRef, true) => true
  | _, _ => false
  end.
(** The parameter R && for an argument. *)
Definition forwarding (c : cat) (k : bool) : kind * bool := match c with Lvalue => (LRef, k) | Rvalue => (RRef, k) end.

(** Overload resolution: candidates with their parameter and whether they are templates on any type. *)
Section Resolve.
Context {A : Type} (eqb : A -> A -> bool).
Definition better (a b : A * (kind * bool) * bool) : bool :=
  let '(_, p, g) := a in let '(_, q, h) := b in
  better_binding p q || (negb (better_binding q p) && negb g && h).
Definition best (l : list (A * (kind * bool) * bool)) : option A :=
  match filter (fun a => forallb (fun b => eqb (fst (fst a)) (fst (fst b)) || better a b) l) l with
  | [a] => Some (fst (fst a))
  | _ => None
  end.
End Resolve.

(** The constructors: std::array &, std::array const & (span.hpp:95-108), T (&)[N] (111-118), R && (120-130, explicit). *)
Inductive ctor := FromArray | FromConstArray | FromCArray | FromRange.
Definition ctor_eqb (a b : ctor) : bool :=
  match a, b with
  | FromArray, FromArray | FromConstArray, FromConstArray | FromCArray, FromCArray | FromRange, FromRange => true
  | _, _ => false
  end.
Definition ctors (t : span_type) (i : init) (c : cat) (s : src) : list (ctor * (kind * bool) * bool) :=
  filter (fun x => binds (snd (fst x)) c (const_of s))
    (match s with
     | StdArr _ _ _ => [(FromArray, (LRef, false), false); (FromConstArray, (LRef, true), false)]
     | CArr _ _ => [(FromCArray, (LRef, tc t), false)]
     end ++ match i with Direct => [(FromRange, forwarding c (const_of s), true)] | Copy => [] end).

(** What std::data or std::begin gives, a pointer to const elements or not; [None]: not called with this.
    std::begin takes rvalues by const reference, and no rvalue C arrays but const ones. *)
Definition data (x : ctor) (t : span_type) (c : cat) (s : src) : option bool :=
  match x, s with
  | FromArray, StdArr ek _ _ => Some ek
  | FromConstArray, StdArr _ _ _ => Some true
  | FromCArray, CArr _ _ => Some (tc t)
  | FromRange, StdArr ek k _ => Some (match c with Lvalue => ek || k | Rvalue => true end)
  | FromRange, CArr k _ => match c, k with Rvalue, false => None | _, _ => Some k end
  | _, _ => None
  end.
(** The static_assert of the array constructors; the one for ranges has none. *)
Definition size_checked (x : ctor) : bool := match x with FromRange => false | _ => true end.
(** span<T, E>{x}: span.hpp:83-129 with span_base (23-58). *)
Definition construct (t : span_type) (i : init) (c : cat) (s : src) : made :=
  match best ctor_eqb (ctors t i c s) with
  | None => Rejected
  | Some x =>
      match data x t c s with
      | None => Rejected
      | Some pk =>
          if implb pk (tc t) then
            match extent t with
            | None => Formed (count s)
            | Some e => if size_checked x && negb (N.leb e (count s)) then Rejected else Formed e
            end
          else Rejected
      end
  end.

(** The deduction guides: span.hpp:268-276.  (That for two arguments takes no arrays; the constructors give
    no guides, for T is deduced from none of them.) *)
Inductive guide := GuideCArray | GuideArray | GuideConstArray | GuideRange.
Definition guide_eqb (a b : guide) : bool :=
  match a, b with
  | GuideCArray, GuideCArray | GuideArray, GuideArray | GuideConstArray, GuideConstArray | GuideRange, GuideRange => true
  | _, _ => false
  end.
Definition guides (c : cat) (s : src) : list (guide * (kind * bool) * bool) :=
  filter (fun x => binds (snd (fst x)) c (const_of s))
    (match s with
     | StdArr _ _ _ => [(GuideArray, (LRef, false), false); (GuideConstArray, (LRef, true), false)]
     | CArr k _ => [(GuideCArray, (LRef, k), false)]
     end ++ [(GuideRange, forwarding c (const_of s), true)]).
Definition deduce (c : cat) (s : src) : option span_type :=
  match best guide_eqb (guides c s), s with
  | Some GuideCArray, CArr k n => Some {| tc := k; extent := Some n |}
  | Some GuideArray, StdArr ek _ n => Some {| tc := ek; extent := Some n |}
  | Some GuideConstArray, StdArr _ _ n => Some {| tc := true; extent := Some n |}
  | Some GuideRange, CArr k _ => Some {| tc := k; extent := None |}
  | Some GuideRange, StdArr ek k _ => Some {| tc := ek || k; extent := None |}
  | _, _ => None
  end.
(** span s{x}. *)
Definition construct_deduced (c : cat) (s : src) : option span_type * made :=
  match deduce c s with Some t => (Some t, construct t Direct c s) | None => (None, Rejected) end.
