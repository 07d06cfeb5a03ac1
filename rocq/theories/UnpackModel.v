(** How transform and and_then of include/stdx/optional.hpp call the function they are given.

    OptionalModel and OptMoveModel say when the function is called and how often.  Here: with the value
    or with its elements, for which functions and types there is such a call at all ([None]: the call
    of transform does not compile), and of which type the result is.
    The function is a function object whose type brings no [apply] of its own and whose call operator
    does not depend on the value category of the function object. *)
From Coq Require Import List Arith Bool.
Import ListNotations.

Inductive cat := Lvalue | ConstLvalue | Rvalue | ConstRvalue.
Inductive lib := StdTuple | StdPair | StdxTuple.
(** Types of values.  [Simple]: no specialization of a class template, or one with parameters that are
    not types; [StdOther]: specialization of another class template of namespace std, such as
    std::string, std::vector and std::unique_ptr; [Own]: of a class template of another namespace that
    has no [apply]. *)
Inductive ty :=
| Simple (n : nat)
| Array (t : ty) (n : nat)
| Parts (l : lib) (ts : list ty)
| StdOther (n : nat)
| Own (n : nat).
Inductive val := Atom (n : nat) | Tup (vs : list val).

(** A function: for arguments of these types and categories, the type of the (decayed) result if it can
    be called; and what it returns. *)
Record func := { takes : list (cat * ty) -> option ty; run : list (cat * val) -> val }.

(** [strict]: std::apply takes part in overload resolution for tuple-like types only (C++23); before, it
    takes anything, and is an error for what is not tuple-like.  (It is declared in <tuple>, which <memory>,
    included in optional.hpp:8, brings in with libstdc++ and libc++.)  [tombstone]: tombstone_traits;
    [default]: T{}, if there is that. *)
Record platform := { strict : bool; tombstone : ty -> option val; default : ty -> option val }.

(** apply(f, v): std::apply, found through the type of v, and stdx::apply, tuple.hpp:496-499.  Both have
    a deduced return type: that f does not take the elements is an error, not a failed substitution. *)
Inductive found := NotFound | Error | Found (r : ty).
Definition apply_parts (f : func) (c : cat) (ts : list ty) : found :=
  match takes f (map (pair c) ts) with Some r => Found r | None => Error end.
Definition apply (p : platform) (f : func) (c : cat) (t : ty) : found :=
  match t with
  | Simple _ | Own _ => NotFound
  | Array t n => apply_parts f c (repeat t n)
  | Parts _ ts => apply_parts f c ts
  | StdOther _ => if strict p then NotFound else Error
  end.

(** [template <typename...> typename L, typename... Ts] ... [L<Ts...>]: optional.hpp:70-73. *)
Definition of_types (t : ty) : bool :=
  match t with Simple _ | Array _ _ => false | Parts _ _ | StdOther _ | Own _ => true end.
(** Which unwrap_invoker: optional.hpp:63-78.  The test is made with an rvalue of the type. *)
Inductive way := Whole | ByApply | NoWay.
Definition unwrap_invoker (p : platform) (f : func) (t : ty) : way :=
  if of_types t then match apply p f Rvalue t with Found _ => ByApply | NotFound => Whole | Error => NoWay end else Whole.

Definition elements (v : val) : list val := match v with Tup vs => vs | Atom _ => [v] end.
(** unwrap_invoke_result_t, and what the function is called with: optional.hpp:63-91. *)
Definition unwrap_result (p : platform) (f : func) (c : cat) (t : ty) : option ty :=
  match unwrap_invoker p f t with
  | Whole => takes f [(c, t)]
  | ByApply => match apply p f c t with Found r => Some r | NotFound | Error => None end
  | NoWay => None
  end.
Definition unwrap_invoke (p : platform) (f : func) (c : cat) (t : ty) (v : val) : val :=
  match unwrap_invoker p f t with
  | ByApply => run f (map (pair c) (elements v))
  | Whole | NoWay => run f [(c, v)]
  end.

(** The four overloads of transform, optional.hpp:198-227, on an optional of category [c] over [t]:
    optional<U> with the tombstone of U, which must have one (14-21, 93-99).  [Some r]: made from [r] (which
    may be the tombstone: OptionalModel). *)
Definition transform (p : platform) (f : func) (c : cat) (t : ty) (o : option val) : option (ty * option val) :=
  match unwrap_result p f c t with
  | Some u => match tombstone p u with
              | Some _ => Some (u, match o with Some v => Some (unwrap_invoke p f c t v) | None => None end)
              | None => None
              end
  | None => None
  end.
(** and_then, optional.hpp:236-259: U is what the function returns, and U{} stands for nothing. *)
Definition and_then (p : platform) (f : func) (c : cat) (t : ty) (o : option val) : option (ty * val) :=
  match unwrap_result p f c t with
  | Some u => match default p u with
              | Some d => Some (u, match o with Some v => unwrap_invoke p f c t v | None => d end)
              | None => None
              end
  | None => None
  end.

(** The free transform, optional.hpp:309-340, on optionals of both libraries. *)
Inductive olib := StdxOptional | StdOptional.
Record arg := { of_lib : olib; of_cat : cat; of_ty : ty; holds : option val }.
Definition is_stdx (a : arg) : bool := match of_lib a with StdxOptional => true | StdOptional => false end.
(** convert_optional: two overloads, optional.hpp:315-324; none or both fit: an error. *)
Definition convert_optional (l : list arg) : option olib :=
  match forallb is_stdx l, forallb (fun a => negb (is_stdx a)) l with
  | true, false => Some StdxOptional
  | false, true => Some StdOptional
  | _, _ => None
  end.
Fixpoint values (l : list arg) : option (list (cat * val)) :=
  match l with
  | [] => Some []
  | a :: l' => match holds a, values l' with Some v, Some vs => Some ((of_cat a, v) :: vs) | _, _ => None end
  end.
(** optional.hpp:327-340. *)
Definition transform_free (p : platform) (f : func) (l : list arg) : option (olib * ty * option val) :=
  match takes f (map (fun a => (of_cat a, of_ty a)) l), convert_optional l with
  | Some r, Some o =>
      match o, tombstone p r with
      | StdxOptional, None => None
      | _, _ => Some (o, r, match values l with Some vs => Some (run f vs) | None => None end)
      end
  | _, _ => None
  end.
