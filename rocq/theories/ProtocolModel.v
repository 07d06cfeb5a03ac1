(** Which types the tuple algorithms take, and the capacities known at compile time:
    include/stdx/concepts.hpp:148-178, type_traits.hpp:326-350, utility.hpp:277-293,
    tuple_destructure.hpp:31-38, tuple.hpp:336-337, 422-437, span.hpp:23-57, 229-233, 278-289,
    tuple_algorithms.hpp:169-317, iterator.hpp:14-34, 132-136.

    A type is described by what these places look at.  volatile is left out. *)
From Coq Require Import Bool NArith List.
Import ListNotations.
Open Scope N_scope.

(** The type of an integer expression. *)
Inductive int_type := SizeT | UnsignedInt | OtherInt.
(** Whether std::size_t is unsigned int, as for 32-bit targets (arm-none-eabi, i386, riscv32). *)
Record target := { size_t_is_unsigned_int : bool }.
Definition is_size_t (tg : target) (k : int_type) : bool :=
  match k with SizeT => true | UnsignedInt => size_t_is_unsigned_int tg | OtherInt => false end.

Inductive ty :=
| Named (id : nat)                        (* scalars, pointers, classes with no static size() *)
| StdArray (t : ty) (n : N)
| Pair (a b : ty)
| StdTuple (ts : list ty)
| Tuple (ts : list ty)                    (* stdx::tuple and stdx::indexed_tuple *)
| Sequence (n : N)                        (* stdx::make_integer_sequence<T, n> *)
| Constant (i : N)                        (* std::integral_constant<T, i> *)
| Span (t : ty) (extent : option N)       (* stdx::span; None: dynamic_extent *)
| StdSpan (t : ty) (extent : option N)
| Cx (t : ty) (n : N)                     (* cx_vector, cx_queue, cx_set, cx_map, cx_multimap *)
| CArray (t : ty) (n : N)                 (* t[n] *)
| User (size : option (int_type * N))     (* a class with a static size(): its type and value *)
       (get0 : option ty)                 (* the type of get<0>(x), found by argument-dependent lookup *)
       (element0 : option ty)             (* stdx::tuple_element<0, T>::type *)
       (value_type : bool)                (* T::value_type exists *)
| Const (t : ty)                          (* not for arrays: const applies to the elements *)
| Ref (t : ty).

(** std::is_same_v. *)
Fixpoint ty_eqb (a b : ty) {struct a} : bool :=
  let list_eqb := fix go (xs ys : list ty) :=
    match xs, ys with [], [] => true | x :: xs, y :: ys => ty_eqb x y && go xs ys | _, _ => false end in
  let opt_eqb (x y : option ty) := match x, y with None, None => true | Some x, Some y => ty_eqb x y | _, _ => false end in
  let ext_eqb (x y : option N) := match x, y with None, None => true | Some x, Some y => x =? y | _, _ => false end in
  match a, b with
  | Named i, Named j => Nat.eqb i j
  | StdArray t n, StdArray u m | Cx t n, Cx u m | CArray t n, CArray u m => ty_eqb t u && (n =? m)
  | Pair x y, Pair x' y' => ty_eqb x x' && ty_eqb y y'
  | StdTuple ts, StdTuple us | Tuple ts, Tuple us => list_eqb ts us
  | Sequence n, Sequence m | Constant n, Constant m => n =? m
  | Span t e, Span u f | StdSpan t e, StdSpan u f => ty_eqb t u && ext_eqb e f
  | User s g e v, User s' g' e' v' =>
      (match s, s' with
       | None, None => true
       | Some (k, n), Some (k', n') => (match k, k' with SizeT, SizeT | UnsignedInt, UnsignedInt | OtherInt, OtherInt => true | _, _ => false end) && (n =? n')
       | _, _ => false end)
      && opt_eqb g g' && opt_eqb e e' && Bool.eqb v v'
  | Const t, Const u | Ref t, Ref u => ty_eqb t u
  | _, _ => false
  end.

(** std::remove_cv_t: of an array, also from its elements. *)
Fixpoint unconst (t : ty) : ty := match t with Const u => u | CArray e n => CArray (unconst e) n | _ => t end.
Fixpoint is_const (t : ty) : bool := match t with Const _ => true | CArray e _ => is_const e | _ => false end.
(** std::remove_cvref_t. *)
Definition bare (t : ty) : ty := match t with Ref u => unconst u | _ => unconst t end.

(** tuple_size_v and its type: type_traits.hpp:326-334, utility.hpp:288-289, tuple_destructure.hpp:32-33.
    T::size() is there for stdx::tuple (tuple.hpp:336-337) and for spans of static extent
    (span.hpp:28); in other classes that have size() it is not static (or is that of a User). *)
Definition tuple_size_v (t : ty) : int_type * N :=
  match t with
  | StdArray _ n => (SizeT, n)
  | Pair _ _ => (SizeT, 2)
  | StdTuple ts | Tuple ts => (SizeT, N.of_nat (length ts))
  | Sequence n => (SizeT, n)
  | Span _ (Some n) => (SizeT, n)
  | User (Some s) _ _ _ => s
  | _ => (UnsignedInt, 0)
  end.
(** T & *)
Definition ref (t : ty) : ty := match t with Ref _ => t | _ => Ref t end.
(** The type of get<0>(x): tuple.hpp:422-426, span.hpp:229-233, utility.hpp:283-286, std::get. *)
Definition get0_of (t : ty) : option ty :=
  match t with
  | StdArray e _ => Some (ref e)
  | Pair a _ => Some (ref a)
  | StdTuple (e :: _) | Tuple (e :: _) => Some (ref e)
  | Sequence _ => Some (Constant 0)
  | Span e _ => Some (ref e)
  | User _ g _ _ => g
  | _ => None
  end.
(** tuple_element_t<0, T>: type_traits.hpp:336-350, tuple.hpp:435-437, tuple_destructure.hpp:34-37,
    utility.hpp:291-295, span.hpp:285-289. *)
Definition element0_of (t : ty) : option ty :=
  match t with
  | StdArray e _ => Some e
  | Pair a _ => Some a
  | StdTuple (e :: _) | Tuple (e :: _) => Some e
  | Sequence _ => Some (Constant 0)
  | Span e (Some _) => Some e
  | User _ _ e _ => e
  | _ => None
  end.
Definition has_value_type (t : ty) : bool :=
  match t with
  | StdArray _ _ | Span _ _ | StdSpan _ _ | Cx _ _ | Constant _ => true
  | Sequence _ => true (* utility.hpp:276-277: inherits that of std::integer_sequence *)
  | User _ _ _ v => v
  | _ => false
  end.

(** A concept holds, does not, or cannot be checked: concept_try_get (concepts.hpp:158-160) deduces its
    return type, so that a type without get is an error inside its body and not a failed substitution. *)
Inductive verdict := Yes | No | HardError.
Definition of_bool (b : bool) : verdict := if b then Yes else No.
(** concepts.hpp:162-166. *)
Definition has_get_protocol (t : ty) : verdict :=
  match get0_of t with
  | None => HardError
  | Some g => match element0_of t with Some e => of_bool (ty_eqb (bare g) (bare e)) | None => No end
  end.
(** concepts.hpp:148-156, 170-173. *)
Definition has_tuple_protocol (tg : target) (t : ty) : verdict :=
  let (k, n) := tuple_size_v (bare t) in
  if negb (is_size_t tg k) then No else if n =? 0 then Yes else has_get_protocol (bare t).
(** concepts.hpp:175-178. *)
Definition has_array_protocol (tg : target) (t : ty) : verdict :=
  match has_tuple_protocol tg t with Yes => of_bool (has_value_type (bare t)) | v => v end.

(** ** Calls *)
(** A call of an algorithm: no such function, an error in checking for it, a failed static_assert, or a
    call that goes through this many steps. *)
Inductive call := NotViable | CheckFails | Refused | Steps (n : N).
(** The constraint has_tuple_protocol... Ts. *)
Fixpoint all_protocol (tg : target) (ts : list ty) : verdict :=
  match ts with
  | [] => Yes
  | t :: r => match has_tuple_protocol tg t with Yes => all_protocol tg r | v => v end
  end.
(** tuple_algorithms.hpp:175-178. *)
Definition zip_length (ts : list ty) : N :=
  match ts with [] => 0 | t :: r => fold_left (fun m u => N.min m (snd (tuple_size_v (bare u)))) r (snd (tuple_size_v (bare t))) end.
(** tuple_algorithms.hpp:221-225, 252-256, 275-278, 297-300, 311-315: unrolled_for_each, unrolled_enumerate,
    unrolled_all_of, unrolled_any_of, unrolled_none_of.  The steps are those that the whole range would
    take. *)
Definition unrolled (tg : target) (ts : list ty) : call :=
  match all_protocol tg ts with Yes => Steps (zip_length ts) | No => NotViable | HardError => CheckFails end.
(** tuple_algorithms.hpp:212-219, 242-250, 267-273, 289-295, 302-309: for_each, enumerate, all_of, any_of,
    none_of. *)
Definition guarded (tg : target) (ts : list ty) : call :=
  match unrolled tg ts with
  | Steps n => if existsb (fun t => match has_array_protocol tg t with Yes => false | _ => true end) ts then Steps n else Refused
  | c => c
  end.

(** ** Capacities *)
(** ct_capacity_v: iterator.hpp:21-30, 132-136, span.hpp:278-283, cx_vector.hpp:177-178,
    cx_queue.hpp:112-113, cx_set.hpp:111-112, cx_map.hpp:138-139, cx_multimap.hpp:109-110.  [None]: does
    not compile.  An array of const matches both T[N] and T const, and neither is more specialized. *)
Fixpoint ct_capacity_v (t : ty) : option N :=
  match t with
  | StdArray _ n => Some n
  | CArray e n => if is_const e then None else Some n
  | Const (CArray _ _) => None
  | Const u => ct_capacity_v u
  | Span _ e | StdSpan _ e => e
  | Cx _ n => Some n
  | _ => None
  end.
(** iterator.hpp:32-35. *)
Definition ct_capacity (t : ty) : option N := ct_capacity_v (bare t).
