(** Calls by unqualified name to functions that namespace std has too: which one is taken, and what the
    algorithms that make these calls return. Types only; what the algorithms do is the subject of C30 and
    C41. Models include/stdx/algorithm.hpp:71-127, tuple_algorithms.hpp:435-474, type_traits.hpp:16-24. *)
From Verif Require Import Base.
Open Scope ub_scope.

Inductive ns := Std | Stdx | User.
(** Types. [Class n args]: a class of namespace n; [args] are its template arguments, [] for other classes
    and for closure types. [Enum n u]: with underlying type u. *)
Inductive ty := Builtin | Pointer (t : ty) | Ref (t : ty) | Enum (n : ns) (u : ty) | Class (n : ns) (args : list ty).

(** Argument-dependent lookup ([basic.lookup.argdep]): a class or enumeration is associated with its
    namespace and a class also with those of its template arguments; a pointer with those of the type
    it points to. References are seen through, as compilers do. Base classes, enclosing classes and
    function types are left out. *)
Fixpoint associated (t : ty) : list ns :=
  match t with
  | Builtin => []
  | Pointer u | Ref u => associated u
  | Enum n _ => [n]
  | Class n args => n :: flat_map associated args
  end.
Definition is_std (n : ns) : bool := match n with Std => true | _ => false end.
(** The function of namespace std is found if one argument is associated with std. *)
Definition found (args : list ty) : bool := existsb (fun t => existsb is_std (associated t)) args.

(** Overload resolution between the stdx function, which is always found, and the one of std.
    Both take the arguments as they are; the one without a trailing parameter pack is the more
    specialized; otherwise the call is ambiguous. *)
Inductive verdict := Chosen (n : ns) | Ambiguous.
Definition resolve (ours_has_pack theirs_has_pack : bool) (theirs_found theirs_viable : bool) : verdict :=
  if theirs_found && theirs_viable
  then match ours_has_pack, theirs_has_pack with
       | true, false => Chosen Std
       | false, true => Chosen Stdx
       | _, _ => Ambiguous
       end
  else Chosen Stdx.

Definition is_nil {A} (l : list A) : bool := match l with [] => true | _ => false end.

(** ** algorithm.hpp: the call [for_each_n(first, count, op, first_n...)] at line 96. std::for_each_n takes three
    arguments (the overload with an execution policy takes no iterator in front), and returns the
    iterator; stdx::for_each_n (59-68) returns a tuple. *)
Definition for_each_n (it op : ty) (extra : list ty) : option ty :=
  match resolve true false (found (it :: Builtin :: op :: extra)) (is_nil extra) with
  | Chosen Std => Some it
  | Chosen _ => Some (Class Stdx (op :: it :: extra))
  | Ambiguous => None
  end.
Inductive category := Forward | RandomAccess.
(** algorithm.hpp:71-113; for_each_butlast is the same with n = 1. *)
Definition for_each_butlastn (c : category) (it op : ty) (extra : list ty) : option ty :=
  match c with
  | Forward => Some (Class Stdx (op :: it :: extra))
  | RandomAccess => for_each_n it op extra
  end.
(** algorithm.hpp:115-127: get<1>(r) and get<0>(r) want a stdx::tuple of two. *)
Definition initial_medial_final (c : category) (it iop mop fop : ty) : option ty :=
  match for_each_butlastn c it mop [] with
  | Some (Class Stdx [mop'; _]) => Some (Class Stdx [iop; mop'; fop])
  | _ => None
  end.

(** ** tuple_algorithms.hpp:435-474 *)
(** std::decay_t, for the element types here. *)
Definition decay (t : ty) : ty := match t with Ref u => u | _ => t end.
(** [make_tuple(args...)] and [forward_as_tuple(args...)]: the functions of std are declared alike. *)
Definition make_tuple (args : list ty) : option ty :=
  match resolve true true (found args) true with
  | Chosen Stdx => Some (Class Stdx (map decay args))
  | _ => None
  end.
Definition forward_as_tuple (args : list ty) : option ty :=
  match resolve true true (found args) true with
  | Chosen Stdx => Some (Class Stdx (map (fun t => Ref (decay t)) args))
  | _ => None
  end.
(** The elements of a stdx::tuple. *)
Definition elements (t : ty) : option (list ty) := match t with Class Stdx es => Some es | _ => None end.
(** [tuple_cat(ts...)]: std::tuple_cat is not viable for tuples of stdx. *)
Fixpoint tuple_cat (ts : list ty) : option ty :=
  match ts with
  | [] => Some (Class Stdx [])
  | t :: r => a <- elements t;; u <- tuple_cat r;; b <- elements u;; Some (Class Stdx (a ++ b))
  end.
Fixpoint each {A B} (f : A -> option B) (l : list A) : option (list B) :=
  match l with [] => Some [] | x :: r => y <- f x;; ys <- each f r;; Some (y :: ys) end.
(** [one] makes a tuple of one element: make_tuple (446) or forward_as_tuple (467). The calls in a pack
    expansion over no tuples are not made. *)
Definition prepend (one : list ty -> option ty) (subs : list ty) (e : ty) : option ty :=
  args <- each (fun sub => h <- one [e];; tuple_cat [h; sub]) subs;; make_tuple args.
Fixpoint product (one : list ty -> option ty) (ts : list (list ty)) : option ty :=
  match ts with
  | [] => make_tuple [Class Stdx []]
  | first :: rest =>
      c <- product one rest;; subs <- elements c;;
      ps <- each (prepend one subs) first;; tuple_cat ps
  end.
(** Of tuples with the element types [ts]. *)
Definition cartesian_product_copy (ts : list (list ty)) : option ty := product make_tuple ts.
Definition cartesian_product (ts : list (list ty)) : option ty := product forward_as_tuple ts.

(** ** type_traits.hpp:16-24: [to_underlying(e)], as called by underlying_type_t, bitset and atomic_bitset. From C++23 on
    namespace std has a function template with the same parameter, for enumerations. *)
Definition is_enum (t : ty) : bool := match t with Enum _ _ => true | _ => false end.
Definition to_underlying (cxx23 : bool) (t : ty) : option ty :=
  match resolve false false (found [t]) (cxx23 && is_enum t) with
  | Chosen Stdx => Some (match t with Enum _ u => u | _ => t end)
  | _ => None
  end.
