(** Model of C++ types as far as include/stdx/type_traits.hpp, function_traits.hpp, tuple.hpp
    (the types of get) and tuple_destructure.hpp look at them. *)
From Verif Require Import Base.
Open Scope ub_scope.

(** A type is a shape with const and volatile.  Classes, enumerations and templates are named by
    numbers.  [Closure t] is the closure type that shrink makes for [t] (type_traits.hpp:226-230). *)
Inductive refq := NoRef | LRefQ | RRefQ.
Inductive ty := Ty (c v : bool) (s : shape)
with shape :=
| Void
| Scalar (n : N)                       (* arithmetic types, enumerations, nullptr_t *)
| Class (n : N)
| Union (n : N)
| TypeInst (template : N) (args : list ty)     (* a class: template <typename...> *)
| ValueInst (template : N) (args : list Z)     (* a class: template <auto...> *)
| Closure (t : ty)
| Ptr (t : ty)
| MemPtr (c : ty) (t : ty)             (* t c::* *)
| LRef (t : ty)
| RRef (t : ty)
| Array (n : option N) (t : ty)
| Func (r : ty) (args : list ty) (ellipsis : bool) (fc fv : bool) (q : refq) (noexc : bool).
Definition plain (s : shape) : ty := Ty false false s.
Definition sh (t : ty) : shape := match t with Ty _ _ s => s end.

(** References and functions have no qualifiers of their own; those of an array are its elements'.
    There are no references to void or to functions with qualifiers, nor arrays of them. *)
Definition qualified_function (s : shape) : bool :=
  match s with Func _ _ _ fc fv q _ => fc || fv || match q with NoRef => false | _ => true end | _ => false end.
Definition referable (s : shape) : bool :=
  match s with Void | LRef _ | RRef _ => false | _ => negb (qualified_function s) end.
Fixpoint wf (t : ty) : bool :=
  match t with
  | Ty c v s =>
    match s with
    | LRef u | RRef u => negb c && negb v && referable (sh u) && wf u
    | Func _ _ _ _ _ _ _ => negb c && negb v
    | Array _ u => negb c && negb v && wf u && match sh u with Func _ _ _ _ _ _ _ | Void | LRef _ | RRef _ => false | _ => true end
    | _ => true
    end
  end.

(** ** The standard's transformations *)
(** std::add_const_t *)
Fixpoint add_const (t : ty) : ty :=
  match t with
  | Ty c v s =>
    match s with
    | LRef _ | RRef _ | Func _ _ _ _ _ _ _ => t
    | Array n u => Ty c v (Array n (add_const u))
    | _ => Ty true v s
    end
  end.
(** std::is_const_v, std::is_volatile_v *)
Fixpoint is_const (t : ty) : bool :=
  match t with Ty c _ s => match s with Array _ u => is_const u | _ => c end end.
Fixpoint is_volatile (t : ty) : bool :=
  match t with Ty _ v s => match s with Array _ u => is_volatile u | _ => v end end.
(** std::remove_cv_t *)
Fixpoint remove_cv (t : ty) : ty :=
  match t with Ty _ _ s => match s with Array n u => plain (Array n (remove_cv u)) | _ => plain s end end.
(** std::remove_reference_t, std::remove_cvref_t *)
Definition remove_reference (t : ty) : ty := match sh t with LRef u | RRef u => u | _ => t end.
Definition remove_cvref (t : ty) : ty := remove_cv (remove_reference t).
(** std::is_reference_v *)
Definition is_reference (t : ty) : bool := match sh t with LRef _ | RRef _ => true | _ => false end.
(** std::is_class_v *)
Definition is_class (t : ty) : bool :=
  match sh t with Class _ | TypeInst _ _ | ValueInst _ _ | Closure _ => true | _ => false end.
(** T & and T && for a template parameter T: references collapse, void and functions with
    qualifiers are errors. *)
Definition lref (t : ty) : option ty :=
  match sh t with
  | LRef u | RRef u => Some (plain (LRef u))
  | s => if referable s then Some (plain (LRef t)) else None
  end.
Definition rref (t : ty) : option ty :=
  match sh t with
  | LRef u => Some (plain (LRef u))
  | RRef u => Some (plain (RRef u))
  | s => if referable s then Some (plain (RRef t)) else None
  end.
(** std::decay_t *)
Definition decay (t : ty) : ty :=
  let u := remove_reference t in
  match sh u with
  | Array _ e => plain (Ptr e)
  | Func _ _ _ _ _ _ _ => if referable (sh u) then plain (Ptr u) else u
  | _ => remove_cv u
  end.

(** ** type_traits.hpp *)
(** type_traits.hpp:43-45. *)
Definition is_function_v (t : ty) : bool := negb (is_reference t) && negb (is_const (add_const t)).

(** type_traits.hpp:47-64.  [has_call] says whether a class has a member named operator(); a class
    marked final cannot be derived from: a hard error. *)
Definition is_function_object_v (has_call final : shape -> bool) (t : ty) : option bool :=
  if is_class t then
    let s := sh (remove_cvref t) in if final s then None else Some (has_call s)
  else Some false.
(** type_traits.hpp:66-67. *)
Definition is_callable_v (has_call final : shape -> bool) (t : ty) : option bool :=
  o <- is_function_object_v has_call final t;; Some (is_function_v t || o).

(** type_traits.hpp:77-89, 92-100: the partial specializations match U<...> & and U<...> const &.
    [None]: U & is an error. *)
Definition is_specialization_of_v (u : ty) (template : N) : option bool :=
  r <- lref u;;
  Some (match r with
        | Ty _ _ (LRef (Ty _ false (TypeInst t _))) => N.eqb t template
        | _ => false
        end).
Definition is_value_specialization_of_v (u : ty) (template : N) : option bool :=
  r <- lref u;;
  Some (match r with
        | Ty _ _ (LRef (Ty _ false (ValueInst t _))) => N.eqb t template
        | _ => false
        end).

(** A call to a function declared to return [t], under decltype: arrays and functions cannot be
    returned; qualifiers of what is not a class are dropped ([expr.type]). *)
Definition call_type (t : ty) : option ty :=
  match sh t with
  | Array _ _ | Func _ _ _ _ _ _ _ => None
  | LRef _ | RRef _ => Some t
  | Class _ | Union _ | TypeInst _ _ | ValueInst _ _ | Closure _ => Some t
  | s => Some (plain s)
  end.
(** type_traits.hpp:259-267, 280. *)
Definition shrink_t (t : ty) : ty := plain (Closure t).
(** type_traits.hpp:232-239: t()() is valid for an object of a closure type that is not volatile,
    and T{} is valid unless T is a non-const lvalue reference. *)
Definition unwrap (t : ty) : option ty :=
  match t with
  | Ty _ false (Closure u) => Some u
  | Ty _ _ (LRef (Ty true false (Closure u))) => Some u
  | Ty _ _ (RRef (Ty _ false (Closure u))) => Some u
  | _ => None
  end.
(** type_traits.hpp:237-239, 269-275, 281: when the constrained overload has no valid return type
    the other one is used. *)
Definition expand_t (t : ty) : option ty :=
  match unwrap t with
  | Some u => match call_type u with Some r => Some r | None => call_type t end
  | None => call_type t
  end.

(** ** function_traits.hpp *)
Record traits := { return_type : ty; arg_types : list ty; obj_t : ty }.
(** A class with the qualifiers and reference of a member function. *)
Definition object_type (C : ty) (fc fv : bool) (q : refq) : ty :=
  let o := match C with Ty c v s => Ty (c || fc) (v || fv) s end in
  match q with NoRef => o | LRefQ => plain (LRef o) | RRefQ => plain (RRef o) end.
(** function_traits.hpp:21-117: the specializations.  None of them is for noexcept functions or for
    a trailing ellipsis. *)
Definition signature_traits (t : ty) : option traits :=
  match t with
  | Ty false false (Func r a false false false NoRef false) => Some {| return_type := r; arg_types := a; obj_t := plain Void |}
  | Ty _ _ (Ptr (Ty false false (Func r a false false false NoRef false))) => Some {| return_type := r; arg_types := a; obj_t := plain Void |}
  | Ty false false (MemPtr C (Ty false false (Func r a false fc fv q false))) =>
      Some {| return_type := r; arg_types := a; obj_t := object_type C fc fv q |}
  | _ => None
  end.
(** function_traits.hpp:119-134: [call_op s] is the type of &S::operator(), if there is exactly one
    and it is not a template. *)
Definition function_traits (call_op : shape -> option ty) (t : ty) : option traits :=
  match signature_traits t with
  | Some x => Some x
  | None => let u := remove_cvref t in if is_class u then (m <- call_op (sh u);; signature_traits m) else None
  end.
(** function_traits.hpp:137-152. *)
Definition return_t call_op t := option_map return_type (function_traits call_op t).
Definition args_t call_op t := option_map arg_types (function_traits call_op t).
Definition decayed_args_t call_op t := option_map (map decay) (args_t call_op t).
Definition obj_arg_t call_op t := option_map obj_t (function_traits call_op t).
Definition nth_arg_t call_op t n : option ty := a <- args_t call_op t;; nth_error a n.
Definition decayed_nth_arg_t call_op t n : option ty := option_map decay (nth_arg_t call_op t n).

(** ** tuple.hpp: the types of get *)
(** How the tuple is given: as an lvalue or an rvalue, const or not. *)
Inductive category := L | CL | R | CR.
(** tuple.hpp:97-103, 226-270, 422-426: there is no overload for const rvalues. *)
Definition get_type (k : category) (t : ty) : option ty :=
  match k with
  | L => lref t
  | R => rref t
  | CL | CR => lref (add_const t)
  end.
(** tuple.hpp:435-437. *)
Definition tuple_element_t (ts : list ty) (i : nat) : option ty := nth_error ts i.

(** ** tuple_destructure.hpp *)
(** tuple_destructure.hpp:13-28; std::tuple_element of a const tuple adds const. *)
Definition std_tuple_element (ts : list ty) (const : bool) (i : nat) : option ty :=
  t <- nth_error ts i;; r <- rref t;;
  let e := remove_cvref r in Some (if const then add_const e else e).
(** The entity a structured binding introduces: auto, auto const, auto &, auto const &, or auto && with an
    lvalue or rvalue.  [None]: the declaration is an error. *)
Inductive form := ByValue | ByConstValue | ByRef | ByConstRef | ByFwdLvalue | ByFwdRvalue.
Definition form_const (f : form) (source_const : bool) : bool :=
  match f with ByValue => false | ByConstValue | ByConstRef => true | _ => source_const end.
(** [dcl.struct.bind]: the hidden variable is an lvalue if it is an lvalue reference, and an xvalue
    otherwise. *)
Definition form_category (f : form) (source_const : bool) : category :=
  let c := form_const f source_const in
  match f with
  | ByValue | ByConstValue | ByFwdRvalue => if c then CR else R
  | _ => if c then CL else L
  end.
(** A reference to [e] binds directly to an expression of type [x] (a reference) if [e] is the type
    referred to with at least its qualifiers. *)
Definition binds (e x : ty) : option bool :=
  match sh x with
  | LRef u | RRef u => Some (implb (is_const u) (is_const e) && implb (is_volatile u) (is_volatile e))
  | _ => None
  end.
(** The type of the name introduced for element [i] (what decltype says). *)
Definition binding (elem : list ty -> bool -> nat -> option ty) (get : category -> ty -> option ty)
  (ts : list ty) (f : form) (source_const : bool) (i : nat) : option ty :=
  t <- nth_error ts i;;
  e <- elem ts (form_const f source_const) i;;
  x <- get (form_category f source_const) t;;
  ok <- binds (remove_reference e) x;;
  if ok then Some e else None.
Definition stdx_binding := binding std_tuple_element get_type.
