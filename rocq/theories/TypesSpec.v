(** What the type predicates and transformations are expected to say. *)
From Verif Require Import Base TypesModel.
Open Scope ub_scope.

(** [t] is a function type. *)
Definition function_type (t : ty) : Prop := exists r a e fc fv q n, t = plain (Func r a e fc fv q n).
(** [t] is a class or union: only these can have a member operator(). *)
Definition class_or_union (t : ty) : Prop := match sh t with Class _ | Union _ | TypeInst _ _ | ValueInst _ _ | Closure _ => True | _ => False end.

(** [t] is a class type, not a union: a plain class, a specialization of a class template or the type
    of a lambda, with any qualifiers. *)
Inductive class_type : ty -> Prop :=
| ct_class c v n : class_type (Ty c v (Class n))
| ct_type_inst c v n ts : class_type (Ty c v (TypeInst n ts))
| ct_value_inst c v n vs : class_type (Ty c v (ValueInst n vs))
| ct_closure c v r : class_type (Ty c v (Closure r)).

(** [u], without qualifiers and reference, is a specialization of the template. *)
Definition specialization (u : ty) (template : N) : Prop := exists args, remove_cvref u = plain (TypeInst template args).
Definition value_specialization (u : ty) (template : N) : Prop := exists args, remove_cvref u = plain (ValueInst template args).
Definition volatile (t : ty) : Prop := is_volatile (remove_reference t) = true.

(** A function signature R(Args...). *)
Definition signature (r : ty) (a : list ty) : ty := plain (Func r a false false false NoRef false).
(** The object a member function of C is called on: const and volatile as the class or the function
    is, and a reference if the function has a reference qualifier. *)
Inductive member_object : ty -> bool -> bool -> refq -> ty -> Prop :=
| mo_none c v s fc fv : member_object (Ty c v s) fc fv NoRef (Ty (c || fc) (v || fv) s)
| mo_lvalue C fc fv o : member_object C fc fv NoRef o -> member_object C fc fv LRefQ (plain (LRef o))
| mo_rvalue C fc fv o : member_object C fc fv NoRef o -> member_object C fc fv RRefQ (plain (RRef o)).
(** What an argument of type t becomes when it is passed by value: an array a pointer to its
    elements, a function a pointer to it, a reference what it refers to; anything else loses its
    qualifiers.  A function with qualifiers, which nothing can point to, stays what it is. *)
Inductive decays : ty -> ty -> Prop :=
| d_array c v n e : decays (Ty c v (Array n e)) (plain (Ptr e))
| d_function r a e n : decays (plain (Func r a e false false NoRef n)) (plain (Ptr (plain (Func r a e false false NoRef n))))
| d_qualified r a e fc fv q n : fc = true \/ fv = true \/ q <> NoRef ->
    decays (plain (Func r a e fc fv q n)) (plain (Func r a e fc fv q n))
| d_object c v s : (match s with Array _ _ | Func _ _ _ _ _ _ _ | LRef _ | RRef _ => False | _ => True end) -> decays (Ty c v s) (plain s)
| d_lvalue t u : is_reference t = false -> decays t u -> decays (plain (LRef t)) u
| d_rvalue t u : is_reference t = false -> decays t u -> decays (plain (RRef t)) u.
(** The callables with that signature and the object they are called on: a function, a pointer to
    one, a pointer to a member function, and an object (or reference to one) of a class with one
    call operator. *)
Inductive callable (call_op : shape -> option ty) (r : ty) (a : list ty) : ty -> ty -> Prop :=
| a_function : callable call_op r a (signature r a) (plain Void)
| a_pointer c v : callable call_op r a (Ty c v (Ptr (signature r a))) (plain Void)
| a_member C fc fv q o : member_object C fc fv q o ->
    callable call_op r a (plain (MemPtr C (plain (Func r a false fc fv q false)))) o
| an_object t m o : class_type (remove_cvref t) -> call_op (sh (remove_cvref t)) = Some m ->
    callable call_op r a m o -> ~ class_type m -> is_reference m = false -> callable call_op r a t o.
(** Storable: what a tuple of copies can hold. *)
Definition storable (t : ty) : Prop :=
  match t with Ty c v s => c = false /\ v = false /\ match s with LRef _ | RRef _ | Array _ _ => False
    | Func _ _ _ _ _ _ _ => qualified_function s = true | _ => True end end.

(** std::get: the element with the tuple's qualifiers and value category. *)
Definition std_get (k : category) (t : ty) : option ty :=
  match k with L => lref t | CL => lref (add_const t) | R => rref t | CR => rref (add_const t) end.
(** The same, spelled out: what std::get gives for an element of type [t].  An element that is a reference
    stays one to the same type; one that is an rvalue reference is an lvalue unless the tuple is an
    rvalue. *)
Definition rvalue (k : category) : Prop := k = R \/ k = CR.
Definition const_tuple (k : category) : Prop := k = CL \/ k = CR.
Inductive std_gives (k : category) : ty -> ty -> Prop :=
| g_value t : referable (sh t) = true -> ~ rvalue k -> ~ const_tuple k -> std_gives k t (plain (LRef t))
| g_const t : referable (sh t) = true -> ~ rvalue k -> const_tuple k -> std_gives k t (plain (LRef (add_const t)))
| g_rvalue t : referable (sh t) = true -> rvalue k -> ~ const_tuple k -> std_gives k t (plain (RRef t))
| g_const_rvalue t : referable (sh t) = true -> rvalue k -> const_tuple k -> std_gives k t (plain (RRef (add_const t)))
| g_lref c v u : std_gives k (Ty c v (LRef u)) (plain (LRef u))
| g_rref_l c v u : ~ rvalue k -> std_gives k (Ty c v (RRef u)) (plain (LRef u))
| g_rref_r c v u : rvalue k -> std_gives k (Ty c v (RRef u)) (plain (RRef u)).
(** std::tuple_element of std::tuple, and structured bindings of a std::tuple. *)
Definition std_element (ts : list ty) (const : bool) (i : nat) : option ty :=
  t <- nth_error ts i;; Some (if const then add_const t else t).
Definition std_binding := binding std_element std_get.
(** The names a structured binding introduces are const: those of auto const& and auto const always, those of a copy
    (auto) never, and those of auto& and auto&& when the tuple is. *)
Definition names_const (f : form) (tuple_const : bool) : Prop :=
  f = ByConstRef \/ f = ByConstValue \/ (f <> ByValue /\ tuple_const = true).
(** A type without qualifiers that is not a reference. *)
Definition unqualified (t : ty) : Prop := is_reference t = false /\ remove_cv t = t /\ referable (sh t) = true.
