(** Which operator+ the folds over tuples call. fold_left, fold_right and join are fold expressions over +
    (include/stdx/tuple.hpp:196-225 and :304-317) of a helper object, whose operator+ calls the function
    (tuple.hpp:114-155), with the elements. Overload resolution takes every operator+ into account that
    argument-dependent lookup finds: those of the namespaces of the elements, and those of the helper's own
    namespace, stdx::detail, to which include/stdx/ct_format.hpp:275-300 adds three. *)
From Coq Require Import List Bool Arith.
Import ListNotations.

(** ** Overload resolution, for operators with two parameters
    Classes are numbers. An argument has a class, may be const, and is an lvalue or an rvalue. *)
Record arg := Arg { class : nat; const : bool; rvalue : bool }.
(** Types of parameters: T, T const& and T&& for a template parameter T; c, c const&, c& and c&& for a class
    c (or for the specializations of a class template, which count as one class). Simplification: no
    volatile, no const&&, no derived classes. *)
Inductive param := AnyValue | AnyConstRef | AnyForward | Value (c : nat) | ConstRef (c : nat) | Ref (c : nat) | RvalueRef (c : nat).
Record operator := Operator { left_param : param; right_param : param; template : bool }.

(** How an argument gets to its parameter: as an object of its own class, bound to a reference (to const,
    an rvalue reference), or after a conversion to another class. *)
Inductive sequence := Object | Binds (to_const rref : bool) | Converted.
Section Resolution.
(** The implicit conversions between classes. *)
Variable converts : nat -> nat -> bool.
Definition to_class (c : nat) (a : arg) (exact : option sequence) : option sequence :=
  if Nat.eqb (class a) c then exact else if converts (class a) c then Some Converted else None.
Definition passes (p : param) (a : arg) : option sequence :=
  match p with
  | AnyValue => Some Object
  | AnyConstRef => Some (Binds true false)
  | AnyForward => Some (Binds (const a) (rvalue a))
  | Value c => to_class c a (Some Object)
  | ConstRef c => to_class c a (Some (Binds true false))
  | Ref c => if Nat.eqb (class a) c && negb (rvalue a) && negb (const a) then Some (Binds false false) else None
  | RvalueRef c => to_class c a (if rvalue a && negb (const a) then Some (Binds false true) else None)
  end.
(** [over.ics.rank]: a conversion is worse than none; an rvalue is better bound to an rvalue reference; of two
    bindings of the same kind the one to non-const is better; otherwise none is better. *)
Definition better_sequence (s t : sequence) : bool :=
  match s, t with
  | Converted, _ => false
  | _, Converted => true
  | Binds c r, Binds d q => r && negb q || Bool.eqb r q && negb c && d
  | _, _ => false
  end.
(** [temp.deduct.partial]: a parameter that names a class is more specialized than one that does not; otherwise,
    of two references, one to const more than others and an lvalue reference more than an rvalue
    reference. *)
Definition names (p : param) : option nat :=
  match p with AnyValue | AnyConstRef | AnyForward => None | Value c | ConstRef c | Ref c | RvalueRef c => Some c end.
Definition reference (p : param) : option nat :=
  match p with AnyValue | Value _ => None | AnyForward | RvalueRef _ => Some 0 | Ref _ => Some 1 | AnyConstRef | ConstRef _ => Some 2 end.
Definition as_specialized (p q : param) : bool :=
  match names p, names q with
  | Some _, None => true
  | None, Some _ => false
  | p', q' =>
      match p', q' with Some c, Some d => c =? d | _, _ => true end &&
      match reference p, reference q with Some a, Some b => b <=? a | _, _ => true end
  end.
Definition more_specialized (f g : operator) : bool :=
  as_specialized (left_param f) (left_param g) && as_specialized (right_param f) (right_param g) &&
  negb (as_specialized (left_param g) (left_param f) && as_specialized (right_param g) (right_param f)).
(** [over.match.best]. Not called for an operator that is not viable. *)
Definition better (f g : operator) (x y : arg) : bool :=
  match passes (left_param f) x, passes (right_param f) y, passes (left_param g) x, passes (right_param g) y with
  | Some f1, Some f2, Some g1, Some g2 =>
      negb (better_sequence g1 f1) && negb (better_sequence g2 f2) &&
      (better_sequence f1 g1 || better_sequence f2 g2 ||
       (negb (template f) && template g || template f && template g && more_specialized f g))
  | _, _, _, _ => false
  end.
Definition viable (x y : arg) (f : operator) : bool :=
  match passes (left_param f) x, passes (right_param f) y with Some _, Some _ => true | _, _ => false end.
(** The operator of the helper, [f], is chosen if it is viable and better than every other viable one; another
    one likewise; [None]: the expression does not compile. *)
Inductive chosen := Own | Other.
Definition resolve (f : operator) (others : list operator) (x y : arg) : option chosen :=
  let vs := filter (viable x y) others in
  if viable x y f && forallb (fun g => better f g x y) vs then Some Own
  else if existsb (fun g => implb (viable x y f) (better g f x y) &&
                            (length (filter (fun h => negb (better g h x y)) vs) =? 1)) vs then Some Other
  else None.
End Resolution.

(** ** The folds
    Class 0: fold_helper; class 1: join_helper; class 2: format_result. Each helper is made anew and is an
    rvalue. Simplification: fold_helper's two operators are looked at one at a time; the other one is not
    viable, as the element is not a fold_helper. *)
Definition fold_helper := 0.
Definition join_helper := 1.
Definition format_result := 2.
Definition helper (c : nat) : arg := Arg c false true.
(** tuple.hpp:119-126 and 128-135: hidden friends of the instantiated class, templates in the other operand. *)
Definition helper_plus_any : operator := Operator (RvalueRef fold_helper) AnyForward true.
Definition any_plus_helper : operator := Operator AnyForward (RvalueRef fold_helper) true.
(** tuple.hpp:149-155 *)
Definition join_plus_join : operator := Operator (RvalueRef join_helper) (RvalueRef join_helper) true.
(** ct_format.hpp:275-278, 280-285, 287-300 *)
Definition format_operators : list operator :=
  [Operator (Value format_result) AnyValue true; Operator AnyValue (Value format_result) true;
   Operator (Value format_result) (Value format_result) true].

Section Folds.
Variable converts : nat -> nat -> bool.
(** What lookup finds for an operand of a class, and for the class of the function, apart from the helpers'
    own operators. The types of the function and of the value are template arguments of a helper, so that
    lookup for the helper finds what it finds for them. *)
Variable found : nat -> list operator.
Variable found_op : list operator.
Variable V : Type.
Variable class_of : V -> nat.
Variable op : V -> V -> V.
(** A tuple: the elements as the fold passes them, and their values. *)
Definition tuple := list (arg * V).
Definition lookup (acc : V) (a : arg) : list operator := found_op ++ found (class_of acc) ++ found (class a).

(** tuple.hpp:196-209. [None]: does not compile, or what is called is not the given function. *)
Fixpoint fold_left (init : V) (t : tuple) : option V :=
  match t with
  | [] => Some init
  | (a, v) :: t' =>
      match resolve converts helper_plus_any (lookup init a) (helper fold_helper) a with
      | Some Own => fold_left (op init v) t'
      | _ => None
      end
  end.
(** tuple.hpp:211-225: (e0 + (e1 + ... (en + helper))). *)
Fixpoint fold_right (init : V) (t : tuple) : option V :=
  match t with
  | [] => Some init
  | (a, v) :: t' =>
      match fold_right init t' with
      | Some r =>
          match resolve converts any_plus_helper (lookup r a) a (helper fold_helper) with
          | Some Own => Some (op v r)
          | _ => None
          end
      | None => None
      end
  end.
(** tuple.hpp:304-317: every element is in a join_helper of its own. *)
Fixpoint join_from (acc : V) (t : tuple) : option V :=
  match t with
  | [] => Some acc
  | (a, v) :: t' =>
      match resolve converts join_plus_join (lookup acc a) (helper join_helper) (helper join_helper) with
      | Some Own => join_from (op acc v) t'
      | _ => None
      end
  end.
Definition join (t : tuple) : option V := match t with [] => None | (_, v) :: t' => join_from v t' end.
End Folds.
