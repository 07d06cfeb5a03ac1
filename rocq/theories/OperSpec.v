(** The unary operators + and * of C++ ([expr.unary.op], [over.match.oper], [conv.array], [conv.func],
    [conv.prom]) applied to an operand: what the user compares stdx::unary_plus and stdx::dereference with. *)
From Verif Require Import Base.
Open Scope nat_scope.

Inductive ty :=
| Num (k : nat)            (* an arithmetic type or an unscoped enumeration *)
| Opaque (k : nat)         (* a scoped enumeration, std::nullptr_t, a pointer to a member *)
| Void
| Ptr (c : bool) (t : ty)  (* pointer to t, const t if c *)
| Array (t : ty) (n : nat)
| Fun (k : nat)
| Class (k : nat).
Inductive category := Lvalue | Xvalue | Prvalue.
Inductive oper := Plus | Star.

(** Scalars kept at one address each; [Addr] is the value of a pointer, [Bytes] any other. *)
Inductive val := Bytes (z : Z) | Addr (l : nat).
Definition memory := list val.
(** The object at an address, or a value that no object holds. *)
Inductive what := At (l : nat) | Is (v : val).
(** [bits]: Some k for a bit-field, whose values are promoted to the type k. *)
Record operand := mkop { oty : ty; oconst : bool; ocat : category; bits : option nat; is : what }.
Record result := mkres { rty : ty; rconst : bool; rcat : category; rwhat : what }.
Inductive outcome := NotCompiled | Undefined | Gives (r : result).

Definition read (m : memory) (w : what) : option val := match w with At l => nth_error m l | Is v => Some v end.

(** What a user's program consists of: the type that each arithmetic type is promoted to, and for each
    class what its operator (the one that overload resolution selects, if there is one) does for an
    object of the given constness and category at the given address. *)
Record program := mkprog {
  promoted : nat -> nat;
  class_oper : nat -> oper -> bool -> category -> nat -> memory -> outcome }.

Definition apply_oper (P : program) (o : oper) (e : operand) (m : memory) : outcome :=
  match o, oty e, is e with
  | Plus, Num k, w =>
      match read m w with
      | Some v => Gives (mkres (Num (match bits e with Some b => b | None => promoted P k end)) false Prvalue (Is v))
      | None => Undefined
      end
  | Plus, Ptr c t, w => match read m w with Some v => Gives (mkres (Ptr c t) false Prvalue (Is v)) | None => Undefined end
  | Plus, Array t n, At l => Gives (mkres (Ptr (oconst e) t) false Prvalue (Is (Addr l)))
  | Plus, Fun k, At l => Gives (mkres (Ptr false (Fun k)) false Prvalue (Is (Addr l)))
  | Star, Ptr c Void, _ => NotCompiled
  | Star, Ptr c t, w => match read m w with Some (Addr l) => Gives (mkres t c Lvalue (At l)) | _ => Undefined end
  | Star, Array t n, At l => Gives (mkres t (oconst e) Lvalue (At l))
  | Star, Fun k, At l => Gives (mkres (Fun k) false Lvalue (At l))
  | _, Class k, At l => class_oper P k o (oconst e) (ocat e) l m
  | _, Class k, Is v => class_oper P k o (oconst e) (ocat e) (length m) (m ++ [v])
  | _, _, _ => NotCompiled
  end.

(** Operands that there are: a function is an lvalue; an array is not a prvalue (it is made into an
    object before anything is done with it); a prvalue that is not of a class type is not const; only
    prvalues are not at an address, and what is at an address is there; only numbers are in bit-fields. *)
Definition possible (e : operand) (m : memory) : Prop :=
  (forall k, oty e = Fun k -> ocat e = Lvalue /\ oconst e = false) /\
  (forall t n, oty e = Array t n -> ocat e <> Prvalue) /\
  (ocat e = Prvalue -> (exists k, oty e = Class k) \/ oconst e = false) /\
  (match is e with At l => ocat e <> Prvalue /\ l < length m | Is _ => ocat e = Prvalue end) /\
  (bits e <> None -> (exists k, oty e = Num k) /\ ocat e <> Prvalue) /\ oty e <> Void.

(** A class whose operator does the same for a prvalue and for the xvalue that designates it: all but
    those that take the operand by value and cannot be moved or behave otherwise when moved. *)
Definition moves_freely (P : program) (k : nat) : Prop :=
  forall o c l m, class_oper P k o c Xvalue l m = class_oper P k o c Prvalue l m.
