(** Specification vocabulary for C125; nothing here evaluates expressions. *)
From Coq Require Import List Arith Bool.
From Verif Require Import SafeIdModel.
Import ListNotations.

Section Spec.
  Context {V : Type}.

  (** What the expression is about, under all the calls. *)
  Inductive about := AVariable (x : nat) | AMoved (x : nat) | AValue (v : V).
  Fixpoint innermost (e : expr V) : about :=
    match e with
    | Name x => AVariable x
    | Move x => AMoved x
    | Temp v => AValue v
    | SafeIdentity e | Expand e | StdIdentity e => innermost e
    end.

  (** How many calls of [safe_identity] and [expand] it has. *)
  Fixpoint calls (e : expr V) : nat :=
    match e with
    | Name _ | Move _ | Temp _ => 0
    | SafeIdentity e | Expand e => S (calls e)
    | StdIdentity e => calls e
    end.

  Definition of_lvalue (e : expr V) : Prop := exists x, innermost e = AVariable x.

  (** Its variables exist. *)
  Definition sensible (w : world V) (e : expr V) : Prop :=
    match innermost e with
    | AVariable x | AMoved x => exists o, nth_error (objects w) x = Some o /\ alive o = true
    | AValue _ => True
    end.

  (** The value and the constness of what the expression is about. *)
  Definition original (w : world V) (e : expr V) (v : V) (k : bool) : Prop :=
    match innermost e with
    | AVariable x | AMoved x => exists o, nth_error (objects w) x = Some o /\ value o = v /\ const o = k
    | AValue u => u = v /\ k = false
    end.

  (** [r] can be used after the declaration, and what it refers to has the value [v] *)
  Definition usable (w : world V) (r : nat) (v : V) (k : bool) : Prop :=
    nth_error (objects w) r = Some (Object v k true).
  Definition dangles (w : world V) (r : nat) : Prop :=
    forall o, nth_error (objects w) r = Some o -> alive o = false.

  (** A new object can be made from an rvalue of class [c]: there is a way, and
      it is moved or copied. *)
  Definition movable (c : class) : Prop := is_array c = false /\ moving c = MoveDeclared.
  Definition copied (c : class) : Prop := is_array c = false /\ moving c = MoveAbsent /\ has_copy c = true.
  Definition copied_if_const (c : class) : Prop := is_array c = false /\ has_copy c = true.
  Definition can_be_made (c : class) (k : bool) : Prop :=
    if k then copied_if_const c else movable c \/ copied c.

  (** [std::identity] calls around a prvalue, with nothing outside them *)
  Definition prvalue (e : expr V) : Prop :=
    match e with
    | Temp _ => True
    | SafeIdentity e | Expand e => ~ of_lvalue e
    | _ => False
    end.
  Fixpoint std_of_prvalue (e : expr V) : Prop :=
    match e with StdIdentity e => prvalue e \/ std_of_prvalue e | _ => False end.
End Spec.
