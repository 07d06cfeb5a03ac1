(** What a user of with_result_of, latched, cached and transform expects. *)
From Verif Require Import Base LazyModel.

(** The function is called once, its result is what is stored, and nothing is copied or
    moved: the result is built where it is kept. *)
Definition in_place (o : outcome) : Prop := o = Some ([Called], TheResult).
(** The function is called once and its result is stored, with at most one copy or move. *)
Definition kept (o : outcome) : Prop :=
  exists evs, o = Some (Called :: evs, TheResult) /\ ~ In Called evs /\ (length evs <= 1)%nat.
(** A class to derive from, callable: what a lambda expression gives. *)
Definition lambda (c : callable) : Prop := is_class c = true /\ is_final c = false /\ when_mutable c = true.
(** The functions each place takes: transform takes any (by value for the free function),
    the others a lambda, and latched one that can be called when const. *)
Definition takes_function (s : site) (c : callable) : Prop :=
  match s with
  | MemberTransform => True
  | FreeTransform | FreeTransformStd => returns c = ByValue
  | LatchedValue => lambda c /\ when_const c = true
  | _ => lambda c
  end.
(** The types of results each place takes: those that initialize with braces do not take
    aggregates, nor classes with an initializer_list constructor. *)
Definition takes_type (s : site) (t : vtype) : Prop :=
  match s with
  | Emplace | LatchedValue | FreeTransformStd => True
  | _ => match t with Scalar => True | Class m => lists m = ListNone | Aggregate _ _ _ => False end
  end.
(** Classes that take only their own kind (no unconstrained constructor template, no
    initializer_list constructor), and can be moved or copied. *)
Definition ordinary (m : members) : Prop := greedy m = false /\ lists m = ListNone.
Definition can_move (m : members) : Prop := move m = MoveOk \/ (move m = MoveAbsent /\ copyable m = true).
(** The compilers the library supports build a by-value result in place. *)
Definition elision : rules := Rules true true.
(** C++20 as published. *)
Definition published : rules := Rules false false.
