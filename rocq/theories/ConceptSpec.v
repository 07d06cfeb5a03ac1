(** The concepts of the standard library, [concepts.lang], [concept.booleantestable] and
    [concept.equalitycomparable], [concept.totallyordered], [concept.invocable], [concept.predicate], as far as
    they can be checked at compile time. *)
From Verif Require Import Base ConceptModel.

Section Std.
Variable f : facts.
Definition std_convertible_to (from to : type) : Prop := is_convertible f from to = true /\ casts f from to = true.
(** boolean-testable: B converts to bool, and so does its negation. *)
Definition std_boolean_testable (b : type) : Prop :=
  std_convertible_to b (bool_t f) /\
  exists r n, rvalue_ref f b = Some r /\ negation f r = Some n /\ std_convertible_to n (bool_t f).
(** The comparison of two const lvalues of T, which is not a reference any more: boolean-testable. *)
Definition std_comparison (t : type) (op : comparison_op) : Prop :=
  exists r res, const_ref f (remove_reference f t) = Some r /\ compare f op r r = Some res /\ std_boolean_testable res.
Definition std_equality_comparable (t : type) : Prop := std_comparison t Eq /\ std_comparison t Ne.
Definition std_totally_ordered (t : type) : Prop :=
  std_equality_comparable t /\ std_comparison t Lt /\ std_comparison t Le /\ std_comparison t Gt /\ std_comparison t Ge.
Definition std_invocable (g : type) (args : list type) : Prop := exists r, invoke f g args = Some r.
Definition std_predicate (g : type) (args : list type) : Prop := exists r, invoke f g args = Some r /\ std_boolean_testable r.

(** What holds of every compiler. *)
Record sensible : Prop := {
  same_iff : forall t u, is_same f t u = true <-> t = u;
  bool_testable : std_boolean_testable (bool_t f);
  removed : forall t, remove_reference f (remove_reference f t) = remove_reference f t }.
End Std.
