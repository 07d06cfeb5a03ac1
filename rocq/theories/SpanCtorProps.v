(** C112: spans over arrays stay within them, or do not compile. *)
From Coq Require Import List NArith Bool Lia.
From Verif Require Import SpanCtorModel SpanCtorSpec.
Import ListNotations.


(** Passing a named array for a span: it compiles exactly if it does not drop const and the span is not
    longer than the array, and then the span has the size its type says, or that of the array. *)
Theorem C112_passing : forall t s,
  (drops_const t s \/ too_long t s -> construct t Copy Lvalue s = Rejected) /\
  (~ drops_const t s -> ~ too_long t s -> construct t Copy Lvalue s = Formed (its_size t s)).
Proof.
  intros [tc ext] s. unfold drops_const, too_long, its_size. split.
  - intros [[H1 H2]|[e [H1 H2]]]; cbn in *.
    + subst. destruct s as [[] n|[] [] n], ext; cbn in *; try discriminate; reflexivity.
    + subst. apply N.leb_gt in H2. destruct s as [[] n|[] [] n], tc; cbn in *; unfold construct; cbn; rewrite ?H2; reflexivity.
  - intros H1 H2.
    destruct ext as [e|].
    + assert (N.leb e (count s) = true) as HL.
      { apply N.leb_le. destruct (N.le_gt_cases e (count s)); [assumption|]. exfalso. apply H2. exists e. auto. }
      destruct s as [[] n|[] [] n], tc; cbn in *; unfold construct; cbn; rewrite ?HL; try reflexivity; exfalso; apply H1; auto.
    + destruct s as [[] n|[] [] n], tc; cbn in *; try reflexivity; exfalso; apply H1; auto.
Qed.
Print Assumptions C112_passing.

(** span<T, E> s{x} with a named array x: the same for std::array, and for C arrays if their elements are as
    const as those of the span. *)
Theorem C112_direct : forall t s,
  (match s with CArr k _ => k = tc t | StdArr _ _ _ => True end) ->
  construct t Direct Lvalue s = construct t Copy Lvalue s.
Proof.
  intros [tc ext] [k n|ek k n] H; cbn in *.
  - subst. destruct tc; reflexivity.
  - destruct ek, k; reflexivity.
Qed.
Print Assumptions C112_direct.

(** With dynamic extent, also for the other C arrays. *)
Theorem C112_dynamic : forall t i s,
  extent t = None -> construct t i Lvalue s = if const_elements s && negb (tc t) then Rejected else Formed (count s).
Proof. intros [tc ext] i s H; cbn in *; subst. destruct i, s as [[] n|[] [] n], tc; reflexivity. Qed.
Print Assumptions C112_dynamic.

(** span s{x} of a named array has its size as extent, and const elements exactly if the array has. *)
Theorem C112_deduced : forall s,
  construct_deduced Lvalue s = (Some {| tc := const_elements s; extent := Some (count s) |}, Formed (count s)).
Proof.
  intros s. unfold construct_deduced.
  assert (deduce Lvalue s = Some {| tc := const_elements s; extent := Some (count s) |}) as ->
    by (destruct s as [[] n|[] [] n]; reflexivity).
  destruct s as [[] n|[] [] n]; unfold construct; cbn; rewrite N.leb_refl; reflexivity.
Qed.
Print Assumptions C112_deduced.

(** A span over const elements from a named C array of non-const elements is made by the constructor for ranges:
    it compiles whatever its extent, with more elements than the array if the extent says so. *)
Theorem C112_c_array_refuted : forall n e,
  construct {| tc := true; extent := Some e |} Direct Lvalue (CArr false n) = Formed e.
Proof. reflexivity. Qed.
Print Assumptions C112_c_array_refuted.

(** So is a span over const elements from a temporary std::array. *)
Theorem C112_temporary_refuted : forall ek k n e,
  construct {| tc := true; extent := Some e |} Direct Rvalue (StdArr ek k n) = Formed e.
Proof. intros [] [] n e; reflexivity. Qed.
Print Assumptions C112_temporary_refuted.

(** A temporary array is taken as a span of dynamic extent, and only if its elements are const: span s{x} does not
    compile for std::array{1, 2, 3}, although a span over const elements may be made from it. *)
Theorem C112_temporary_deduced_refuted : forall s,
  construct_deduced Rvalue s = (Some {| tc := const_elements s; extent := None |}, if const_elements s then Formed (count s) else Rejected).
Proof. intros [[] n|[] [] n]; reflexivity. Qed.
Print Assumptions C112_temporary_deduced_refuted.

(** Non-vacuity. *)
Example passes : construct {| tc := true; extent := Some 2%N |} Copy Lvalue (CArr false 3) = Formed 2.
Proof. reflexivity. Qed.
Example rejects : construct {| tc := true; extent := Some 4%N |} Copy Lvalue (CArr false 3) = Rejected /\ too_long {| tc := true; extent := Some 4%N |} (CArr false 3).
Proof. split; [reflexivity|]. exists 4%N. split; [reflexivity|]. cbn. lia. Qed.
Example accepts_too_long : construct {| tc := true; extent := Some 4%N |} Direct Lvalue (CArr false 3) = Formed 4.
Proof. reflexivity. Qed.
