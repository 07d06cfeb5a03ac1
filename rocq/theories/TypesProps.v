(** Properties C61-C67: type predicates, function traits, shrink/expand, the types of get, and
    structured bindings. *)
From Verif Require Import Base TypesModel TypesSpec TypesProofs.
Open Scope ub_scope.

Definition an_int : ty := plain (Scalar 0).
Definition a_const_int : ty := Ty true false (Scalar 0).

(** C61. is_function_v is true exactly for function types, whatever their qualifiers. *)
Theorem C61_is_function t : wf t = true -> is_function_v t = true <-> function_type t.
Proof. exact (is_function t). Qed.
Print Assumptions C61_is_function.
Example C61_nonvacuous :
  is_function_v (plain (Func an_int [an_int] true true false RRefQ true)) = true /\
  is_function_v (plain (Array (Some 3%N) an_int)) = false /\ wf (plain (Array (Some 3%N) a_const_int)) = true /\
  is_function_v (plain Void) = false /\ is_function_v (plain (LRef (signature an_int []))) = false.
Proof. now repeat split. Qed.

(** C62. is_function_object_v is true exactly for classes with a call operator (overloaded or
    template or not), and is_callable_v for these and functions, when no class is final. *)
Theorem C62_function_object_partial has_call final t : (forall s, class_type (plain s) -> final s = false) ->
  is_function_object_v has_call final t <> None /\
  (is_function_object_v has_call final t = Some true <-> class_type t /\ has_call (sh t) = true).
Proof. exact (function_object_iff has_call final t). Qed.
Print Assumptions C62_function_object_partial.
Theorem C62_callable_partial has_call final t : wf t = true -> (forall s, class_type (plain s) -> final s = false) ->
  is_callable_v has_call final t = Some true <-> function_type t \/ (class_type t /\ has_call (sh t) = true).
Proof. exact (callable_iff has_call final t). Qed.
Print Assumptions C62_callable_partial.
(** It does not compile for any final class. *)
Theorem C62_final_refuted has_call final t : class_type t -> final (sh t) = true ->
  is_function_object_v has_call final t = None /\ is_callable_v has_call final t = None.
Proof. intros C%class_iff F. unfold is_callable_v. now rewrite (function_object_final has_call final t C F). Qed.
Print Assumptions C62_final_refuted.
(** ... and it is false for every union, with call operator or not. *)
Theorem C62_union_refuted has_call final c v n :
  is_function_object_v has_call final (Ty c v (Union n)) = Some false.
Proof. reflexivity. Qed.
Print Assumptions C62_union_refuted.
Example C62_nonvacuous :
  let has s := match s with Class 1 => true | _ => false end in
  is_callable_v has (fun _ => false) (Ty true false (Class 1)) = Some true /\
  is_callable_v has (fun _ => false) (plain (Class 2)) = Some false /\
  is_callable_v has (fun _ => false) (signature an_int []) = Some true /\
  is_callable_v has (fun s => match s with Class 2 => true | _ => false end) (plain (Class 2)) = None.
Proof. now repeat split. Qed.

(** C63. is_specialization_of_v is true exactly for the specializations of the template, const or
    not, and references to them; for types that can be referred to and are not volatile. *)
Theorem C63_specialization_partial u template : sh u <> Void -> qualified_function (sh u) = false -> ~ volatile u ->
  (is_specialization_of_v u template = Some true <-> specialization u template) /\
  (is_value_specialization_of_v u template = Some true <-> value_specialization u template).
Proof.
  intros Hv Hq V. assert (N : lref u <> None) by (now apply specialization_total).
  split; [rewrite (is_specialization u template N)|rewrite (is_value_specialization u template N)]; tauto.
Qed.
Print Assumptions C63_specialization_partial.
(** ... it is false for every volatile specialization. *)
Theorem C63_volatile_refuted u template : volatile u -> is_specialization_of_v u template <> Some true /\ is_value_specialization_of_v u template <> Some true.
Proof.
  intros V. destruct (lref u) eqn:E.
  - assert (N : lref u <> None) by congruence. rewrite (is_specialization u template N), (is_value_specialization u template N). tauto.
  - unfold is_specialization_of_v, is_value_specialization_of_v. rewrite E. split; discriminate.
Qed.
Print Assumptions C63_volatile_refuted.
(** ... and does not compile for void and functions with qualifiers. *)
Theorem C63_void_refuted u template : sh u = Void \/ qualified_function (sh u) = true ->
  is_specialization_of_v u template = None /\ is_value_specialization_of_v u template = None.
Proof.
  intros H. assert (E : lref u = None).
  { destruct (lref u) eqn:E; [|reflexivity]. assert (N : lref u <> None) by congruence. apply specialization_total in N as [N1 N2]. destruct H; congruence. }
  unfold is_specialization_of_v, is_value_specialization_of_v. now rewrite E.
Qed.
Print Assumptions C63_void_refuted.
Example C63_nonvacuous :
  is_specialization_of_v (plain (LRef (Ty true false (TypeInst 7 [an_int])))) 7 = Some true /\
  is_specialization_of_v (plain (TypeInst 7 [an_int])) 8 = Some false /\
  is_value_specialization_of_v (plain (ValueInst 7 [])) 7 = Some true /\
  is_specialization_of_v (Ty false true (TypeInst 7 [an_int])) 7 = Some false /\
  is_specialization_of_v (plain Void) 7 = None /\ specialization (plain (RRef (plain (TypeInst 7 [])))) 7.
Proof. repeat split. now exists []. Qed.

(** C64. For every callable with signature R(Args...), function_traits gives R, Args, the object
    type and each argument, and the decayed arguments are the arguments after decay, which can be
    stored. *)
Theorem C64_traits_partial call_op r a t o : callable call_op r a t o ->
  return_t call_op t = Some r /\ args_t call_op t = Some a /\ obj_arg_t call_op t = Some o /\
  (forall n, nth_arg_t call_op t n = nth_error a n) /\
  (forallb wf a = true -> exists b, decayed_args_t call_op t = Some b /\ Forall2 decays a b /\
    forall n, decayed_nth_arg_t call_op t n = nth_error b n).
Proof.
  intros H. unfold return_t, decayed_args_t, obj_arg_t, decayed_nth_arg_t, nth_arg_t, args_t.
  rewrite (traits_ok call_op r a t o H). repeat split. intros W. exists (map decay a). repeat split.
  - now apply decays_args.
  - intros n. symmetry. apply nth_error_map.
Qed.
Print Assumptions C64_traits_partial.
Theorem C64_decayed t : wf t = true -> exists u, decays t u /\ storable u /\ forall w, decays t w -> w = u.
Proof.
  intros W. exists (decay t). split; [now apply decay_decays|]. split; [exact (decay_storable t W)|].
  intros w D. exact (decays_fun t w W D).
Qed.
Print Assumptions C64_decayed.
(** None of it is there for noexcept functions, pointers to them, noexcept member functions and
    classes whose call operator is noexcept (a noexcept lambda). *)
Theorem C64_noexcept_refuted call_op r a e fc fv q C c v n :
  let f := plain (Func r a e fc fv q true) in
  function_traits call_op f = None /\ function_traits call_op (Ty c v (Ptr f)) = None /\
  function_traits call_op (plain (MemPtr C f)) = None /\
  (call_op (Class n) = Some (plain (MemPtr C f)) -> function_traits call_op (Ty c v (Class n)) = None).
Proof.
  cbv zeta. unfold function_traits, plain. split; [|split; [|split]].
  - now destruct e, fc, fv, q.
  - now destruct c, v, e, fc, fv, q.
  - now destruct e.
  - intros H. replace (signature_traits (Ty c v (Class n))) with (@None traits) by now destruct c, v.
    cbn. rewrite H. now destruct e.
Qed.
Print Assumptions C64_noexcept_refuted.
(** ... nor for references to functions, const member pointers, or functions with an ellipsis. *)
Theorem C64_others_refuted call_op r a C f v :
  function_traits call_op (plain (LRef (signature r a))) = None /\
  function_traits call_op (Ty true v (MemPtr C f)) = None /\
  function_traits call_op (plain (Func r a true false false NoRef false)) = None.
Proof. now repeat split. Qed.
Print Assumptions C64_others_refuted.
Example C64_nonvacuous :
  let op s := match s with Class 1 => Some (plain (MemPtr (plain (Class 1)) (plain (Func an_int [plain (LRef a_const_int); an_int] false true false NoRef false)))) | _ => None end in
  callable op an_int [plain (LRef a_const_int); an_int] (plain (LRef (Ty true false (Class 1)))) (Ty true false (Class 1)) /\
  decayed_args_t op (plain (LRef (Ty true false (Class 1)))) = Some [an_int; an_int].
Proof. split; [|reflexivity]. eapply an_object; try reflexivity; [constructor| |now intros H; inversion H]. apply (a_member _ _ _ (plain (Class 1)) true false NoRef). constructor. Qed.

(** C65. expand_t undoes shrink_t, for every type that a function can return unchanged: classes and
    unions with any qualifiers, references, and other types without qualifiers. *)
Theorem C65_expand_shrink_partial t : (forall n e, sh t <> Array n e) -> ~ function_type t -> wf t = true ->
  is_const t = false /\ is_volatile t = false \/ class_or_union t ->
  expand_t (shrink_t t) = Some t.
Proof.
  intros Na Nf W H. rewrite expand_shrink. destruct t as [c v s]. cbn [sh] in Na.
  destruct s; cbn in *; try reflexivity; try (destruct H as [[-> ->]|[]]; reflexivity).
  - exfalso. now eapply Na.
  - exfalso. apply Nf. destruct c, v; try discriminate. now repeat eexists.
Qed.
Print Assumptions C65_expand_shrink_partial.
(** ... the same if the shrunk type is const, or an rvalue reference, or a reference to const. *)
Theorem C65_expand_const_partial t : (forall n e, sh t <> Array n e) -> ~ function_type t -> wf t = true ->
  is_const t = false /\ is_volatile t = false \/ class_or_union t ->
  expand_t (add_const (shrink_t t)) = Some t /\ expand_t (plain (RRef (shrink_t t))) = Some t /\
  expand_t (plain (RRef (add_const (shrink_t t)))) = Some t /\ expand_t (plain (LRef (add_const (shrink_t t)))) = Some t.
Proof.
  intros Na Nf W H. pose proof (C65_expand_shrink_partial t Na Nf W H) as E. rewrite expand_shrink in E.
  revert E. unfold expand_t, shrink_t, plain. cbn [unwrap add_const].
  destruct (call_type t) as [r|]; [now intros [= ->]|].
  intros [= E]. exfalso. clear - E. assert (D : forall t, plain (Closure t) <> t); [|exact (D _ E)].
  clear. fix IH 1. intros [c v s]. destruct s; intros E1; try discriminate. injection E1 as <- <- E3. exact (IH _ E3).
Qed.
Print Assumptions C65_expand_const_partial.
(** ... and leaves types that were not shrunk alone. *)
Theorem C65_expand_other_partial t : (forall n e, sh t <> Array n e) -> ~ function_type t -> wf t = true ->
  is_const t = false /\ is_volatile t = false \/ class_or_union t -> (forall u, remove_cvref t <> plain (Closure u)) ->
  expand_t t = Some t.
Proof.
  intros Na Nf W H N. assert (U : unwrap t = None).
  { destruct t as [c v s]. unfold unwrap. destruct v, s as [| | | | | |u| | |u|u| |]; try reflexivity.
    all: try (now destruct (N u)).
    all: destruct u as [[] [] [| | | | | |w| | | | | |]]; try reflexivity; now destruct (N w). }
  unfold expand_t. rewrite U. destruct t as [c v s]. cbn [sh] in Na.
  destruct s; cbn in *; try reflexivity; try (destruct H as [[-> ->]|[]]; reflexivity).
  - exfalso. now eapply Na.
  - exfalso. apply Nf. destruct c, v; try discriminate. now repeat eexists.
Qed.
Print Assumptions C65_expand_other_partial.
(** Qualifiers of scalars, pointers and void are lost. *)
Theorem C65_qualifiers_refuted c v s : c = true \/ v = true ->
  match s with Scalar _ | Ptr _ | MemPtr _ _ | Void => True | _ => False end ->
  expand_t (shrink_t (Ty c v s)) = Some (plain s) /\ plain s <> Ty c v s.
Proof.
  intros Q S. rewrite expand_shrink. destruct s; try contradiction; (split; [reflexivity|]); intros [= <- <-]; destruct Q; discriminate.
Qed.
Print Assumptions C65_qualifiers_refuted.
(** ... and for arrays and functions expand_t gives the shrunk type back. *)
Theorem C65_arrays_refuted t : (exists n e, sh t = Array n e) \/ function_type t ->
  expand_t (shrink_t t) = Some (shrink_t t) /\ shrink_t t <> t.
Proof.
  intros H. rewrite expand_shrink. destruct H as [(n & e & E)|(r & a & e & fc & fv & q & n & ->)].
  - destruct t as [c v s]. cbn in E. subst s. now split.
  - now split.
Qed.
Print Assumptions C65_arrays_refuted.
Example C65_nonvacuous :
  expand_t (shrink_t (Ty true false (Class 4))) = Some (Ty true false (Class 4)) /\
  expand_t (shrink_t (plain (LRef a_const_int))) = Some (plain (LRef a_const_int)) /\
  expand_t (shrink_t a_const_int) = Some an_int /\ class_or_union (Ty true false (Class 4)).
Proof. now repeat split. Qed.

(** C66. get gives the type std::get gives, for lvalues, const lvalues and rvalues of tuples of any
    elements. *)
Theorem C66_get_partial k t r : k <> CR -> (get_type k t = Some r <-> std_gives k t r).
Proof. intros H. rewrite <- std_get_gives. destruct k; [reflexivity| | |contradiction]; reflexivity. Qed.
Print Assumptions C66_get_partial.
(** The types of std::get and of structured bindings of a std::tuple below are these. *)
Theorem C66_std k t r : std_get k t = Some r <-> std_gives k t r.
Proof. exact (std_get_gives k t r). Qed.
Print Assumptions C66_std.
(** tuple_element_t is the type the element was declared with, reference or not. *)
Theorem C66_element ts i t : tuple_element_t ts i = Some t <-> exists before after, ts = before ++ t :: after /\ length before = i.
Proof.
  unfold tuple_element_t. split.
  - intros H. destruct (nth_error_split ts i H) as (a & b & E & L). eauto.
  - intros (a & b & -> & <-). rewrite nth_error_app2, Nat.sub_diag by lia. reflexivity.
Qed.
Print Assumptions C66_element.
(** A const rvalue gives an lvalue reference where std::get gives an rvalue reference. *)
Theorem C66_const_rvalue_refuted t : is_reference t = false -> referable (sh t) = true ->
  get_type CR t = Some (plain (LRef (add_const t))) /\ std_get CR t = Some (plain (RRef (add_const t))).
Proof.
  intros R F. cbn. rewrite lref_some, rref_some; rewrite ?add_const_ref, ?add_const_referable; auto.
Qed.
Print Assumptions C66_const_rvalue_refuted.
Example C66_nonvacuous :
  get_type CL (plain (LRef an_int)) = Some (plain (LRef an_int)) /\ get_type CL an_int = Some (plain (LRef a_const_int)) /\
  get_type R an_int = Some (plain (RRef an_int)) /\ get_type R (plain (LRef an_int)) = Some (plain (LRef an_int)).
Proof. now repeat split. Qed.

(** C67. A structured binding of a tuple introduces the names and types that one of a std::tuple
    does, for elements that are not references and have no qualifiers. *)
Theorem C67_binding_partial ts f sc i t : nth_error ts i = Some t -> unqualified t ->
  stdx_binding ts f sc i = std_binding ts f sc i /\
  (names_const f sc -> stdx_binding ts f sc i = Some (add_const t)) /\
  (~ names_const f sc -> stdx_binding ts f sc i = Some t).
Proof.
  intros E U. destruct (binding_unqualified ts f sc i t E U) as [-> ->]. split; [reflexivity|].
  destruct (names_const_if f sc (add_const t) t) as [H1 H2]. split; intros H; [now rewrite (H1 H)|now rewrite (H2 H)].
Qed.
Print Assumptions C67_binding_partial.
(** A const element or a reference to const does not compile unless the tuple is const. *)
Theorem C67_const_refuted ts f sc i t : nth_error ts i = Some t -> wf t = true -> sh t <> Void -> qualified_function (sh t) = false ->
  is_const (remove_reference t) = true -> ~ names_const f sc ->
  stdx_binding ts f sc i = None /\ std_binding ts f sc i = Some t.
Proof.
  intros E W Nv Nq C Nc. apply binding_const; auto. rewrite <- names_const_iff in Nc. now apply not_true_is_false.
Qed.
Print Assumptions C67_const_refuted.
(** A reference element is not a reference, and is read-only in a const tuple. *)
Theorem C67_reference_refuted ts f sc i t u : nth_error ts i = Some t -> t = plain (LRef u) \/ t = plain (RRef u) -> unqualified u ->
  (names_const f sc -> stdx_binding ts f sc i = Some (add_const u)) /\
  (~ names_const f sc -> stdx_binding ts f sc i = Some u) /\ std_binding ts f sc i = Some t.
Proof.
  intros E Ht U. destruct (binding_reference ts f sc i t u E Ht U) as [-> ->].
  destruct (names_const_if f sc (add_const u) u) as [H1 H2]. repeat split; intros H; [now rewrite (H1 H)|now rewrite (H2 H)].
Qed.
Print Assumptions C67_reference_refuted.
Example C67_nonvacuous :
  let ts := [an_int; plain (LRef an_int); plain (LRef a_const_int)] in
  stdx_binding ts ByValue false 0 = Some an_int /\ stdx_binding ts ByConstRef false 0 = Some a_const_int /\
  stdx_binding ts ByConstRef false 1 = Some a_const_int /\ std_binding ts ByConstRef false 1 = Some (plain (LRef an_int)) /\
  stdx_binding ts ByValue false 2 = None /\ std_binding ts ByValue false 2 = Some (plain (LRef a_const_int)).
Proof. now repeat split. Qed.
