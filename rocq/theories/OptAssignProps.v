(** C80 assigning to an optional. *)
From Verif Require Import Base OptAssignModel OptAssignSpec.

(** [o = x] does what it does for a std::optional, unless T is a class and [x] a T, or T is scalar and
    [x] is {}.  (The last condition: a value that converts to a T can be assigned to one.) *)
Theorem C80_assign_partial : forall V (t : target V) x, regular x ->
  match x with Other true _ _ _ _ => scalar t = true | Braces => scalar t = false \/ from_braces t = false | Other false _ _ _ _ | Nullopt | Optional _ => True end ->
  (forall v c i, x = Other false c false i v -> c && i = false) ->
  assign t x = option_map (held t) (std_assign t x).
Proof.
  intros V [sc fb z ts] x R H A. destruct x as [| |v|s c a i v]; cbn in R, H.
  - reflexivity.
  - destruct sc, fb; try reflexivity; now destruct H.
  - reflexivity.
  - destruct s; [destruct R as (-> & -> & ->); subst; reflexivity|]. specialize (A v c i). destruct c, a, i, sc; try reflexivity; now specialize (A eq_refl).
Qed.
Print Assumptions C80_assign_partial.
(** A value of class type cannot be assigned. *)
Theorem C80_class_refuted : forall V (t : target V) c a i v, scalar t = false -> regular (Other true c a i v) ->
  assign t (Other true c a i v) = None /\ std_assign t (Other true c a i v) = Some (Some v).
Proof. intros V [sc fb z ts] c a i v E (-> & -> & ->). cbn in E. subst. now split. Qed.
Print Assumptions C80_class_refuted.
(** For a scalar type [o = {}] gives the optional the value T{} (std::optional becomes empty). *)
Theorem C80_braces_refuted : forall V (t : target V), scalar t = true -> from_braces t = true ->
  assign t Braces = Some (zero t) /\ std_assign t Braces = Some None.
Proof. intros V [sc fb z ts] E F. cbn in E, F. subst. now split. Qed.
Print Assumptions C80_braces_refuted.
(** A value or std::nullopt does not convert to an optional. *)
Theorem C80_implicit_refuted : forall V (t : target V) x, match x with Nullopt | Other _ true _ true _ => True | _ => False end ->
  copy_initialize t x = None /\ exists o, std_copy_initialize x = Some o.
Proof. intros V t [| |v|s [|] a [|] v] H; cbn in H; try contradiction; (split; [reflexivity|]; eexists; reflexivity). Qed.
Print Assumptions C80_implicit_refuted.
(** An enum whose tombstone is 255, and a class. *)
Example C80_example :
  let e := Target true true 0 255 in let s := Target false true 0 255 in
  assign e (Other true true true true 3) = Some 3 /\ assign e Nullopt = Some 255 /\ assign e (Optional 4) = Some 4 /\ assign e Braces = Some 0 /\
  assign s (Other false true true true 3) = Some 3 /\ assign s Braces = Some 255 /\ assign s (Other true true true true 3) = None /\
  std_assign e Braces = Some None /\ std_assign e (Other true true true true 3) = Some (Some 3) /\ std_assign s (Other true true true true 3) = Some (Some 3) /\ std_assign s Braces = Some None.
Proof. repeat split. Qed.
