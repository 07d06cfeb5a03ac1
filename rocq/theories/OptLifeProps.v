(** C86 The value inside a stdx::optional: lifetime and exceptions. *)
From Verif Require Import Base BaseLemmas OptLifeModel OptLifeSpec OptLifeProofs.

(** Every history in which emplace's and reset's constructors and the comparison do not throw. *)
Theorem C86_history_partial : forall V (eqb : V -> V -> bool), (forall x y, eqb x y = true <-> x = y) ->
  forall tomb v h, v <> tomb ->
  conforms (step eqb tomb) (fine tomb) wanted (make v) (Some (Some v)) h /\
  conforms (step eqb tomb) (fine tomb) wanted (make tomb) (Some None) h.
Proof.
  intros V eqb Heq tomb v h N.
  split; apply (conforms_sim _ _ _ (Rep tomb) (step_ok eqb Heq tomb)); cbn; auto.
Qed.
Print Assumptions C86_history_partial.
(** Any history that ends with the destructor destroys as many objects as it made. *)
Theorem C86_balanced : forall V (eqb : V -> V -> bool) tomb v h s os ps,
  run (step eqb tomb) (make v) (h ++ [Destroy]) = Done s os ps -> made s = destroyed s.
Proof.
  intros V eqb tomb v h s os ps. generalize (make v : opt V) (eq_refl : made (make v) = S (destroyed (make v))) (ex_intro (fun u => val (make v) = Alive u) v eq_refl).
  revert s os ps. induction h as [|o h IH]; intros s os ps s0 E (u & A); cbn [app run].
  - unfold step, alive, destroy. rewrite A. intros H. injection H as <- <- <-. cbn. exact E.
  - destruct (step eqb tomb s0 o) as [s1 o1 ps1|s1 p|] eqn:S1; [|discriminate|discriminate].
    destruct (run (step eqb tomb) s1 (h ++ [Destroy])) as [s2 os2 ps2|s2 p|] eqn:R; [|discriminate|discriminate].
    intros H. injection H as <- <- <-. revert R. destruct (val s1) as [u1|] eqn:A1.
    + apply IH; [|eauto]. revert S1. unfold step, alive, destroy. rewrite A.
      destruct o as [[] [w|]|[w|]|[w|] r|[w|]| |[q|] c d|[q|] f|[q|] c f|[q|] c b u0|]; try discriminate; intros S1; injection S1 as <- <- <-; cbn in *; congruence.
    + destruct h; cbn [app run]; unfold step at 1, alive; rewrite A1; discriminate.
Qed.
Print Assumptions C86_balanced.
Example C86_example : run (step Nat.eqb 0) (make 5)
  [HasValue (Returns tt); AndThen (Returns tt) (fun _ => Throws); Value; Assign Throws 6; Value; Reset (Returns tt); HasValue (Returns tt);
   ValueOr (Returns tt) (Returns tt) (Returns 8); ValueOr (Returns tt) Throws Throws; Less (Returns tt) Throws true (Some 3); Emplace false (Returns 7); OrElse (Returns tt) Throws Throws; Value; Less (Returns tt) (Returns tt) false (Some 3); Destroy]
  = Done {| val := Over; made := 3; destroyed := 3 |}
      [Bool true; Threw; Val 5; Threw; Val 6; Unit; Bool false; Val 8; Threw; Bool true; Val 7; Threw; Val 7; Bool false; Unit] [].
Proof. reflexivity. Qed.

(** After an emplace or a reset that throws every call is undefined, the destructor included:
    the value is destroyed and none has taken its place. *)
Theorem C86_emplace_refuted : forall V (eqb : V -> V -> bool) tomb s v, val s = Alive v ->
  (exists s', step eqb tomb s (Emplace false Throws) = Done s' Threw [] /\ forall o, step eqb tomb s' o = Undef) /\
  (exists s', step eqb tomb s (Reset Throws) = Done s' Threw [] /\ forall o, step eqb tomb s' o = Undef).
Proof.
  intros V eqb tomb s v A. unfold step at 1 3, alive at 1 2, destroy. rewrite A.
  split; eexists; (split; [reflexivity|]); intros o; reflexivity.
Qed.
Print Assumptions C86_emplace_refuted.
(** emplace with an argument that refers to the value itself is undefined. *)
Theorem C86_own_value_refuted : forall V (eqb : V -> V -> bool) tomb s c, step eqb tomb s (Emplace true c) = Undef.
Proof. intros V eqb tomb s c. unfold step, alive, destroy. destruct (val s); reflexivity. Qed.
Print Assumptions C86_own_value_refuted.
(** A comparison that throws ends the program, in has_value, which is noexcept, and in all that ask it first. *)
Theorem C86_noexcept_refuted : forall V (eqb : V -> V -> bool) tomb s v, val s = Alive v ->
  step eqb tomb s (HasValue Throws) = Stopped s tt /\
  (forall c d, step eqb tomb s (ValueOr Throws c d) = Stopped s tt) /\ (forall f, step eqb tomb s (AndThen Throws f) = Stopped s tt) /\
  (forall c f, step eqb tomb s (OrElse Throws c f) = Stopped s tt) /\ (forall c b u, step eqb tomb s (Less Throws c b u) = Stopped s tt).
Proof. intros V eqb tomb s v A. unfold step, alive. rewrite A. repeat split. Qed.
Print Assumptions C86_noexcept_refuted.
