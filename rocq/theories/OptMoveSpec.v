(** What a user expects of the value categories of an optional. *)
From Verif Require Import Base MoveModel OptMoveModel.

Section Spec.
Context {V : Type}.
(** The parts of the optional are different objects that exist. *)
Definition an_object (m : store V) (o : list nat) : Prop := NoDup o /\ Forall (fun l => l < length m) o.
(** What is left after the optional [o], given as [q], has been turned into a new object: it has been
    moved from if it is an rvalue that is not const, and nothing else has changed. *)
Definition spent (q : quals) (o : list nat) (m m' : store V) : Prop :=
  forall l, look m' l = match q with RRef => if in_dec Nat.eq_dec l o then Gone else look m l | _ => look m l end.
(** The arguments of a call: every part of the optionals, by the reference its optional has been given
    by; and what a function sees of them. *)
Definition parts_of (os : list (quals * list nat)) : list (quals * nat) := flat_map (fun o => map (pair (fst o)) (snd o)) os.
Definition visible (m : store V) (args : list (quals * nat)) : list (quals * cell V) := map (fun a => (fst a, look m (snd a))) args.
Definition constant (q : quals) : bool := match q with CLRef | CRRef => true | _ => false end.
(** Nothing that is not const is given twice. *)
Definition apart (args : list (quals * nat)) : Prop :=
  forall i j q q' l, nth_error args i = Some (q, l) -> nth_error args j = Some (q', l) -> constant q = false -> i = j.
(** Afterwards what the function has left in its arguments is there, unless they are const, and nothing
    else has changed. *)
Record left_by (args : list (quals * nat)) (xs : list (cell V)) (m m' : store V) : Prop := {
  parts_left : forall i q l x, nth_error args i = Some (q, l) -> nth_error xs i = Some x -> look m' l = if constant q then look m l else x;
  others_left : forall l, ~ In l (map snd args) -> look m' l = look m l }.
(** The object now has these parts, and nothing else has changed. *)
Record now_has (o : list nat) (vs : list (cell V)) (m m' : store V) : Prop := {
  parts_now : map (look m') o = vs;
  others_now : forall l, ~ In l o -> look m' l = look m l }.
End Spec.
