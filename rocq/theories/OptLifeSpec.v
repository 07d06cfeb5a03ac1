(** stdx::optional with element operations that throw: what a user relies on, in terms of an
    optional value ([None]: empty). *)
From Verif Require Import Base OptLifeModel.

Section Spec.
Context {V : Type} (tomb : V).
(** The calls that cannot be made or may not throw: the constructors inside emplace and reset,
    the comparison; emplace's arguments do not refer to the value, and nobody stores the
    tombstone as a value; value() needs a value; destruction comes last. *)
Definition fine (m : option (option V)) (o : op V) : Prop :=
  match m with
  | None => False
  | Some m =>
      match o with
      | Emplace own (Returns u) => own = false /\ u <> tomb
      | Emplace _ Throws | Reset Throws | HasValue Throws
      | ValueOr Throws _ _ | AndThen Throws _ | OrElse Throws _ _ | Less Throws _ _ _ => False
      | Assign (Returns u) _ => u <> tomb
      | Assign Throws r => r <> tomb
      | Value => m <> None
      | _ => True
      end
  end.
(** [None]: destroyed. *)
Definition wanted (m : option (option V)) (o : op V) (r : out V) (m' : option (option V)) : Prop :=
  match m with
  | None => False
  | Some m =>
      match o with
      | Emplace _ (Returns u) => r = Val u /\ m' = Some (Some u)
      | Reset _ => r = Unit /\ m' = Some None
      | Assign (Returns u) _ => r = Unit /\ m' = Some (Some u)
      | Assign Throws u => r = Threw /\ m' = Some (Some u)
      | HasValue _ => m' = Some m /\ exists b, r = Bool b /\ (b = true <-> m <> None)
      | Value => m' = Some m /\ exists v, m = Some v /\ r = Val v
      | ValueOr _ c d => m' = Some m /\
          match m, c, d with
          | Some v, Returns _, _ => r = Val v
          | None, _, Returns u => r = Val u
          | _, _, _ => r = Threw
          end
      | AndThen _ f => m' = Some m /\
          match m with
          | Some v => match f v with Returns u => r = Val u | Throws => r = Threw end
          | None => r = Nothing
          end
      | OrElse _ c f => m' = Some m /\
          match m, c, f with
          | Some v, Returns _, _ => r = Val v
          | None, _, Returns u => r = Val u
          | _, _, _ => r = Threw
          end
      | Less _ c b u => m' = Some m /\
          match m, u, c with
          | Some _, Some _, Returns _ => r = Bool b
          | Some _, Some _, Throws => r = Threw
          | None, Some _, _ => r = Bool true
          | _, None, _ => r = Bool false
          end
      | Destroy => r = Unit /\ m' = None
      | Emplace _ Throws => False
      end
  end.
End Spec.
