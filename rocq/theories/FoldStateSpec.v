(** What a fold over the elements of a tuple means for the function object given to it. *)
From Verif Require Import Base.

Section Spec.
Context {S W V : Type}.
Variable op : S -> W -> V -> V -> S * W * V.

(** One object makes all the calls, one after the other, as in std::accumulate. *)
Fixpoint accumulated (s : S) (w : W) (acc : V) (l : list V) : S * W * V :=
  match l with
  | [] => (s, w, acc)
  | x :: r => let '(s', w', v) := op s w acc x in accumulated s' w' v r
  end.
(** The same from the right: the last element is the first to be used. *)
Fixpoint accumulated_r (s : S) (w : W) (acc : V) (l : list V) : S * W * V :=
  match l with
  | [] => (s, w, acc)
  | x :: r => let '(s', w', v) := accumulated_r s w acc r in op s' w' x v
  end.

(** Every call is made on an object as the caller's was at the beginning. *)
Definition always (s : S) (w : W) (a b : V) : W * V := let '(_, w', v) := op s w a b in (w', v).
Definition reset_l (s : S) (w : W) (acc : V) (l : list V) : W * V :=
  fold_left (fun wa x => always s (fst wa) (snd wa) x) l (w, acc).
Definition reset_r (s : S) (w : W) (acc : V) (l : list V) : W * V :=
  fold_right (fun x wa => always s (fst wa) x (snd wa)) (w, acc) l.

(** Calls do not change the object. *)
Definition unchanging (s : S) : Prop := forall w a b, exists w' v, op s w a b = (s, w', v).
End Spec.

(** The object counts its calls and returns how many there have been before. *)
Definition counts_calls {W} (n : nat) (w : W) (_ _ : nat) : nat * W * nat := (S n, w, n).
