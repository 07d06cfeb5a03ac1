(** C45 latched and cached. *)
From Verif Require Import Base BaseLemmas LatchedModel LatchedSpec LatchedProofs.

(** Every history, whatever the calls do: the results are the expected ones, and so are the
    number of calls made and the value held at the end. *)
Theorem C45_history : forall V (out : nat -> option V) ops,
  let rs := fst (expected out ops (0, 0)) in
  let n := fst (snd (expected out ops (0, 0))) in let a := snd (snd (expected out ops (0, 0))) in
  history (fun c => (S c, out c)) ops (None, 0) = Some (rs, (first_value out n a, n + needed out n a)).
Proof. intros V out ops. exact (history_ok out ops 0 0). Qed.
Print Assumptions C45_history.
(** At most one call succeeds between two resets. *)
Theorem C45_at_most_once : forall V (out : nat -> option V) ops rs o c,
  history (fun c => (S c, out c)) ops (None, 0) = Some (rs, (o, c)) -> successes out c <= 1 + resets ops.
Proof.
  intros V out ops rs o c H. pose proof (history_ok out ops 0 0 : history (fun c => (S c, out c)) ops (None, 0) = _) as K. rewrite K in H. injection H as <- <- <-.
  exact (at_most_once out ops 0 0).
Qed.
Print Assumptions C45_at_most_once.
(** Without resets (latched) all accesses that return give the same value. *)
Theorem C45_same_value : forall V (out : nat -> option V) ops rs s v v', resets ops = 0 ->
  history (fun c => (S c, out c)) ops (None, 0) = Some (rs, s) -> In (Got v) rs -> In (Got v') rs -> v = v'.
Proof.
  intros V out ops rs s v v' R H. pose proof (history_ok out ops 0 0 : history (fun c => (S c, out c)) ops (None, 0) = _) as K. rewrite K in H. injection H as <- <-.
  apply got_same. exact R.
Qed.
Print Assumptions C45_same_value.
Example C45_example : history (fun c => (S c, if c =? 1 then Some (10 * c) else if c =? 3 then Some (10 * c) else None)) [HasValue; Access; Access; Access; HasValue; Reset; HasValue; Access; Refresh; Access] (None, 0)
  = Some ([Says false; Threw; Got 10; Got 10; Says true; Done; Says false; Threw; Got 30; Got 30], (Some 30, 4)).
Proof. reflexivity. Qed.
