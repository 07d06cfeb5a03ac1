(** C91: latched values that depend on each other. *)
From Coq Require Import List Arith Lia.
From Verif Require Import DependModel DependSpec DependProofs.
Import ListNotations.

(** If the functions do not depend on each other in a cycle, every use of the objects ends,
    no function is called more than once - whatever is asked for, in whatever order, and
    whatever the functions do to the world - exactly the called ones have a value, and no value
    is overwritten. *)
Theorem C91_at_most_once : forall (W V : Type) (body : nat -> script W V) (use : script W V) (w : W), acyclic body ->
  exists n v s, (forall m, n <= m -> run body m use (fresh w) = Some (v, s)) /\
    NoDup (calls s) /\ (forall j, In j (calls s) <-> memo s j <> None) /\ lost s = [].
Proof.
  intros W V body use w (rank & A).
  destruct (any_script_ends body rank A use (fresh w)) as (n & v & s & R & [Q1 Q2 Q3 Q4 Q5]).
  - apply asks_anything.
  - intros j _. cbn. split; [tauto | congruence].
  - constructor.
  - exists n, v, s. split; [exact R|]. split; [exact Q1|]. split; [|exact Q2]. intros j. now apply Q3.
Qed.
Print Assumptions C91_at_most_once.
(** Once an object has a value, it keeps it: as long as no cycle is met, from any state. *)
Theorem C91_values_stay : forall (W V : Type) (body : nat -> script W V) (first second : script W V) (w : W), acyclic body ->
  exists n v s v' s', (forall m, n <= m -> run body m first (fresh w) = Some (v, s)) /\ (forall m, n <= m -> run body m second s = Some (v', s')) /\
    (forall j u, memo s j = Some u -> memo s' j = Some u) /\ NoDup (calls s').
Proof.
  intros W V body first second w (rank & A).
  destruct (any_script_ends body rank A first (fresh w)) as (n & v & s & R & [Q1 Q2 Q3 Q4 Q5]).
  - apply asks_anything.
  - intros j _. cbn. split; [tauto | congruence].
  - constructor.
  - destruct (any_script_ends body rank A second s (asks_anything _) Q3 Q1) as (n2 & v2 & s2 & R2 & [T1 T2 T3 T4 T5]).
    exists (n + n2), v, s, v2, s2. repeat split; auto; intros m L; [apply R | apply R2]; lia.
Qed.
Print Assumptions C91_values_stay.
(** If the functions only ask for values, the result is that of evaluating them without any
    memory: the order of the questions does not matter. *)
Theorem C91_meaning : forall (W V : Type) (body : nat -> script W V) (use : script W V) (w : W) n v s,
  (forall i, only_values (body i)) -> only_values use -> run body n use (fresh w) = Some (v, s) ->
  (forall u, means body use u <-> u = v) /\ (forall j u, memo s j = Some u -> means body (body j) u).
Proof.
  intros W V body use w n v s P O R.
  destruct (run_means body P n use (fresh w) v s O) as [A B]; [discriminate | exact R |].
  split; [|exact B]. intros u. split; [intros M; eapply means_functional; eauto | intros ->; exact A].
Qed.
Print Assumptions C91_meaning.

(** FINDING: functions that depend on each other in a cycle recurse without end; nothing
    detects it.  (In particular a function that uses its own object.) *)
Theorem C91_cycle_refuted : forall (W V : Type) (body : nat -> script W V) (C : nat -> Prop) (use : script W V) (w : W) n,
  (forall i, C i -> must_ask C (body i)) -> must_ask C use -> run body n use (fresh w) = None.
Proof.
  intros W V body C use w n H U. apply (cycle_diverges body C H n use (fresh w)); auto.
Qed.
Print Assumptions C91_cycle_refuted.
(** FINDING: a function that uses its own object in the first call only: it is called twice, and
    the value of the inner call is lost without being destroyed. *)
Theorem C91_reentrant_refuted : forall (V : Type) (a : V) (g : V -> V) n,
  let body := fun _ : nat => World S (fun w : nat => if w =? 1 then Value 0 (fun v => Ret (g v)) else Ret a) in
  exists s, run body (S (S n)) (Value 0 Ret) (fresh 0) = Some (g a, s) /\ calls s = [0; 0] /\ lost s = [0].
Proof. intros V a g n body. eexists. split; [|split]; destruct n; reflexivity. Qed.
Print Assumptions C91_reentrant_refuted.

(** Object 0 is 1; object i + 1 is the sum of two values of object i; object 7 for instance is
    2^7 and takes eight calls. *)
Definition doubling (i : nat) : script nat nat :=
  match i with 0 => Ret 1 | S i => World S (fun _ => Value i (fun a => Value i (fun b => Ret (a + b)))) end.
Example C91_example : acyclic doubling /\
  option_map (fun r => (fst r, calls (snd r), world (snd r))) (run doubling 20 (Value 7 (fun a => Value 3 (fun b => Ret (a + b)))) (fresh 0)) =
    Some (136, [7; 6; 5; 4; 3; 2; 1; 0], 7) /\
  must_ask (fun i => i = 2 \/ i = 5) (HasValue 5 (fun b => if b then Value 2 (fun _ => Ret 1) else Value 5 (fun v => Ret (v + 1)) : script nat nat)).
Proof.
  split; [|split].
  - exists (fun i => i). intros [|i]; cbn; auto 6 with arith.
  - vm_compute. reflexivity.
  - cbn. intros []; cbn; auto.
Qed.
