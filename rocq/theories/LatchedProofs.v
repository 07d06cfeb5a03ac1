From Verif Require Import Base BaseLemmas LatchedModel LatchedSpec.

Section Proofs.
Context {V : Type}.
Variable out : nat -> option V.
Definition call (n : nat) : nat * option V := (S n, out n).
Definition st (n a : nat) : state := (first_value out n a, n + needed out n a).

Lemma first_S a : forall n, first_value out n (S a) = match first_value out n a with Some v => Some v | None => out (n + a) end.
Proof.
  induction a as [|a IH]; intros n; [cbn; rewrite Nat.add_0_r; destruct (out n); reflexivity|].
  change (first_value out n (S (S a))) with (match out n with Some v => Some v | None => first_value out (S n) (S a) end). rewrite IH.
  change (first_value out n (S a)) with (match out n with Some v => Some v | None => first_value out (S n) a end).
  rewrite Nat.add_succ_r. cbn [Nat.add]. destruct (out n); reflexivity.
Qed.
Lemma needed_S a : forall n, needed out n (S a) = match first_value out n a with Some v => needed out n a | None => S (needed out n a) end.
Proof.
  induction a as [|a IH]; intros n; [cbn; destruct (out n); reflexivity|].
  change (needed out n (S (S a))) with (match out n with Some _ => 1 | None => S (needed out (S n) (S a)) end). rewrite IH. cbn [first_value needed].
  destruct (out n); [reflexivity|]. destruct (first_value out (S n) a); reflexivity.
Qed.
Lemma needed_all a : forall n, first_value out n a = None -> needed out n a = a.
Proof. induction a as [|a IH]; intros n H; [reflexivity|]. cbn in *. destruct (out n); [discriminate|]. rewrite IH by exact H. reflexivity. Qed.
Lemma access_ok n a : step call Access (st n a) = Some (answer (first_value out n (S a)), st n (S a)).
Proof.
  unfold step, populate, st. cbn [fst snd]. rewrite first_S, needed_S. destruct (first_value out n a) as [v|] eqn:E; cbn [fst snd call].
  - unfold deref. cbn. reflexivity.
  - rewrite (needed_all a n E). destruct (out (n + a)) as [v|]; unfold deref; cbn [fst answer]; rewrite Nat.add_succ_r; reflexivity.
Qed.
Lemma step_ok o n a : step call o (st n a) = Some (fst (expected_step out o (n, a)), st (fst (snd (expected_step out o (n, a)))) (snd (snd (expected_step out o (n, a))))).
Proof.
  destruct o; cbn [expected_step fst snd].
  - apply access_ok.
  - reflexivity.
  - unfold st at 2. cbn. rewrite Nat.add_0_r. reflexivity.
  - pose proof (access_ok (n + needed out n a) 0) as H. unfold st at 1 in H. cbn [first_value needed] in H. rewrite Nat.add_0_r in H. exact H.
Qed.
Lemma history_ok ops : forall n a, history call ops (st n a)
  = Some (fst (expected out ops (n, a)), st (fst (snd (expected out ops (n, a)))) (snd (snd (expected out ops (n, a))))).
Proof.
  induction ops as [|o ops IH]; intros n a; [reflexivity|]. cbn [history expected]. rewrite step_ok. destruct (expected_step out o (n, a)) as [x [n1 a1]]. cbn [fst snd]. rewrite IH.
  destruct (expected out ops (n1, a1)) as [xs [n2 a2]]. reflexivity.
Qed.
Lemma successes_plus c k : successes out (c + k) = successes out c + length (List.filter (fun i => match out i with Some _ => true | None => false end) (seq c k)).
Proof. unfold successes. rewrite seq_app, filter_app, app_length. reflexivity. Qed.
Lemma segment_le a : forall n, length (List.filter (fun i => match out i with Some _ => true | None => false end) (seq n (needed out n a))) = (match first_value out n a with Some _ => 1 | None => 0 end).
Proof.
  induction a as [|a IH]; intros n; [reflexivity|]. cbn [needed first_value]. destruct (out n) as [v|] eqn:E; cbn [seq List.filter]; rewrite E; [reflexivity|]. apply IH.
Qed.
Lemma at_most_once ops : forall n a, 
  successes out (fst (snd (expected out ops (n, a))) + needed out (fst (snd (expected out ops (n, a)))) (snd (snd (expected out ops (n, a)))))
  <= successes out n + 1 + resets ops.
Proof.
  induction ops as [|o ops IH]; intros n a.
  - cbn [expected fst snd]. rewrite successes_plus, segment_le. cbn. destruct (first_value out n a); lia.
  - cbn [expected]. destruct (expected_step out o (n, a)) as [x [n1 a1]] eqn:E. specialize (IH n1 a1). destruct (expected out ops (n1, a1)) as [xs [n2 a2]]. cbn [fst snd] in *.
    assert (H1 : match o with Reset | Refresh => n1 = n + needed out n a | _ => n1 = n end) by (destruct o; cbn in E; congruence).
    unfold resets in *. cbn [List.filter]. pose proof (successes_plus n (needed out n a)) as P. rewrite segment_le in P.
    destruct o; cbn [length]; subst n1; destruct (first_value out n a); lia.
Qed.
Lemma first_mono b : forall a n v, a <= b -> first_value out n a = Some v -> first_value out n b = Some v.
Proof.
  induction b as [|b IH]; intros [|a] n v H E; try discriminate E; try lia. cbn in *. destruct (out n); [exact E|]. apply (IH a); [lia|exact E].
Qed.
Lemma got_first ops v : resets ops = 0 -> forall n a, In (Got v) (fst (expected out ops (n, a))) -> exists a', first_value out n a' = Some v.
Proof.
  unfold resets. induction ops as [|o ops IH]; intros H n a Hin; [destruct Hin|]. cbn [expected] in Hin. destruct (expected_step out o (n, a)) as [x [n1 a1]] eqn:E.
  destruct (expected out ops (n1, a1)) as [xs na2] eqn:E2. cbn [fst] in Hin. destruct o; cbn [List.filter length] in H; try discriminate H.
  - assert (x = answer (first_value out n (S a)) /\ n1 = n) as [-> ->] by (split; cbn in E |- *; congruence). destruct Hin as [Hx|Hin]; [|apply (IH H n a1); rewrite E2; exact Hin].
    exists (S a). unfold answer in Hx. destruct (first_value out n (S a)); congruence.
  - cbn in E. injection E as <- <- <-. destruct Hin as [Hx|Hin]; [discriminate|]. apply (IH H n a). rewrite E2. exact Hin.
Qed.
Lemma got_same ops v v' n a : resets ops = 0 -> In (Got v) (fst (expected out ops (n, a))) -> In (Got v') (fst (expected out ops (n, a))) -> v = v'.
Proof.
  intros H H1 H2. destruct (got_first ops v H n a H1) as [a1 E1]. destruct (got_first ops v' H n a H2) as [a2 E2].
  assert (Some v = Some v'); [|congruence]. rewrite <- (first_mono (max a1 a2) a1 n v), <- (first_mono (max a1 a2) a2 n v'); [reflexivity|lia|exact E2|lia|exact E1].
Qed.
End Proofs.
