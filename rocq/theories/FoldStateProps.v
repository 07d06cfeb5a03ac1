(** C118 the function objects of fold_left, fold_right and join. *)
From Coq Require Import Lia.
From Verif Require Import Base FoldStateModel FoldStateSpec.
From Verif Require TupleModel TupleProofs.
Open Scope ub_scope.

Section Proofs.
Context {S W V : Type}.
Variable op : S -> W -> V -> V -> S * W * V.

Lemma reset_l_cons s w v x r s' w' v' : op s w v x = (s', w', v') -> reset_l op s w v (x :: r) = reset_l op s w' v' r.
Proof. intros E. unfold reset_l. cbn [List.fold_left fst snd]. unfold always at 2. rewrite E. reflexivity. Qed.
Lemma reset_r_cons s w v x r : reset_r op s w v (x :: r) = always op s (fst (reset_r op s w v r)) x (snd (reset_r op s w v r)).
Proof. reflexivity. Qed.
Lemma expr_l_ok (l : list V) : forall s w n v,
  fold_expr_l op true (State w n (Helper s v)) l =
  Some (State (fst (reset_l op s w v l)) (n + length l) (Helper s (snd (reset_l op s w v l)))).
Proof.
  induction l as [|x r IH]; intros s w n v.
  - cbn. rewrite Nat.add_0_r. reflexivity.
  - cbn [fold_expr_l]. unfold plus_left, copy. cbn [current hop hvalue world copies]. destruct (op s w v x) as [[s' w'] v'] eqn:E. rewrite (reset_l_cons _ _ _ _ _ _ _ _ E). cbn [length].
    rewrite IH. f_equal. f_equal. lia.
Qed.
Lemma expr_r_ok (l : list V) : forall s w n v,
  fold_expr_r op true l (State w n (Helper s v)) =
  Some (State (fst (reset_r op s w v l)) (n + length l) (Helper s (snd (reset_r op s w v l)))).
Proof.
  induction l as [|x r IH]; intros s w n v.
  - cbn. rewrite Nat.add_0_r. reflexivity.
  - cbn [fold_expr_r]. rewrite IH. unfold plus_right, copy. cbn [current hop hvalue world copies].
    rewrite reset_r_cons. cbn [length]. unfold always. destruct (op s _ x _) as [[s' w'] v'] eqn:E. cbn [fst snd].
    f_equal. f_equal. lia.
Qed.
Lemma reset_one l : forall s w v, unchanging op s ->
  accumulated op s w v l = (s, fst (reset_l op s w v l), snd (reset_l op s w v l)).
Proof.
  induction l as [|x r IH]; intros s w v U; [reflexivity|]. cbn [accumulated].
  destruct (U w v x) as (w' & v' & E). rewrite (reset_l_cons _ _ _ _ _ _ _ _ E), E. apply IH. exact U.
Qed.
Lemma reset_one_r l : forall s w v, unchanging op s ->
  accumulated_r op s w v l = (s, fst (reset_r op s w v l), snd (reset_r op s w v l)).
Proof.
  induction l as [|x r IH]; intros s w v U; [reflexivity|]. cbn [accumulated_r]. rewrite IH by assumption. rewrite reset_r_cons.
  unfold always. destruct (U (fst (reset_r op s w v r)) x (snd (reset_r op s w v r))) as (w' & v' & E). rewrite E. reflexivity.
Qed.
End Proofs.

(** Every call is made on a copy of the caller's object as it was given: changes the calls make to
    it are seen by no other call, nor by the caller.  A fold over n elements makes n + 1 copies. *)
Theorem C118_folds : forall S W V (op : S -> W -> V -> V -> S * W * V) s w t init,
  fold_left op true s w t init = Some (Outcome (fst (reset_l op s w init t)) (snd (reset_l op s w init t)) s (length t + 1)) /\
  fold_right op true s w t init = Some (Outcome (fst (reset_r op s w init t)) (snd (reset_r op s w init t)) s (length t + 1)).
Proof.
  intros S W V op s w t init. unfold fold_left, fold_right. rewrite TupleProofs.pack_get. unfold copy. cbn iota beta.
  rewrite expr_l_ok, expr_r_ok. cbn iota beta. unfold finish. cbn [world current hvalue copies]. rewrite (Nat.add_comm 1). split; reflexivity.
Qed.
Print Assumptions C118_folds.
Theorem C118_join : forall S W V (op : S -> W -> V -> V -> S * W * V) s w e t init,
  let r := Some (Outcome (fst (reset_l op s w e t)) (snd (reset_l op s w e t)) s (2 * length t + 1)) in
  join op true s w (e :: t) = r /\ join_init op true s w (e :: t) init = r.
Proof.
  intros S W V op s w e t init r. assert (J : join op true s w (e :: t) = r).
  { unfold join. rewrite TupleProofs.pack_get. cbn iota beta. unfold copy. cbn iota beta. rewrite expr_l_ok. cbn iota beta. unfold finish. cbn [world current hvalue copies length].
    unfold r. f_equal. f_equal. lia. }
  split; [exact J|]. unfold join_init. cbn [TupleModel.tuple_size length Nat.eqb]. exact J.
Qed.
Print Assumptions C118_join.

(** So a function object that its calls do not change is used as std::accumulate would. *)
Theorem C118_unchanging_partial : forall S W V (op : S -> W -> V -> V -> S * W * V) s w t init, unchanging op s ->
  (exists n, let '(s', w', v) := accumulated op s w init t in fold_left op true s w t init = Some (Outcome w' v s' n)) /\
  (exists n, let '(s', w', v) := accumulated_r op s w init t in fold_right op true s w t init = Some (Outcome w' v s' n)) /\
  (forall e, exists n, let '(s', w', v) := accumulated op s w e t in join op true s w (e :: t) = Some (Outcome w' v s' n)).
Proof.
  intros S W V op s w t init U. destruct (C118_folds S W V op s w t init) as [L R]. split; [|split].
  - rewrite reset_one by assumption. eexists. exact L.
  - rewrite reset_one_r by assumption. eexists. exact R.
  - intros e. rewrite reset_one by assumption. eexists. exact (proj1 (C118_join S W V op s w e t init)).
Qed.
Print Assumptions C118_unchanging_partial.

(** A function object that counts its own calls never gets beyond the first one, whatever the tuple;
    called as by std::accumulate it counts them all, and the caller's object has the count if the
    algorithm has it by reference. *)
Theorem C118_own_state_refuted : forall W (w : W) x y t init,
  let l := x :: y :: t in
  (exists n, fold_left counts_calls true 0 w l init = Some (Outcome w 0 0 n)) /\
  (exists n, fold_right counts_calls true 0 w l init = Some (Outcome w 0 0 n)) /\
  (exists n, join counts_calls true 0 w (init :: l) = Some (Outcome w 0 0 n)) /\
  accumulated counts_calls 0 w init l = (length l, w, length l - 1) /\
  accumulated_r counts_calls 0 w init l = (length l, w, length l - 1).
Proof.
  intros W w x y t init l.
  assert (RL : forall r acc, r <> [] -> reset_l counts_calls 0 w acc r = (w, 0)).
  { induction r as [|e [|e' r] IH]; intros acc H; [contradiction|reflexivity|]. change (reset_l counts_calls 0 w acc (e :: e' :: r)) with (reset_l counts_calls 0 w 0 (e' :: r)). apply IH. discriminate. }
  assert (RR : forall r acc, r <> [] -> reset_r counts_calls 0 w acc r = (w, 0)).
  { induction r as [|e [|e' r] IH]; intros acc H; [contradiction|reflexivity|]. change (reset_r counts_calls 0 w acc (e :: e' :: r)) with (always counts_calls 0 (fst (reset_r counts_calls 0 w acc (e' :: r))) e (snd (reset_r counts_calls 0 w acc (e' :: r)))).
    rewrite IH by discriminate. reflexivity. }
  destruct (C118_folds nat W nat counts_calls 0 w l init) as [L R]. destruct (C118_join nat W nat counts_calls 0 w init l init) as [J _].
  rewrite RL in L, J by discriminate. rewrite RR in R by discriminate. split; [eexists; exact L|]. split; [eexists; exact R|]. split; [eexists; exact J|].
  assert (A : forall r n acc, accumulated counts_calls n w acc r = (n + length r, w, match r with [] => acc | _ => n + length r - 1 end)).
  { induction r as [|e r IH]; intros n acc; [cbn; rewrite Nat.add_0_r; reflexivity|]. cbn [accumulated counts_calls]. unfold counts_calls at 1. rewrite IH. cbn [length]. destruct r; cbn [length]; repeat (apply (f_equal2 (@pair _ _))); (lia || reflexivity). }
  assert (B : forall r n acc, accumulated_r counts_calls n w acc r = (n + length r, w, match r with [] => acc | _ => n + length r - 1 end)).
  { induction r as [|e r IH]; intros n acc; [cbn; rewrite Nat.add_0_r; reflexivity|]. cbn [accumulated_r]. rewrite IH. unfold counts_calls. cbn [length]. repeat (apply (f_equal2 (@pair _ _))); (lia || reflexivity). }
  rewrite A, B. split; reflexivity.
Qed.
Print Assumptions C118_own_state_refuted.

(** A function object that can only be moved cannot be given to them, not even for an empty tuple
    (join with an initial value excepted, which then does not use it). *)
Theorem C118_move_only_refuted : forall S W V (op : S -> W -> V -> V -> S * W * V) s w t init,
  fold_left op false s w t init = None /\ fold_right op false s w t init = None /\ join op false s w t = None /\
  join_init op false s w t init = match t with [] => Some (Outcome w init s 0) | _ => None end.
Proof.
  intros S W V op s w t init. unfold fold_left, fold_right, join_init, join. rewrite TupleProofs.pack_get. cbn iota beta. unfold copy. cbn iota beta.
  repeat split; destruct t; reflexivity.
Qed.
Print Assumptions C118_move_only_refuted.

(** Adding each element times its position: one object that counts, given to fold_left. *)
Example C118_nonvacuous :
  let op n w a x := (S n, w ++ [n], a + S n * x) in
  accumulated op 0 [] 0 [5; 6; 7] = (3, [0; 1; 2], 38) /\
  fold_left op true 0 [] [5; 6; 7] 0 = Some (Outcome [0; 0; 0] 18 0 4) /\
  fold_right op true 0 [] [5; 6; 7] 0 = Some (Outcome [0; 0; 0] 18 0 4) /\
  unchanging (fun n (w : list nat) a x => (n, w ++ [a], n * a + x)) 10 /\
  join (fun n (w : list nat) a x => (n, w ++ [a], n * a + x)) true 10 [] [1; 2; 3] = Some (Outcome [1; 12] 123 10 5).
Proof. cbv zeta. repeat match goal with |- _ /\ _ => split end; try (vm_compute; reflexivity). intros w a b. repeat eexists. Qed.
