From Coq Require Import FinFun.
From Verif Require Import Base BaseLemmas BitModel ConcModel AtomicModel WaitModel WaitSpec WaitProofs WaitProofs2 TicketSpec.
Open Scope nat_scope.

(** ** The threads with their tickets counted without rolling over *)
Inductive gk :=
| GOut | GDraw0 | GDraw1 | GDrawR (g : N) | GLook0 (g : N) | GLook1 (g : N) | GLookR (g v : N)
| GIn (g : N) | GLv0 (g : N) | GLv1 (g : N) | GLvR (v : N).
Record gstate := G { drawn : N; served : N; folk : list gk }.

Section Ticket.
Variables iw w ew : N.
Hypothesis Hw : (w <= ew)%N.
Notation tmod g := (g mod 2 ^ w)%N.
Notation emod g := (g mod 2 ^ ew)%N.

Definition gt (k : gk) : waiter ticket N :=
  match k with
  | GOut => {| place := Outside; running := None |}
  | GDraw0 => {| place := Draw; running := None |}
  | GDraw1 => {| place := Draw; running := Some (acode iw w ew false false (AFetchAdd 1)) |}
  | GDrawR g => {| place := Draw; running := Some (Ret (Some (tmod g))) |}
  | GLook0 g => {| place := Look (tmod g); running := None |}
  | GLook1 g => {| place := Look (tmod g); running := Some (acode iw w ew false false ALoad) |}
  | GLookR g v => {| place := Look (tmod g); running := Some (Ret (Some v)) |}
  | GIn g => {| place := Within; running := None |}
  | GLv0 g => {| place := Leave; running := None |}
  | GLv1 g => {| place := Leave; running := Some (acode iw w ew false false APreInc) |}
  | GLvR v => {| place := Leave; running := Some (Ret (Some v)) |}
  end.
Definition gs (s : gstate) : state ticket N :=
  {| words := [emod (drawn s); emod (served s)]; threads := map gt (folk s) |}.
(** One step of a thread: the draws, the services and the thread after it. *)
Definition gkstep (D S : N) (k : gk) (go : bool) : N * N * gk :=
  match k with
  | GOut => (D, S, if go then GDraw0 else GOut)
  | GDraw0 => (D, S, GDraw1)
  | GDraw1 => (D + 1, S, GDrawR D)%N
  | GDrawR g => (D, S, GLook0 g)
  | GLook0 g => (D, S, GLook1 g)
  | GLook1 g => (D, S, GLookR g (tmod S))
  | GLookR g v => (D, S, if (v =? tmod g)%N then GIn g else GLook0 g)
  | GIn g => (D, S, if go then GLv0 g else GIn g)
  | GLv0 g => (D, S, GLv1 g)
  | GLv1 g => (D, S + 1, GLvR (tmod (S + 1)))%N
  | GLvR _ => (D, S, GOut)
  end.
Definition gstep (s : gstate) (i : nat) (go : bool) : gstate :=
  match nth_error (folk s) i with
  | None => s
  | Some k => let '(D, V, k') := gkstep (drawn s) (served s) k go in G D V (set_nth i k' (folk s))
  end.

Lemma pow_divides : (2 ^ ew = 2 ^ w * 2 ^ (ew - w))%N.
Proof. rewrite <- N.pow_add_r. f_equal. lia. Qed.
Lemma tmod_emod x : tmod (emod x) = tmod x.
Proof.
  rewrite pow_divides. pose proof (N.pow_nonzero 2 w ltac:(lia)). pose proof (N.pow_nonzero 2 (ew - w) ltac:(lia)).
  rewrite N.mod_mul_r by assumption. rewrite N.mul_comm, N.mod_add by assumption. now rewrite N.mod_mod.
Qed.
Lemma emod_succ x : wrap ew (emod x + wrap ew 1) = emod (x + 1).
Proof. unfold wrap. rewrite <- N.add_mod by (apply N.pow_nonzero; lia). reflexivity. Qed.
Lemma plus_one x : plus iw ew false (emod x) 1 = Some (emod (x + 1)).
Proof.
  unfold plus, overflows, value. cbn [andb]. f_equal.
  replace (Z.of_N (emod x) + Z.of_N 1)%Z with (Z.of_N (emod x + 1)) by lia.
  change (2 ^ Z.of_N ew)%Z with (Z.of_N 2 ^ Z.of_N ew)%Z. rewrite <- N2Z.inj_pow, <- N2Z.inj_mod, N2Z.id.
  rewrite N.add_mod_idemp_l by (apply N.pow_nonzero; lia). reflexivity.
Qed.
Lemma simulates_ticket s i go : step (acode iw w ew false false) ticket_act ticket_after ew (gs s) i go = gs (gstep s i go).
Proof.
  destruct s as [D V l]. unfold step, gstep, gs. cbn [drawn served folk threads words]. rewrite nth_error_map.
  destruct (nth_error l i) as [k|] eqn:E; [|reflexivity]. cbn [option_map].
  destruct k as [| | |g|g|g|g v|g|g|g|v]; cbn -[N.modulo N.pow N.add N.eqb wrap AtomicModel.plus];
    unfold AtomicModel.to_t, AtomicModel.to_elem; cbn [andb]; rewrite ?emod_succ, ?plus_one; cbn -[N.modulo N.pow N.add N.eqb wrap AtomicModel.plus];
    unfold AtomicModel.to_t, wrap; rewrite ?tmod_emod.
  - destruct go; cbn -[N.modulo N.pow]; [now rewrite map_set|now rewrite set_same].
  - now rewrite map_set.
  - now rewrite map_set.
  - now rewrite map_set.
  - now rewrite map_set.
  - now rewrite map_set.
  - destruct (v =? tmod g)%N; now rewrite map_set.
  - destruct go; cbn -[N.modulo N.pow]; [now rewrite map_set|now rewrite set_same].
  - now rewrite map_set.
  - now rewrite map_set.
  - now rewrite map_set.
Qed.

Section Run.
Variables (n : nat) (sched : nat -> nat * bool).
Fixpoint R (t : nat) : gstate :=
  match t with O => G 0 0 (repeat GOut n) | S t => gstep (R t) (fst (sched t)) (snd (sched t)) end.
Lemma ticket_run_R t : ticket_run iw w ew n sched t = gs (R t).
Proof.
  unfold ticket_run. induction t as [|t IH]; cbn [state_at R].
  - unfold start, gs. cbn -[N.modulo N.pow]. rewrite N.mod_0_l by (apply N.pow_nonzero; lia). now rewrite map_rep.
  - rewrite IH. apply simulates_ticket.
Qed.

(** *** Invariant: the tickets from [served] on, before [drawn], are with one thread each *)
Definition ghost (k : gk) : option N :=
  match k with GDrawR g | GLook0 g | GLook1 g | GLookR g _ | GIn g | GLv0 g | GLv1 g => Some g | _ => None end.
Definition front (k : gk) : option N :=
  match k with
  | GLookR g v => if (v =? tmod g)%N then Some g else None
  | GIn g | GLv0 g | GLv1 g => Some g
  | _ => None
  end.
Definition opt (o : option N) : list N := match o with Some g => [g] | None => [] end.
Definition tickets (l : list gk) : list N := flat_map (fun k => opt (ghost k)) l.
Definition inv (s : gstate) : Prop :=
  NoDup (tickets (folk s)) /\ (forall g, In g (tickets (folk s)) <-> (served s <= g < drawn s)%N) /\
  (forall i k g, nth_error (folk s) i = Some k -> front k = Some g -> g = served s) /\ length (folk s) = n /\ (served s <= drawn s)%N.

Lemma tickets_in l i k g : nth_error l i = Some k -> ghost k = Some g -> In g (tickets l).
Proof. intros H E. apply in_flat_map. exists k. split; [eapply nth_error_In; eauto|rewrite E; left; reflexivity]. Qed.
Lemma tickets_nth l g : In g (tickets l) -> exists i k, nth_error l i = Some k /\ ghost k = Some g.
Proof.
  intros H. apply in_flat_map in H. destruct H as (k & I & J). apply In_nth_error in I. destruct I as [i I]. exists i, k. split; [exact I|].
  destruct (ghost k); [destruct J as [->|[]]; reflexivity|destruct J].
Qed.
Lemma NoDup_right (a b : list N) : NoDup (a ++ b) -> NoDup b.
Proof. induction a as [|x a IH]; cbn; [auto|]. intros H. apply NoDup_cons_iff in H. now apply IH. Qed.
Lemma tickets_inj l : NoDup (tickets l) -> forall i j k k' g, nth_error l i = Some k -> nth_error l j = Some k' ->
  ghost k = Some g -> ghost k' = Some g -> i = j.
Proof.
  induction l as [|a l IH]; intros N [|i] [|j] k k' g H H' E E'; try discriminate; [reflexivity|..]; cbn in *.
  - injection H as ->. rewrite E in N. cbn in N. apply NoDup_cons_iff in N. destruct N as [N _]. destruct N. eapply tickets_in; eauto.
  - injection H' as ->. rewrite E' in N. cbn in N. apply NoDup_cons_iff in N. destruct N as [N _]. destruct N. eapply tickets_in; eauto.
  - f_equal. apply (IH (NoDup_right _ _ N) i j k k' g); assumption.
Qed.
Lemma tickets_length l : length (tickets l) <= length l.
Proof. unfold tickets. induction l as [|a l IH]; cbn; [lia|]. rewrite app_length. destruct (ghost a); cbn; lia. Qed.
Lemma split_at (l : list gk) : forall i k, nth_error l i = Some k -> exists a b, l = a ++ k :: b /\ forall k', set_nth i k' l = a ++ k' :: b.
Proof.
  induction l as [|x l IH]; intros [|i] k H; try discriminate; cbn in H.
  - injection H as ->. exists [], l. split; [reflexivity|reflexivity].
  - destruct (IH i k H) as (a & b & -> & E). exists (x :: a), b. split; [reflexivity|]. intros k'. cbn. now rewrite E.
Qed.
Lemma tickets_split a k b : tickets (a ++ k :: b) = tickets a ++ opt (ghost k) ++ tickets b.
Proof. unfold tickets. rewrite flat_map_app. reflexivity. Qed.
Lemma crowd s : inv s -> (drawn s - served s <= N.of_nat n)%N.
Proof.
  intros (ND & I & _ & L & _). set (r := map N.of_nat (seq (N.to_nat (served s)) (N.to_nat (drawn s - served s)))).
  assert (length r <= length (tickets (folk s))).
  { apply NoDup_incl_length.
    - apply Injective_map_NoDup; [intros x y; apply Nat2N.inj|apply seq_NoDup].
    - intros x Hx. apply in_map_iff in Hx. destruct Hx as (y & <- & Hy). apply in_seq in Hy. apply I. lia. }
  pose proof (tickets_length (folk s)). unfold r in H. rewrite map_length, seq_length in H. lia.
Qed.
Hypothesis Hn : (N.of_nat n <= 2 ^ w)%N.
Lemma same_ticket s g : inv s -> (served s <= g < drawn s)%N -> tmod (served s) = tmod g -> g = served s.
Proof.
  intros I B E. pose proof (crowd s I) as C. pose proof (N.pow_nonzero 2 w ltac:(lia)) as P.
  pose proof (N.div_mod g (2 ^ w) P) as X. pose proof (N.div_mod (served s) (2 ^ w) P) as Y.
  rewrite E in Y. set (r := tmod g) in *. clearbody r. clear E.
  assert (2 ^ w * (g / 2 ^ w) - 2 ^ w * (served s / 2 ^ w) < 2 ^ w)%N by lia.
  assert (g / 2 ^ w = served s / 2 ^ w)%N by nia. congruence.
Qed.

Lemma nth_set (l : list gk) i k' j : i < length l -> nth_error (set_nth i k' l) j = if Nat.eqb j i then Some k' else nth_error l j.
Proof. intros H. now apply nth_error_set_nth. Qed.
Lemma front_ghost k g : front k = Some g -> ghost k = Some g.
Proof. destruct k; cbn; try congruence. now destruct (_ =? _)%N. Qed.
Lemma inv_gstep s i go : inv s -> inv (gstep s i go).
Proof.
  intros I. pose proof (same_ticket s) as ST. pose proof I as (ND & IN & FR & L & LE). unfold gstep.
  destruct (nth_error (folk s) i) as [k|] eqn:E; [|exact I].
  assert (Li : i < length (folk s)) by (apply nth_error_Some; congruence).
  destruct (split_at _ _ _ E) as (a & b & El & Es).
  (* a step that keeps the ticket and the counters *)
  assert (KEEP : forall k', ghost k' = ghost k -> (forall g, front k' = Some g -> g = served s) -> inv (G (drawn s) (served s) (set_nth i k' (folk s)))).
  { intros k' Eg Ef. assert (T : tickets (set_nth i k' (folk s)) = tickets (folk s)) by (rewrite Es, El, !tickets_split, Eg; reflexivity).
    unfold inv. cbn [folk drawn served]. rewrite T, set_nth_length. split; [exact ND|]. split; [exact IN|]. split; [|auto].
    intros j q g Hq Fq. rewrite nth_set in Hq by assumption. destruct (j =? i); [injection Hq as <-; auto|eauto]. }
  assert (T : tickets (folk s) = tickets a ++ opt (ghost k) ++ tickets b) by (rewrite El at 1; apply tickets_split).
  assert (T' : forall k', tickets (set_nth i k' (folk s)) = tickets a ++ opt (ghost k') ++ tickets b) by (intros; rewrite Es; apply tickets_split).
  destruct k as [| | |g|g|g|g v|g|g|g|v]; cbn [gkstep].
  - destruct go; apply KEEP; try reflexivity; intros g [=].
  - apply KEEP; [reflexivity|intros g [=]].
  - cbn in T. unfold inv. cbn [folk drawn served]. rewrite T', set_nth_length. cbn [ghost opt app].
    assert (M : forall g, In g (tickets a ++ drawn s :: tickets b) <-> g = drawn s \/ In g (tickets (folk s))).
    { intros g. rewrite T, !in_app_iff. cbn. intuition. }
    split; [|split; [|split; [|split; [exact L|lia]]]].
    + apply (NoDup_Add (a := drawn s) (l := tickets a ++ tickets b)); [apply Add_app|]. rewrite <- T. split; [exact ND|]. rewrite IN. lia.
    + intros g. rewrite M, IN. lia.
    + intros j q g Hq Fq. rewrite nth_set in Hq by assumption. destruct (j =? i); [injection Hq as <-; discriminate|eauto].
  - apply KEEP; [reflexivity|intros g' [=]].
  - apply KEEP; [reflexivity|intros g' [=]].
  - apply KEEP; [reflexivity|]. intros g'. cbn. destruct (N.eqb_spec (tmod (served s)) (tmod g)) as [Q|]; [|discriminate]. intros [= <-].
    apply ST; [exact I| |exact Q]. apply IN. eapply tickets_in; eauto.
  - assert (F : (v =? tmod g)%N = true -> g = served s) by (intros Q; apply (FR i _ g E); cbn; now rewrite Q).
    apply KEEP; destruct (v =? tmod g)%N; try reflexivity; cbn; intros g' [= <-]; auto.
  - apply KEEP; destruct go; try reflexivity; cbn; intros g' [= <-]; apply (FR i _ _ E); reflexivity.
  - apply KEEP; try reflexivity; cbn; intros g' [= <-]; apply (FR i _ _ E); reflexivity.
  - cbn in T. pose proof (FR i _ g E eq_refl) as ->.
    assert (IS : In (served s) (tickets (folk s))) by (eapply tickets_in; [exact E|reflexivity]). apply IN in IS.
    unfold inv. cbn [folk drawn served]. rewrite T', set_nth_length. cbn [ghost opt app].
    rewrite T in ND. apply NoDup_remove in ND. destruct ND as [ND NI].
    split; [exact ND|]. split; [|split; [|split; [exact L|lia]]].
    + intros g. assert (M : In g (tickets (folk s)) <-> g = served s \/ In g (tickets a ++ tickets b)).
      { rewrite T, !in_app_iff. cbn. intuition. }
      rewrite IN in M. split.
      * intros X. assert (g <> served s) by (intros ->; contradiction). assert (served s <= g < drawn s)%N by (apply M; auto). lia.
      * intros X. destruct (proj1 M) as [->|Y]; [lia|lia|exact Y].
    + intros j q g Hq Fq. rewrite nth_set in Hq by assumption. destruct (Nat.eqb_spec j i) as [->|J]; [injection Hq as <-; discriminate|].
      exfalso. apply J. pose proof (FR j q g Hq Fq) as ->. apply front_ghost in Fq. destruct I as (ND' & _).
      apply (tickets_inj _ ND' j i q (GLv1 (served s)) (served s)); auto.
  - apply KEEP; [reflexivity|intros g' [=]].
Qed.
Lemma inv_R t : inv (R t).
Proof.
  induction t as [|t IH]; [|cbn [R]; now apply inv_gstep]. unfold inv. cbn [R folk drawn served].
  assert (T : tickets (repeat GOut n) = []) by (clear; induction n as [|m IH]; cbn; [reflexivity|exact IH]).
  rewrite T. split; [constructor|]. split; [cbn; intros; lia|]. split; [|split; [apply repeat_length|lia]].
  intros i k g H. apply nth_error_In, repeat_spec in H. subst k. discriminate.
Qed.

(** *** Progress *)
Hypothesis F : fair n sched.
Hypothesis leave : forall j g t, nth_error (folk (R t)) j = Some (GIn g) -> exists t', t <= t' /\ nth_error (folk (R t')) j <> Some (GIn g).
Lemma in_n t j k : nth_error (folk (R t)) j = Some k -> j < n.
Proof. intros H. destruct (inv_R t) as (_ & _ & _ & L & _). rewrite <- L. apply nth_error_Some. congruence. Qed.
Lemma after_gstep s i go j k : nth_error (folk s) j = Some k ->
  nth_error (folk (gstep s i go)) j = Some (if Nat.eqb i j then snd (gkstep (drawn s) (served s) k go) else k).
Proof.
  intros H. unfold gstep. destruct (Nat.eqb_spec i j) as [->|N].
  - rewrite H. destruct (gkstep _ _ k go) as [[D V] k'] eqn:K. cbn. rewrite nth_error_set_nth by (apply nth_error_Some; congruence). now rewrite Nat.eqb_refl.
  - destruct (nth_error (folk s) i) as [k0|] eqn:E; [|exact H]. destruct (gkstep _ _ k0 go) as [[D V] k'] eqn:K. cbn.
    rewrite nth_error_set_nth by (apply nth_error_Some; congruence). destruct (Nat.eqb_spec j i) as [->|]; [congruence|exact H].
Qed.
(** Only the thread whose ticket is served ends a service. *)
Lemma served_step t j k : nth_error (folk (R t)) j = Some k -> ghost k = Some (served (R t)) ->
  served (R (S t)) = if (fst (sched t) =? j) && match k with GLv1 _ => true | _ => false end then (served (R t) + 1)%N else served (R t).
Proof.
  intros H Eg. cbn [R]. unfold gstep. destruct (nth_error (folk (R t)) (fst (sched t))) as [q|] eqn:E.
  - destruct (inv_R t) as (ND & _ & FR & _). destruct (Nat.eqb_spec (fst (sched t)) j) as [J|J].
    + rewrite J in E. rewrite H in E. injection E as <-. destruct k; try discriminate Eg; reflexivity.
    + destruct q as [| | |g|g|g|g v|g|g|g|v]; try reflexivity. exfalso. apply J.
      pose proof (FR _ _ g E eq_refl) as ->. apply (tickets_inj _ ND _ _ _ k (served (R t)) E H); [reflexivity|exact Eg].
  - destruct (Nat.eqb_spec (fst (sched t)) j) as [J|J]; [congruence|reflexivity].
Qed.

Definition steps_left (j : nat) (s : gstate) : nat :=
  match nth_error (folk s) j with
  | Some (GDrawR _) => 5
  | Some (GLookR g v) => if (v =? tmod g)%N then 1 else 4
  | Some (GLook0 _) => 3
  | Some (GLook1 _) => 2
  | _ => 0
  end.
Definition looking (j : nat) (g : N) (s : gstate) : Prop :=
  exists k, nth_error (folk s) j = Some k /\ match k with GDrawR h | GLook0 h | GLook1 h | GLookR h _ => h = g | _ => False end.
Definition entered (j : nat) (g : N) (t : nat) : Prop := nth_error (folk (R t)) j = Some (GIn g).
(** A thread that waits goes on waiting, or comes in. *)
Lemma looking_step j g t : looking j g (R t) -> looking j g (R (S t)) \/ entered j g (S t).
Proof.
  intros (k & H & K). unfold entered, looking. cbn [R]. rewrite (after_gstep _ (fst (sched t)) (snd (sched t)) j k H).
  destruct (fst (sched t) =? j); [|left; eauto].
  destruct k as [| | |h|h|h|h v|h|h|h|v]; try contradiction; subst h; cbn [gkstep snd]; try (left; eexists; split; [reflexivity|reflexivity]).
  destruct (v =? tmod g)%N; [right; reflexivity|left; eexists; split; [reflexivity|reflexivity]].
Qed.
Lemma looking_ghost j g s : looking j g s -> exists k, nth_error (folk s) j = Some k /\ ghost k = Some g.
Proof. intros (k & H & K). exists k. split; [exact H|]. destruct k; try contradiction; now subst. Qed.
(** The one whose ticket is served comes in. *)
Lemma its_turn j g t : looking j g (R t) -> served (R t) = g -> exists t', t <= t' /\ entered j g t' /\ served (R t') = g.
Proof.
  intros H V. assert (Lj : j < n) by (destruct H as (k & H & _); eapply in_n; eauto).
  destruct (leads_event R (fun s => looking j g s /\ served s = g) (fun t => entered j g (S t) /\ served (R (S t)) = g) (steps_left j) sched j (F j Lj)) with (t := t)
    as (t' & L & E1 & E2); [|split; assumption|exists (S t'); split; [lia|split; assumption]].
  clear t H V. intros t [H V]. pose proof (looking_step j g t H) as ST. destruct H as (k & H & K).
  assert (Eg : ghost k = Some (served (R t))) by (rewrite V; destruct k; try contradiction; now subst).
  assert (V' : served (R (S t)) = g).
  { rewrite (served_step t j k H Eg), V. destruct k; try contradiction; now rewrite andb_false_r. }
  destruct ST as [ST|ST]; [right|left; split; assumption]. split; [split; assumption|].
  unfold steps_left. rewrite H. destruct ST as (k' & H' & K'). rewrite H'. cbn [R] in H'. rewrite (after_gstep _ (fst (sched t)) (snd (sched t)) j k H) in H'.
  injection H' as H'. destruct (Nat.eqb_spec (fst (sched t)) j) as [J|J]; [|subst k'; split; [lia|congruence]].
  destruct k as [| | |h|h|h|h v|h|h|h|v]; try contradiction; subst h; cbn [gkstep snd] in H'; subst k'; cbn [R].
  - lia.
  - lia.
  - rewrite V, N.eqb_refl. lia.
  - destruct (v =? tmod g)%N; [destruct K'|lia].
Qed.
Definition leaving (j : nat) (g : N) (s : gstate) : Prop := nth_error (folk s) j = Some (GLv0 g) \/ nth_error (folk s) j = Some (GLv1 g).
Lemma leaves_it j g t : leaving j g (R t) -> served (R t) = g -> exists t', t <= t' /\ served (R t') = (g + 1)%N.
Proof.
  intros H V. assert (Lj : j < n) by (destruct H as [H|H]; eapply in_n; eauto).
  destruct (leads_event R (fun s => leaving j g s /\ served s = g) (fun t => served (R (S t)) = (g + 1)%N)
              (fun s => match nth_error (folk s) j with Some (GLv0 _) => 1 | _ => 0 end) sched j (F j Lj)) with (t := t)
    as (t' & L & E); [|split; assumption|exists (S t'); split; [lia|exact E]].
  clear t H V. intros t [H V]. destruct H as [H|H]; pose proof (served_step t j _ H) as SS; cbn [ghost] in SS; rewrite V in SS; specialize (SS eq_refl);
    pose proof (after_gstep _ (fst (sched t)) (snd (sched t)) j _ H) as E; change (gstep (R t) (fst (sched t)) (snd (sched t))) with (R (S t)) in E;
    destruct (Nat.eqb_spec (fst (sched t)) j) as [J|J]; cbn [andb] in SS; cbn [gkstep snd] in E.
  - right. rewrite H, E, SS. split; [split; [right; exact E|reflexivity]|lia].
  - right. rewrite H, E, SS. split; [split; [left; exact E|reflexivity]|split; [lia|congruence]].
  - left. exact SS.
  - right. rewrite H, E, SS. split; [split; [right; exact E|reflexivity]|split; [lia|congruence]].
Qed.
Lemma comes_out j g t : nth_error (folk (R t)) j = Some (GIn g) -> served (R t) = g -> exists t', t <= t' /\ leaving j g (R t') /\ served (R t') = g.
Proof.
  intros H V. destruct (leave j g t H) as (t1 & L & N). remember (t1 - t) as d eqn:D. revert t L D H V.
  induction d as [|d IH]; intros t L D H V; [assert (t1 = t) as -> by lia; contradiction|].
  pose proof (served_step t j _ H) as SS. cbn [ghost] in SS. rewrite V in SS. specialize (SS eq_refl). rewrite andb_false_r in SS.
  pose proof (after_gstep _ (fst (sched t)) (snd (sched t)) j _ H) as E. change (gstep (R t) (fst (sched t)) (snd (sched t))) with (R (S t)) in E.
  assert (C : nth_error (folk (R (S t))) j = Some (GIn g) \/ nth_error (folk (R (S t))) j = Some (GLv0 g)).
  { rewrite E. destruct (fst (sched t) =? j); [|auto]. cbn. destruct (snd (sched t)); auto. }
  destruct C as [C|C].
  - destruct (IH (S t)) as (t' & L' & X); [lia|lia|exact C|exact SS|]. exists t'. split; [lia|exact X].
  - exists (S t). split; [lia|]. split; [left; exact C|exact SS].
Qed.
(** While tickets are out, the services go on. *)
Lemma serve t : (served (R t) < drawn (R t))%N -> exists t', t <= t' /\ served (R t') = (served (R t) + 1)%N.
Proof.
  intros H. destruct (inv_R t) as (_ & IN & _).
  destruct (tickets_nth (folk (R t)) (served (R t))) as (j & k & Hk & Eg); [apply IN; lia|].
  assert (OUT : forall u, t <= u -> leaving j (served (R t)) (R u) -> served (R u) = served (R t) -> exists t', t <= t' /\ served (R t') = (served (R t) + 1)%N).
  { intros u Lu X Y. destruct (leaves_it j _ u X Y) as (u' & L' & E). exists u'. split; [lia|exact E]. }
  assert (INS : forall u, t <= u -> entered j (served (R t)) u -> served (R u) = served (R t) -> exists t', t <= t' /\ served (R t') = (served (R t) + 1)%N).
  { intros u Lu X Y. destruct (comes_out j _ u X Y) as (u' & L' & E & V). apply (OUT u'); [lia|exact E|exact V]. }
  assert (LOOK : looking j (served (R t)) (R t) -> exists t', t <= t' /\ served (R t') = (served (R t) + 1)%N).
  { intros X. destruct (its_turn j _ t X eq_refl) as (u & Lu & E & V). apply (INS u); assumption. }
  destruct k as [| | |h|h|h|h v|h|h|h|v]; try discriminate; injection Eg as ->.
  1-4: apply LOOK; eexists; split; [exact Hk|reflexivity].
  - apply (INS t); [lia|exact Hk|reflexivity].
  - apply (OUT t); [lia|left; exact Hk|reflexivity].
  - apply (OUT t); [lia|right; exact Hk|reflexivity].
Qed.
Lemma looking_until j g d : forall t, looking j g (R t) -> looking j g (R (t + d)) \/ exists t', t <= t' /\ entered j g t'.
Proof.
  induction d as [|d IH]; intros t H; [left; now rewrite Nat.add_0_r|].
  destruct (looking_step j g t H) as [H'|H']; [|right; exists (S t); auto].
  destruct (IH (S t) H') as [X|(t' & L & X)]; [left; now rewrite Nat.add_succ_r|right; exists t'; split; [lia|exact X]].
Qed.
Lemma looking_range j g t : looking j g (R t) -> (served (R t) <= g < drawn (R t))%N.
Proof. intros H. destruct (looking_ghost j g _ H) as (k & Hk & Eg). destruct (inv_R t) as (_ & IN & _). apply IN. eapply tickets_in; eauto. Qed.
Lemma comes_in j g t : looking j g (R t) -> exists t', t <= t' /\ entered j g t'.
Proof.
  remember (N.to_nat (g - served (R t))) as d eqn:D. revert t D. induction d as [|d IH]; intros t D H; pose proof (looking_range j g t H) as B.
  - destruct (its_turn j g t H ltac:(lia)) as (t' & L & E & _). eauto.
  - destruct (serve t ltac:(lia)) as (t1 & L1 & E1). destruct (looking_until j g (t1 - t) t H) as [X|X]; [|exact X].
    replace (t + (t1 - t)) with t1 in X by lia. destruct (IH t1 ltac:(lia) X) as (t2 & L2 & E2). exists t2. split; [lia|exact E2].
Qed.
(** A thread that is about to draw does. *)
Lemma draws j t : nth_error (folk (R t)) j = Some GDraw0 \/ nth_error (folk (R t)) j = Some GDraw1 -> exists t' g, t <= t' /\ looking j g (R t').
Proof.
  intros H. assert (Lj : j < n) by (destruct H as [H|H]; eapply in_n; eauto).
  destruct (leads_event R (fun s => nth_error (folk s) j = Some GDraw0 \/ nth_error (folk s) j = Some GDraw1) (fun t => exists g, looking j g (R (S t)))
              (fun s => match nth_error (folk s) j with Some GDraw0 => 1 | _ => 0 end) sched j (F j Lj)) with (t := t)
    as (t' & L & g & E); [|exact H|exists (S t'), g; split; [lia|exact E]].
  clear t H. intros t H. destruct H as [H|H];
    pose proof (after_gstep _ (fst (sched t)) (snd (sched t)) j _ H) as E; change (gstep (R t) (fst (sched t)) (snd (sched t))) with (R (S t)) in E;
    destruct (Nat.eqb_spec (fst (sched t)) j) as [J|J]; cbn [gkstep snd] in E.
  - right. rewrite H, E. split; [auto|lia].
  - right. rewrite H, E. split; [auto|split; [lia|congruence]].
  - left. exists (drawn (R t)). eexists. split; [exact E|reflexivity].
  - right. rewrite H, E. split; [auto|split; [lia|congruence]].
Qed.
End Run.
End Ticket.
