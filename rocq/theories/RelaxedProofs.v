From Coq Require Import Permutation.
From Verif Require Import Base BaseLemmas ConcModel ConcSpec ConcProofs RelaxedModel.
Open Scope nat_scope.

Lemma coherent_place a b : coherent a b -> place a <= place b /\ (modifies b = true -> place a < place b).
Proof.
  intros (WW & RR & RW & WR). unfold writes_at, reads_at, modifies in *.
  destruct (performed a); try (specialize (WW _ (place b) eq_refl)); try (specialize (WR (place a) (place b) eq_refl));
  try (specialize (RR (place a) (place b) eq_refl)); try (specialize (RW (place a) (place b) eq_refl));
  destruct (performed b); split; try discriminate; try intros _;
  repeat match goal with H : _ |- _ => match type of H with (Some ?x = Some ?x -> _) => specialize (H eq_refl) end end; try lia; auto with arith.
Qed.

(** * Lists *)
Lemma set_nth_nth {A} (l : list A) i x : nth_error l i = Some x -> set_nth i x l = l.
Proof. revert i. induction l as [|a l IH]; intros [|i]; cbn; try discriminate; [intros [= ->]; reflexivity|]. intros H. now rewrite IH. Qed.
Lemma nth_set_nth {A} (l : list A) i j x : nth_error (set_nth i x l) j = if Nat.eqb i j then (if i <? length l then Some x else None) else nth_error l j.
Proof.
  revert i j. induction l as [|a l IH]; intros [|i] [|j]; cbn; try reflexivity.
  - now destruct (Nat.eqb i j).
  - now rewrite IH.
Qed.
Lemma set_nth_set_nth {A} (l : list A) i x y : set_nth i x (set_nth i y l) = set_nth i x l.
Proof. revert i. induction l as [|a l IH]; intros [|i]; cbn; try reflexivity. now rewrite IH. Qed.
Lemma set_nth_length' {A} (l : list A) i x : length (set_nth i x l) = length l.
Proof. revert i. induction l as [|a l IH]; intros [|i]; cbn; try reflexivity. now rewrite IH. Qed.
Lemma rd_of_nat {A} (l : list A) i : rd l (N.of_nat i) = nth_error l i.
Proof. now rewrite rd_nth_error, Nnat.Nat2N.id. Qed.
Lemma wr_of_nat {A} (l : list A) i x : i < length l -> wr l (N.of_nat i) x = Some (set_nth i x l).
Proof. intros H. unfold wr, len. destruct (N.ltb_spec (N.of_nat i) (N.of_nat (length l))); [|lia]. now rewrite Nnat.Nat2N.id. Qed.
Lemma concat_pick {A} (l : list (list A)) i x xs : nth_error l i = Some (x :: xs) -> Permutation (concat l) (x :: concat (set_nth i xs l)).
Proof.
  revert i. induction l as [|a l IH]; intros [|i] H; try discriminate; cbn in *.
  - injection H as ->. reflexivity.
  - rewrite (IH i H). symmetry. apply Permutation_middle.
Qed.
Lemma skipn_nth {A} (l : list A) k x : nth_error l k = Some x -> skipn k l = x :: skipn (S k) l.
Proof. revert k. induction l as [|a l IH]; intros [|k] H; try discriminate; cbn in *; [congruence|]. now apply IH. Qed.
Lemma Forall_set_nth {A} (P : A -> Prop) l i x : Forall P l -> P x -> Forall P (set_nth i x l).
Proof. intros H Hx. revert i. induction H; intros [|i]; cbn; constructor; auto. Qed.
Lemma perm_filter {A} (f : A -> bool) l l' : Permutation l l' -> Permutation (filter f l) (filter f l').
Proof.
  induction 1; cbn; auto.
  - destruct (f x); auto.
  - destruct (f x), (f y); auto. apply perm_swap.
  - eapply Permutation_trans; eauto.
Qed.

Section Run.
Context {Op Out : Type}.
Variable w : N.
Variable code : Op -> prog Out.
Notation run := (run_threads w code).

Lemma run_app s1 : forall s2 mem (ts : list (thread Op Out)) mem1 ts1 h1 mem2 ts2 h2,
  run s1 mem ts = Some (mem1, ts1, h1) -> run s2 mem1 ts1 = Some (mem2, ts2, h2) -> run (s1 ++ s2) mem ts = Some (mem2, ts2, h1 ++ h2).
Proof.
  induction s1 as [|i s1 IH]; intros s2 mem ts mem1 ts1 h1 mem2 ts2 h2 E1 E2; cbn [run_threads app] in *.
  - injection E1 as <- <- <-. exact E2.
  - destruct (rd ts i) as [t|]; [|now apply (IH _ _ _ mem1 ts1)].
    destruct (tstep w code i mem t) as [[[m t'] es]|]; [|discriminate]. destruct (wr ts i t') as [ts'|]; [|discriminate].
    destruct (run s1 m ts') as [[[m3 ts3] h3]|] eqn:E; [|discriminate]. injection E1 as <- <- <-.
    rewrite (IH s2 m ts' m3 ts3 h3 mem2 ts2 h2 E E2). now rewrite app_assoc.
Qed.
Lemma answers_app i (h1 h2 : list (event Op Out)) : answers i (h1 ++ h2) = answers i h1 ++ answers i h2.
Proof. induction h1 as [|[j op|j op o] h1 IH]; cbn; [reflexivity|exact IH|]. destruct (j =? i)%N; cbn; now rewrite IH. Qed.

(** [own i h outs]: only thread [i] is answered in [h], with [outs]. *)
Definition own (i : nat) (h : list (event Op Out)) (outs : list (Op * Out)) : Prop :=
  responses h = outs /\ forall j, answers (N.of_nat j) h = if Nat.eqb i j then outs else [].
Lemma own_nil i : own i [] [].
Proof. split; [reflexivity|]. intros j. now destruct (Nat.eqb i j). Qed.
Lemma responses_app (h1 h2 : list (event Op Out)) : responses (h1 ++ h2) = responses h1 ++ responses h2.
Proof. induction h1 as [|[j op|j op o] h1 IH]; cbn; [reflexivity|exact IH|]. now rewrite IH. Qed.
Lemma own_app i h1 h2 o1 o2 : own i h1 o1 -> own i h2 o2 -> own i (h1 ++ h2) (o1 ++ o2).
Proof. intros [R1 H1] [R2 H2]. split; [rewrite responses_app; congruence|]. intros j. rewrite answers_app, H1, H2. now destruct (Nat.eqb i j). Qed.
(** One step of thread [i]. *)
Lemma one_step i mem (ts : list (thread Op Out)) t mem' t' es : nth_error ts i = Some t -> tstep w code (N.of_nat i) mem t = Some (mem', t', es) ->
  run [N.of_nat i] mem ts = Some (mem', set_nth i t' ts, es).
Proof.
  intros Ht Hs. cbn [run_threads]. rewrite rd_of_nat, Ht, Hs, wr_of_nat by (apply nth_error_Some; congruence). now rewrite app_nil_r.
Qed.
Lemma res_own i op o : own i [Res (N.of_nat i) op o] [(op, o)].
Proof.
  split; [reflexivity|]. intros j. cbn. destruct (N.eqb_spec (N.of_nat i) (N.of_nat j)) as [E|E], (Nat.eqb_spec i j); try reflexivity; lia.
Qed.
Lemma inv_own i op : own i [Inv (N.of_nat i) op] [].
Proof. split; [reflexivity|]. intros j. cbn. now destruct (Nat.eqb i j). Qed.

(** A thread that performs nothing more reaches its end. *)
Lemma silent i t evs t' outs : performs code t evs t' outs -> evs = [] -> forall mem ts, nth_error ts i = Some t ->
  exists s h, run s mem ts = Some (mem, set_nth i t' ts, h) /\ own i h outs.
Proof.
  induction 1 as [t|op rest evs t' outs H IH|op p k rest r n evs t' outs H IH|op o rest evs t' outs H IH]; intros E mem ts Ht.
  - exists [], []. split; [|apply own_nil]. cbn. now rewrite set_nth_nth.
  - destruct (IH E mem (set_nth i (Thread (Some (op, code op)) rest) ts)) as (s & h & R & O).
    { rewrite nth_set_nth, Nat.eqb_refl. apply (f_equal (fun x => match x with Some _ => true | None => false end)) in Ht as Hl.
      destruct (Nat.ltb_spec i (length ts)); [reflexivity|]. exfalso. assert (nth_error ts i = None) by now apply nth_error_None. congruence. }
    rewrite set_nth_set_nth in R. exists ([N.of_nat i] ++ s), ([Inv (N.of_nat i) op] ++ h). split.
    + eapply run_app; [|exact R]. eapply one_step; [exact Ht|reflexivity].
    + change outs with ([] ++ outs). apply own_app; [apply inv_own|exact O].
  - discriminate.
  - destruct (IH E mem (set_nth i (Thread None rest) ts)) as (s & h & R & O).
    { rewrite nth_set_nth, Nat.eqb_refl. destruct (Nat.ltb_spec i (length ts)); [reflexivity|]. exfalso. assert (nth_error ts i = None) by now apply nth_error_None. congruence. }
    rewrite set_nth_set_nth in R. exists ([N.of_nat i] ++ s), ([Res (N.of_nat i) op o] ++ h). split.
    + eapply run_app; [|exact R]. eapply one_step; [exact Ht|reflexivity].
    + change ((op, o) :: outs) with ([(op, o)] ++ outs). apply own_app; [apply res_own|exact O].
Qed.
(** A thread reaches its next primitive and performs it. *)
Lemma next i t l t' outs : performs code t l t' outs -> forall e evs, l = e :: evs -> forall mem mem' ts, nth_error ts i = Some t ->
  exec_prim w (performed e) mem = (mem', got e) ->
  exists s h t1 outs1 outs2, run s mem ts = Some (mem', set_nth i t1 ts, h) /\ own i h outs1 /\ performs code t1 evs t' outs2 /\ outs = outs1 ++ outs2.
Proof.
  assert (Set_ : forall ts (x t : thread Op Out), nth_error ts i = Some t -> nth_error (set_nth i x ts) i = Some x).
  { intros ts x t0 Ht. rewrite nth_set_nth, Nat.eqb_refl. destruct (Nat.ltb_spec i (length ts)); [reflexivity|]. exfalso.
    assert (nth_error ts i = None) by now apply nth_error_None. congruence. }
  induction 1 as [t|op rest evs t' outs H IH|op p k rest r n evs t' outs H IH|op o rest evs t' outs H IH]; intros e evs0 E mem mem' ts Ht X.
  - discriminate.
  - destruct (IH e evs0 E mem mem' (set_nth i (Thread (Some (op, code op)) rest) ts) (Set_ _ _ _ Ht) X) as (s & h & t1 & o1 & o2 & R & O & P & Q).
    rewrite set_nth_set_nth in R. exists ([N.of_nat i] ++ s), ([Inv (N.of_nat i) op] ++ h), t1, o1, o2. split; [|split; [|split; [exact P|exact Q]]].
    + eapply run_app; [|exact R]. eapply one_step; [exact Ht|reflexivity].
    + change o1 with ([] ++ o1). apply own_app; [apply inv_own|exact O].
  - injection E as <- <-. cbn in X. exists [N.of_nat i], [], (Thread (Some (op, k r)) rest), [], outs. split; [|split; [apply own_nil|split; [exact H|reflexivity]]].
    eapply one_step; [exact Ht|]. unfold tstep. cbn [cur]. rewrite X. reflexivity.
  - destruct (IH e evs0 E mem mem' (set_nth i (Thread None rest) ts) (Set_ _ _ _ Ht) X) as (s & h & t1 & o1 & o2 & R & O & P & Q).
    rewrite set_nth_set_nth in R. exists ([N.of_nat i] ++ s), ([Res (N.of_nat i) op o] ++ h), t1, ((op, o) :: o1), o2. split; [|split; [|split; [exact P|now rewrite Q]]].
    + eapply run_app; [|exact R]. eapply one_step; [exact Ht|reflexivity].
    + change ((op, o) :: o1) with ([(op, o)] ++ o1). apply own_app; [apply res_own|exact O].
Qed.

Lemma all_perform_at ts evss ts' outss i evs : all_perform code ts evss ts' outss -> nth_error evss i = Some evs ->
  exists t t' outs, nth_error ts i = Some t /\ nth_error ts' i = Some t' /\ nth_error outss i = Some outs /\ performs code t evs t' outs /\
    forall t1 evs1 outs1, performs code t1 evs1 t' outs1 -> all_perform code (set_nth i t1 ts) (set_nth i evs1 evss) ts' (set_nth i outs1 outss).
Proof.
  intros H. revert i. induction H as [|t evs' t' outs ts evss ts' outss P A IH]; intros [|i] E; try discriminate; cbn in *.
  - injection E as ->. exists t, t', outs. repeat split; try assumption. intros. now constructor.
  - destruct (IH i E) as (t0 & t0' & o0 & E1 & E2 & E3 & P0 & K). exists t0, t0', o0. repeat split; try assumption. intros. constructor; auto.
Qed.
Lemma all_perform_length ts evss ts' outss : all_perform code ts evss ts' outss -> length evss = length ts /\ length ts' = length ts /\ length outss = length ts.
Proof. induction 1 as [|? ? ? ? ? ? ? ? ? ? (A & B & C)]; cbn; [auto|lia]. Qed.

(** The answers of every thread. *)
Definition answered (h : list (event Op Out)) (outss : list (list (Op * Out))) : Prop :=
  Permutation (responses h) (concat outss) /\ forall i, answers (N.of_nat i) h = nth i outss [].
Lemma concat_app_pick {A} (l : list (list A)) i x y : nth_error l i = Some (x ++ y) -> Permutation (concat l) (x ++ concat (set_nth i y l)).
Proof.
  revert i. induction l as [|a l IH]; intros [|i] H; try discriminate; cbn in *.
  - injection H as ->. now rewrite app_assoc.
  - rewrite (IH i H), !app_assoc. apply Permutation_app_tail, Permutation_app_comm.
Qed.
Lemma answered_own i h1 h2 o1 o2 outss : nth_error outss i = Some (o1 ++ o2) -> own i h1 o1 -> answered h2 (set_nth i o2 outss) -> answered (h1 ++ h2) outss.
Proof.
  intros E [Or O] [Ar A]. split; [rewrite responses_app, Or, Ar; symmetry; now apply concat_app_pick|]. intros j. rewrite answers_app, O, A. assert (L : i < length outss) by (apply nth_error_Some; congruence).
  destruct (Nat.eqb_spec i j) as [<-|Ne].
  - rewrite (nth_error_nth outss i [] E). f_equal. apply nth_error_nth. rewrite nth_set_nth, Nat.eqb_refl. destruct (Nat.ltb_spec i (length outss)); [reflexivity|lia].
  - cbn. destruct (nth_error outss j) as [o|] eqn:F.
    + rewrite (nth_error_nth outss j [] F). apply nth_error_nth. rewrite nth_set_nth. destruct (Nat.eqb_spec i j); [contradiction|exact F].
    + apply nth_error_None in F. rewrite !nth_overflow; [reflexivity|exact F|now rewrite set_nth_length'].
Qed.

Lemma finish ts evss ts' outss : all_perform code ts evss ts' outss -> concat evss = [] -> forall mem,
  exists s h, run s mem ts = Some (mem, ts', h) /\ answered h outss.
Proof.
  intros H Hc mem. assert (E : forall k ts1, k <= length ts -> length ts1 = length ts -> (forall i, i < k -> nth_error ts1 i = nth_error ts' i) ->
     (forall i, k <= i -> nth_error ts1 i = nth_error ts i) ->
     exists s h, run s mem ts1 = Some (mem, ts', h) /\ Permutation (responses h) (concat (skipn k outss)) /\ forall i, answers (N.of_nat i) h = if i <? k then [] else nth i outss []).
  { destruct (all_perform_length _ _ _ _ H) as (L1 & L2 & L3).
    intros k. remember (length ts - k) as d eqn:D. revert k D. induction d as [|d IH]; intros k D ts1 Hk Hl Hlo Hhi.
    - exists [], []. split.
      + cbn. f_equal. f_equal. f_equal. apply nth_ext with (d := Thread None []) (d' := Thread None []); [lia|]. intros i Hi.
        assert (X : nth_error ts1 i = nth_error ts' i) by (apply Hlo; lia).
        rewrite (nth_error_nth' ts1 (Thread None [])), (nth_error_nth' ts' (Thread None [])) in X by lia. congruence.
      + split; [rewrite skipn_all2 by lia; constructor|]. intros i. cbn [answers]. destruct (Nat.ltb_spec i k); [reflexivity|]. rewrite nth_overflow; [reflexivity|lia].
    - assert (Hke : k < length ts) by lia. destruct (nth_error evss k) as [evs|] eqn:Ee.
      2:{ apply nth_error_None in Ee. lia. }
      assert (evs = []).
      { destruct evs as [|e evs]; [reflexivity|]. pose proof (concat_pick _ _ _ _ Ee) as P. rewrite Hc in P. now apply Permutation_nil in P. }
      subst evs. destruct (all_perform_at _ _ _ _ _ _ H Ee) as (t & t' & outs & E1 & E2 & E3 & P & _).
      destruct (silent k t [] t' outs P eq_refl mem ts1) as (s1 & h1 & R1 & O0 & O1); [rewrite Hhi by lia; exact E1|].
      destruct (IH (S k) ltac:(lia) (set_nth k t' ts1)) as (s2 & h2 & R2 & A0 & A2).
      + lia.
      + now rewrite set_nth_length'.
      + intros i Hi. rewrite nth_set_nth. destruct (Nat.eqb_spec k i) as [<-|Ne].
        * destruct (Nat.ltb_spec k (length ts1)); [now symmetry|lia].
        * apply Hlo. lia.
      + intros i Hi. rewrite nth_set_nth. destruct (Nat.eqb_spec k i) as [<-|Ne]; [lia|]. apply Hhi. lia.
      + exists (s1 ++ s2), (h1 ++ h2). split; [eapply run_app; eassumption|]. split.
        { rewrite responses_app, O0, A0. rewrite (skipn_nth _ _ _ E3). reflexivity. }
        intros i. rewrite answers_app, O1, A2.
        destruct (Nat.eqb_spec k i) as [<-|Ne].
        * destruct (Nat.ltb_spec k (S k)), (Nat.ltb_spec k k); try lia. rewrite app_nil_r. symmetry. now apply nth_error_nth.
        * cbn [app]. destruct (Nat.ltb_spec i (S k)), (Nat.ltb_spec i k); try lia; reflexivity. }
  destruct (E 0 ts) as (s & h & R & A0 & A); try lia; [reflexivity|]. exists s, h. split; [exact R|]. split; [exact A0|]. intros i. now rewrite A.
Qed.

Variable contents : nat -> N.
Lemma simulate : forall d k m ts evss ts' outss, length (concat evss) = d -> all_perform code ts evss ts' outss ->
  Permutation (map place (filter modifies (concat evss))) (seq (S k) m) ->
  (forall e, In e (concat evss) -> modifies e = true -> exec_prim w (performed e) (contents (place e - 1)) = (contents (place e), got e)) ->
  (forall e, In e (concat evss) -> modifies e = false -> k <= place e <= k + m /\ got e = contents (place e)) ->
  Forall (ForallOrdPairs coherent) evss ->
  exists s h, run s (contents k) ts = Some (contents (k + m), ts', h) /\ answered h outss.
Proof.
  induction d as [|d IH]; intros k m ts evss ts' outss Hd Ha Hp Hm Hr Hc.
  - assert (E : concat evss = []) by (now apply length_zero_iff_nil). rewrite E in Hp. cbn in Hp. apply Permutation_nil in Hp.
    destruct m; [|discriminate]. rewrite Nat.add_0_r. now apply (finish ts evss).
  - (* the event to perform next *)
    assert (Pick : exists i e evs, nth_error evss i = Some (e :: evs) /\
              (modifies e = false /\ place e = k \/ modifies e = true /\ place e = S k /\ forall x, In x (concat evss) -> modifies x = false -> k < place x)).
    { destruct (existsb (fun l => match l with e :: _ => negb (modifies e) && (place e =? k) | [] => false end) evss) eqn:X.
      - apply existsb_exists in X as ([|e evs] & I & X); [discriminate|]. apply andb_true_iff in X as [X1 X2].
        apply negb_true_iff in X1. apply Nat.eqb_eq in X2. apply In_nth_error in I as [i I]. exists i, e, evs. auto.
      - assert (Head : forall i x xs, nth_error evss i = Some (x :: xs) -> modifies x = false -> place x <> k).
        { intros i x xs Hx Mx Px. assert (existsb (fun l => match l with e :: _ => negb (modifies e) && (place e =? k) | [] => false end) evss = true); [|congruence].
          apply existsb_exists. exists (x :: xs). split; [now apply nth_error_In in Hx|]. rewrite Mx. cbn. now apply Nat.eqb_eq. }
        assert (Later : forall x, In x (concat evss) -> modifies x = false -> k < place x).
        { intros x Ix Mx. destruct (Hr x Ix Mx) as [Hx _]. apply in_concat in Ix as ([|y ys] & Il & Ix); [destruct Ix|].
          assert (Iy : In y (concat evss)) by (apply in_concat; exists (y :: ys); split; [exact Il|now left]).
          pose proof Il as Il0. apply In_nth_error in Il as [i Il]. destruct Ix as [->|Ix]; [specialize (Head _ _ _ Il Mx); lia|].
          assert (C : coherent y x).
          { rewrite Forall_forall in Hc. specialize (Hc _ Il0). inversion Hc as [|? ? F _]; subst. rewrite Forall_forall in F. now apply F. }
          apply coherent_place in C as [C _]. destruct (modifies y) eqn:My.
          - assert (J : In (place y) (seq (S k) m)) by (eapply Permutation_in; [exact Hp|]; apply in_map; apply filter_In; now split). apply in_seq in J. lia.
          - destruct (Hr y Iy My) as [Hy _]. specialize (Head _ _ _ Il My). lia. }
        assert (Hm0 : m <> 0).
        { intros ->. destruct (concat evss) as [|e r] eqn:Ec; [discriminate|]. cbn in Hp.
          assert (I : In e (concat evss)) by (rewrite Ec; now left). 
          assert (Hx : exists i x xs, nth_error evss i = Some (x :: xs)).
          { apply in_concat in I as (l & Il & Ie). destruct l as [|x xs]; [destruct Ie|]. apply In_nth_error in Il as [i Il]. now exists i, x, xs. }
          destruct Hx as (i & x & xs & Hx). assert (Ix : In x (concat evss)).
          { apply in_concat. exists (x :: xs). split; [now apply nth_error_In in Hx|now left]. }
          rewrite Ec in Ix. destruct (modifies x) eqn:Mx.
          - assert (In (place x) []); [|contradiction]. eapply Permutation_in; [exact Hp|].
            change (In (place x) (map place (filter modifies (e :: r)))). apply in_map. apply filter_In. now split.
          - destruct (Hr x Ix Mx) as [Hx1 _]. assert (existsb (fun l => match l with e :: _ => negb (modifies e) && (place e =? k) | [] => false end) evss = true); [|congruence].
            apply existsb_exists. exists (x :: xs). split; [now apply nth_error_In in Hx|]. rewrite Mx. cbn. apply Nat.eqb_eq. lia. }
        destruct m as [|m]; [contradiction|]. assert (I : In (S k) (map place (filter modifies (concat evss)))).
        { eapply Permutation_in; [symmetry; exact Hp|]. now left. }
        apply in_map_iff in I as (e & Ep & I). apply filter_In in I as [I Me]. apply in_concat in I as (l & Il & Ie).
        apply In_nth_error in Il as [i Il]. exists i. destruct l as [|x xs]; [destruct Ie|]. exists x, xs. split; [exact Il|].
        destruct Ie as [->|Ie]; [right; now repeat split|]. exfalso.
        assert (C : coherent x e).
        { rewrite Forall_forall in Hc. specialize (Hc _ (nth_error_In _ _ Il)). inversion Hc as [|? ? F _]; subst. rewrite Forall_forall in F. now apply F. }
        apply coherent_place in C as [_ C]. specialize (C Me). assert (Ix : In x (concat evss)) by (apply in_concat; exists (x :: xs); split; [now apply nth_error_In in Il|now left]).
        destruct (modifies x) eqn:Mx.
        + assert (J : In (place x) (seq (S k) (S m))) by (eapply Permutation_in; [exact Hp|]; apply in_map; apply filter_In; now split). apply in_seq in J. lia.
        + destruct (Hr x Ix Mx) as [Hx1 _]. assert (existsb (fun l => match l with e :: _ => negb (modifies e) && (place e =? k) | [] => false end) evss = true); [|congruence].
          apply existsb_exists. exists (x :: xs). split; [now apply nth_error_In in Il|]. rewrite Mx. cbn. apply Nat.eqb_eq. lia. }
    destruct Pick as (i & e & evs & Ei & K). destruct (all_perform_at _ _ _ _ _ _ Ha Ei) as (t & t' & outs & E1 & E2 & E3 & P & Upd).
    pose proof (concat_pick _ _ _ _ Ei) as Pc. assert (Ie : In e (concat evss)) by (eapply Permutation_in; [symmetry; exact Pc|now left]).
    assert (Sub : forall x, In x (concat (set_nth i evs evss)) -> In x (concat evss)) by (intros x I; eapply Permutation_in; [symmetry; exact Pc|now right]).
    assert (Ld : length (concat (set_nth i evs evss)) = d) by (apply Permutation_length in Pc; cbn in Pc; lia).
    assert (Hc' : Forall (ForallOrdPairs coherent) (set_nth i evs evss)).
    { apply Forall_set_nth; [exact Hc|]. rewrite Forall_forall in Hc. specialize (Hc _ (nth_error_In _ _ Ei)). now inversion Hc. }
    assert (Pf : Permutation (map place (filter modifies (concat evss))) (map place (filter modifies (e :: concat (set_nth i evs evss))))).
    { apply Permutation_map. now apply perm_filter. }
    destruct K as [[Me Pe]|(Me & Pe & Later)].
    + destruct (Hr e Ie Me) as [_ G]. rewrite Pe in G.
      assert (X : exec_prim w (performed e) (contents k) = (contents k, got e)) by (unfold modifies in Me; destruct (performed e); try discriminate; cbn; now rewrite G).
      destruct (next i t _ t' outs P e evs eq_refl (contents k) (contents k) ts E1 X) as (s1 & h1 & t1 & o1 & o2 & R1 & O1 & P1 & ->).
      destruct (IH k m _ _ _ _ Ld (Upd _ _ _ P1)) as (s2 & h2 & R2 & A2).
      * cbn [filter] in Pf. rewrite Me in Pf. rewrite <- Pf. exact Hp.
      * intros x I. apply Hm. now apply Sub.
      * intros x I. apply Hr. now apply Sub.
      * exact Hc'.
      * exists (s1 ++ s2), (h1 ++ h2). split; [eapply run_app; eassumption|]. eapply answered_own; eassumption.
    + pose proof (Hm e Ie Me) as X. rewrite Pe in X. replace (S k - 1) with k in X by lia.
      destruct (next i t _ t' outs P e evs eq_refl (contents k) (contents (S k)) ts E1 X) as (s1 & h1 & t1 & o1 & o2 & R1 & O1 & P1 & ->).
      cbn [filter] in Pf. rewrite Me in Pf. cbn [map] in Pf. rewrite Pe in Pf.
      destruct m as [|m]; [rewrite Pf in Hp; symmetry in Hp; apply Permutation_nil in Hp; discriminate|].
      destruct (IH (S k) m _ _ _ _ Ld (Upd _ _ _ P1)) as (s2 & h2 & R2 & A2).
      * apply Permutation_cons_inv with (a := S k). rewrite <- Pf. exact Hp.
      * intros x I. apply Hm. now apply Sub.
      * intros x I Mx. destruct (Hr x (Sub x I) Mx) as [Hx Gx]. split; [|exact Gx]. specialize (Later x (Sub x I) Mx). lia.
      * exact Hc'.
      * exists (s1 ++ s2), (h1 ++ h2). split; [replace (k + S m) with (S k + m) by lia; eapply run_app; eassumption|]. eapply answered_own; eassumption.
Qed.

Lemma run_app_none s1 : forall s2 mem (ts : list (thread Op Out)) mem1 ts1 h1,
  run s1 mem ts = Some (mem1, ts1, h1) -> run s2 mem1 ts1 = None -> run (s1 ++ s2) mem ts = None.
Proof.
  induction s1 as [|i s1 IH]; intros s2 mem ts mem1 ts1 h1 E1 E2; cbn [run_threads app] in *.
  - injection E1 as <- <- <-. exact E2.
  - destruct (rd ts i) as [t|]; [|now apply (IH _ _ _ mem1 ts1 h1)].
    destruct (tstep w code i mem t) as [[[m t'] es]|]; [|reflexivity]. destruct (wr ts i t') as [ts'|]; [|reflexivity].
    destruct (run s1 m ts') as [[[m3 ts3] h3]|] eqn:E; [|discriminate]. injection E1 as <- <- <-.
    now rewrite (IH s2 m ts' m3 ts3 h3 E E2).
Qed.
End Run.

(** * The theorems *)
Lemma execution_run {Op Out} w (code : Op -> prog Out) contents n ts evss ts' outss :
  all_perform code ts evss ts' outss -> execution w contents n evss ->
  exists s h, run_threads w code s (contents 0) ts = Some (contents n, ts', h) /\
    Permutation (responses h) (concat outss) /\ forall i, answers (N.of_nat i) h = nth i outss [].
Proof.
  intros A [O M R C]. apply (simulate w code contents (length (concat evss)) 0 n ts evss ts' outss eq_refl A O M); [|exact C].
  intros e I E. destruct (R e I E). split; [lia|assumption].
Qed.
(** A thread that has run into undefined behaviour. *)
Definition undefined {Op Out} (t : thread Op Out) : Prop := exists op, cur t = Some (op, Bad).
Lemma execution_undefined {Op Out} w (code : Op -> prog Out) contents n ts evss ts' outss t :
  all_perform code ts evss ts' outss -> execution w contents n evss -> In t ts' -> undefined t ->
  exists s, run_threads w code s (contents 0) ts = None.
Proof.
  intros A E I (op & B). destruct (execution_run w code contents n ts evss ts' outss A E) as (s & h & R & _).
  apply In_nth_error in I as [i I]. exists (s ++ [N.of_nat i]). eapply run_app_none; [exact R|]. cbn [run_threads].
  rewrite rd_of_nat, I. unfold tstep. now rewrite B.
Qed.

(** ** Every interleaving is an execution *)
Lemma coherent_iff a b : coherent a b <-> place a <= place b /\ (modifies b = true -> place a < place b).
Proof.
  split; [apply coherent_place|]. intros [L M]. unfold coherent, writes_at, reads_at, modifies in *.
  destruct (performed a), (performed b); try specialize (M eq_refl); repeat split; intros i j [= <-] [= <-]; lia.
Qed.
Definition later (d : nat) (e : aevent) : aevent := {| performed := performed e; got := got e; place := place e + d |}.
Lemma later_coherent d a b : coherent a b -> coherent (later d a) (later d b).
Proof. rewrite !coherent_iff. cbn. unfold modifies. cbn. intros [L M]. split; [lia|]. intros X. specialize (M X). lia. Qed.
Lemma later_pairs d l : ForallOrdPairs coherent l -> ForallOrdPairs coherent (map (later d) l).
Proof.
  induction 1 as [|a l F H IH]; cbn; constructor; [|exact IH]. apply Forall_map. eapply Forall_impl; [|exact F]. intros. now apply later_coherent.
Qed.
Lemma concat_set_head {A} (l : list (list A)) i x evs : nth_error l i = Some evs -> Permutation (concat (set_nth i (x :: evs) l)) (x :: concat l).
Proof.
  revert i. induction l as [|a l IH]; intros [|i] H; try discriminate; cbn in *.
  - injection H as ->. reflexivity.
  - rewrite (IH i H). symmetry. apply Permutation_middle.
Qed.
Section Converse.
Context {Op Out : Type}.
Variable w : N.
Variable code : Op -> prog Out.
Lemma performs_later d (t : thread Op Out) evs t' outs : performs code t evs t' outs -> performs code t (map (later d) evs) t' outs.
Proof. induction 1; cbn; try now constructor. Qed.
Lemma all_perform_later d (ts : list (thread Op Out)) evss ts' outss : all_perform code ts evss ts' outss -> all_perform code ts (map (map (later d)) evss) ts' outss.
Proof. induction 1; cbn; constructor; auto using performs_later. Qed.
Lemma all_perform_start (ts : list (thread Op Out)) : exists outss, all_perform code ts (map (fun _ => []) ts) ts outss /\ Forall (eq []) outss.
Proof.
  induction ts as [|t ts (outss & IH & F)]; [exists []; split; constructor|]. exists ([] :: outss). split; constructor; auto. constructor.
Qed.
(** Changing thread [i] at the start. *)
Lemma all_perform_front (ts : list (thread Op Out)) evss ts' outss i t t1 f g : all_perform code (set_nth i t1 ts) evss ts' outss -> nth_error ts i = Some t ->
  (forall evs t' outs, performs code t1 evs t' outs -> performs code t (f evs) t' (g outs)) ->
  exists evs outs, nth_error evss i = Some evs /\ nth_error outss i = Some outs /\ all_perform code ts (set_nth i (f evs) evss) ts' (set_nth i (g outs) outss).
Proof.
  revert i evss ts' outss. induction ts as [|a ts IH]; intros [|i] evss ts' outss H E Hf; try discriminate; cbn in *.
  - injection E as ->. inversion H; subst. do 2 eexists. split; [reflexivity|]. split; [reflexivity|]. constructor; auto.
  - inversion H; subst. destruct (IH i _ _ _ H6 E Hf) as (evs0 & outs0 & A & B & C). exists evs0, outs0. split; [exact A|]. split; [exact B|]. now constructor.
Qed.
Lemma run_execution s : forall mem (ts : list (thread Op Out)) mem' ts' h, run_threads w code s mem ts = Some (mem', ts', h) ->
  exists contents n evss outss, contents 0 = mem /\ contents n = mem' /\ all_perform code ts evss ts' outss /\ execution w contents n evss /\
    forall i, i < length ts -> nth_error outss i = Some (answers (N.of_nat i) h).
Proof.
  induction s as [|j s IH]; intros mem ts mem' ts' h R; cbn [run_threads] in R.
  - injection R as <- <- <-. destruct (all_perform_start ts) as (outss & A & F). exists (fun _ => mem), 0, (map (fun _ => []) ts), outss.
    assert (Ec : concat (map (fun _ : thread Op Out => @nil aevent) ts) = []) by (clear; induction ts; auto).
    repeat split; try assumption.
    + rewrite Ec. constructor.
    + rewrite Ec. intros e [].
    + rewrite Ec in H. destruct H.
    + rewrite Ec in H. destruct H.
    + apply Forall_map, Forall_forall. constructor.
    + intros i Hi. cbn. destruct (all_perform_length _ _ _ _ _ A) as (_ & _ & L). destruct (nth_error outss i) as [o|] eqn:E; [|apply nth_error_None in E; lia].
      apply nth_error_In in E. rewrite Forall_forall in F. now rewrite <- (F o E).
  - destruct (rd ts j) as [t|] eqn:Et; [|now apply IH in R].
    destruct (tstep w code j mem t) as [[[mem1 t1] es]|] eqn:Es; [|discriminate]. destruct (wr ts j t1) as [ts1|] eqn:Ew; [|discriminate].
    destruct (run_threads w code s mem1 ts1) as [[[mem2 ts2] h2]|] eqn:Er; [|discriminate]. injection R as <- <- <-.
    set (i := N.to_nat j). assert (Ej : j = N.of_nat i) by (unfold i; now rewrite Nnat.N2Nat.id).
    assert (Ei : nth_error ts i = Some t) by (rewrite rd_nth_error in Et; exact Et).
    assert (Li : i < length ts) by (apply nth_error_Some; congruence).
    assert (E1 : ts1 = set_nth i t1 ts) by (rewrite Ej, (wr_of_nat ts i t1 Li) in Ew; congruence). subst ts1.
    destruct (IH _ _ _ _ _ Er) as (contents & n & evss & outss & C0 & Cn & A & X & An). rewrite set_nth_length' in An.
    (* steps that perform nothing *)
    assert (Silent : forall g, mem1 = mem -> (forall evs t' outs, performs code t1 evs t' outs -> performs code t evs t' (g outs)) ->
       (forall k, answers (N.of_nat k) (es ++ h2) = if Nat.eqb i k then g (answers (N.of_nat k) h2) else answers (N.of_nat k) h2) ->
       exists contents n evss outss, contents 0 = mem /\ contents n = mem2 /\ all_perform code ts evss ts2 outss /\ execution w contents n evss /\
         forall i, i < length ts -> nth_error outss i = Some (answers (N.of_nat i) (es ++ h2))).
    { intros g Em Hg Ha. destruct (all_perform_front ts evss ts2 outss i t t1 (fun e => e) g A Ei Hg) as (evs & outs & F1 & F2 & F3).
      exists contents, n, evss, (set_nth i (g outs) outss). rewrite set_nth_nth in F3 by exact F1. split; [congruence|]. split; [exact Cn|]. split; [exact F3|]. split; [exact X|].
      intros k Hk. rewrite nth_set_nth, Ha. destruct (Nat.eqb_spec i k) as [<-|]; [|now apply An].
      rewrite (An i Hk) in F2. injection F2 as <-. destruct (Nat.ltb_spec i (length outss)) as [|L]; [reflexivity|].
      apply nth_error_None in L. rewrite (An i Hk) in L. discriminate. }
    destruct t as [[[op p]|] td]; unfold tstep in Es; cbn [cur todo] in Es.
    + destruct p as [o| |p k].
      * injection Es as <- <- <-. apply (Silent (cons (op, o))); [reflexivity|intros; now constructor|].
        intros k. cbn [app answers]. rewrite Ej. destruct (N.eqb_spec (N.of_nat i) (N.of_nat k)), (Nat.eqb_spec i k); try lia; reflexivity.
      * discriminate.
      * destruct (exec_prim w p mem) as [m' r] eqn:Ep. injection Es as <- <- <-. cbn [app].
        set (e := {| performed := p; got := r; place := if modifies {| performed := p; got := r; place := 0 |} then 1 else 0 |}).
        set (d := place e).
        destruct (all_perform_front ts (map (map (later d)) evss) ts2 outss i (Thread (Some (op, Do p k)) td) _ (cons e) (fun o => o)
                   (all_perform_later d _ _ _ _ A) Ei ltac:(intros; now constructor)) as (evs & outs & F1 & F2 & F3).
        rewrite (set_nth_nth outss i outs F2) in F3.
        destruct X as [O M Rd C].
        assert (Pc : Permutation (concat (set_nth i (e :: evs) (map (map (later d)) evss))) (e :: map (later d) (concat evss))).
        { rewrite (concat_set_head _ _ e _ F1). now rewrite concat_map. }
        assert (Mpos : forall x, In x (concat evss) -> modifies x = true -> 1 <= place x <= n).
        { intros x Ix Mx. assert (J : In (place x) (seq 1 n)) by (eapply Permutation_in; [exact O|]; apply in_map; apply filter_In; now split). apply in_seq in J. lia. }
        assert (Coh : Forall (ForallOrdPairs coherent) (set_nth i (e :: evs) (map (map (later d)) evss))).
        { assert (C' : Forall (ForallOrdPairs coherent) (map (map (later d)) evss)).
          { apply Forall_map. eapply Forall_impl; [|exact C]. intros. now apply later_pairs. }
          apply Forall_set_nth; [exact C'|]. constructor; [|rewrite Forall_forall in C'; apply C'; now apply nth_error_In in F1].
          apply Forall_forall. intros x Ix. rewrite nth_error_map in F1. destruct (nth_error evss i) as [l|] eqn:El; [|discriminate]. injection F1 as <-.
          apply in_map_iff in Ix as (y & <- & Iy). apply coherent_iff. cbn [place later]. split; [unfold d; lia|]. unfold modifies. cbn [performed later].
          intros My. assert (1 <= place y <= n); [|unfold d; lia]. apply Mpos; [|exact My]. apply in_concat. exists l. split; [now apply nth_error_In in El|exact Iy]. }
        destruct (modifies e) eqn:Me.
        { assert (Hd : d = 1) by (unfold d, e; unfold modifies in *; cbn in *; now rewrite Me). assert (Pe : place e = 1) by exact Hd. clearbody d. subst d.
          exists (fun k => match k with O => mem | S k => contents k end), (S n), (set_nth i (e :: evs) (map (map (later 1)) evss)), outss.
          split; [reflexivity|]. split; [exact Cn|]. split; [exact F3|]. split; [|exact An]. constructor.
          - rewrite (Permutation_map place (perm_filter modifies _ _ Pc)). cbn [filter]. rewrite Me. cbn [map seq].
            rewrite Pe, <- seq_shift, <- O.
            replace (map place (filter modifies (map (later 1) (concat evss)))) with (map S (map place (filter modifies (concat evss)))); [reflexivity|].
            clear. induction (concat evss) as [|x l IH]; [reflexivity|]. cbn. change (modifies (later 1 x)) with (modifies x). destruct (modifies x); cbn; rewrite ?IH; [|reflexivity]. f_equal. lia.
          - intros x Ix Mx. assert (Ix' : In x (e :: map (later 1) (concat evss))) by (eapply Permutation_in; eassumption). destruct Ix' as [<-|Ix'].
            + rewrite Pe. cbn. rewrite C0. exact Ep.
            + apply in_map_iff in Ix' as (y & <- & Iy). change (modifies (later 1 y)) with (modifies y) in Mx. specialize (Mpos y Iy Mx). specialize (M y Iy Mx). cbn.
              replace (place y + 1 - 1) with (S (place y - 1)) by lia. replace (place y + 1) with (S (place y)) by lia. exact M.
          - intros x Ix Mx. assert (Ix' : In x (e :: map (later 1) (concat evss))) by (eapply Permutation_in; eassumption). destruct Ix' as [<-|Ix']; [congruence|].
            apply in_map_iff in Ix' as (y & <- & Iy). change (modifies (later 1 y)) with (modifies y) in Mx. destruct (Rd y Iy Mx). cbn. replace (place y + 1) with (S (place y)) by lia. split; [lia|assumption].
          - exact Coh. }
        { assert (Hd : d = 0) by (unfold d, e; unfold modifies in *; cbn in *; now rewrite Me). assert (Pe : place e = 0) by exact Hd. clearbody d. subst d.
          assert (L0 : map (later 0) (concat evss) = concat evss).
          { clear. induction (concat evss) as [|x l IH]; [reflexivity|]. cbn. rewrite IH. f_equal. destruct x. unfold later. cbn. now rewrite Nat.add_0_r. }
          rewrite L0 in Pc. assert (Lp : m' = mem /\ r = mem) by (unfold modifies in Me; cbn in Me; destruct p; try discriminate; injection Ep as <- <-; now split). destruct Lp as [-> ->].
          exists contents, n, (set_nth i (e :: evs) (map (map (later 0)) evss)), outss.
          split; [exact C0|]. split; [exact Cn|]. split; [exact F3|]. split; [|exact An]. constructor.
          - rewrite (Permutation_map place (perm_filter modifies _ _ Pc)). cbn [filter]. rewrite Me. exact O.
          - intros x Ix Mx. assert (Ix' : In x (e :: concat evss)) by (eapply Permutation_in; eassumption). destruct Ix' as [<-|Ix']; [congruence|]. now apply M.
          - intros x Ix Mx. assert (Ix' : In x (e :: concat evss)) by (eapply Permutation_in; eassumption). destruct Ix' as [<-|Ix']; [|now apply Rd].
            rewrite Pe. split; [lia|]. now rewrite C0.
          - exact Coh. }
    + destruct td as [|op td].
      * injection Es as <- <- <-. apply (Silent (fun o => o)); [reflexivity|auto|]. intros k. cbn. now destruct (Nat.eqb i k).
      * injection Es as <- <- <-. apply (Silent (fun o => o)); [reflexivity|intros; now constructor|]. intros k. cbn. now destruct (Nat.eqb i k).
Qed.
End Converse.
