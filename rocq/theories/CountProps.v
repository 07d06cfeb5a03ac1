(** C105, C106: an object on its own; ticket numbers; reference counts. *)
From Coq Require Import Permutation.
From Verif Require Import Base BitModel BitsetModel BitsetSpec ConcModel RelaxedModel AtomicModel AtomicSpec AtomicBitsetModel AtomicBitsetSpec AtomicProps.
From Verif Require Import MultiModel MultiSpec MultiProofs MultiProofs2 MultiProofs4 MultiProofs5 MultiProps RaceSpec MultiProofs6 MultiProofs8 CountSpec CountProofs.
Open Scope nat_scope.

(** The calls on any one object take effect one after the other, in an order that agrees with each
    thread, whatever the memory orders and whatever is done with other objects. *)
Theorem C105_one_object : forall objs st programs contents n evss ts outss x,
  shared_run objs st programs contents n evss ts outss ->
  exists l st', one_after_the_other objs st (replies ts outss) (fun y => y =? x) l st' /\ represents (objs x) (contents x (n x)) (st' x).
Proof. intros. destruct (on_its_own objs st programs contents n evss ts outss H x) as (l & st' & H1 & _ & H2). eauto. Qed.
Print Assumptions C105_one_object.

Lemma threads_length objs st programs contents n evss ts outss t k co : shared_run objs st programs contents n evss ts outss -> nth_error (replies ts outss t) k = Some co -> t < length programs.
Proof.
  intros [Ty Hi Hg Hr X] E. destruct (rep_ev objs Ty contents n programs evss ts outss st Hi Hg Hr X t k co E) as (e & Ee & _).
  assert (L : length evss = length programs).
  { assert (K : forall ts1, mall_perform (code objs) ts1 evss ts outss -> length evss = length ts1) by (clear; induction 1; cbn; auto). rewrite (K _ Hr). unfold mstart. apply map_length. }
  rewrite <- L. unfold event_at in Ee. cbn in Ee. apply nth_error_Some. destruct (nth_error evss t); congruence.
Qed.
Lemma start_small objs st programs contents n evss ts outss x iw wx ew sg esg v0 : shared_run objs st programs contents n evss ts outss -> objs x = Int iw wx ew sg esg -> st x = IntState v0 -> (0 < wx)%N /\ (v0 < 2 ^ wx)%N.
Proof.
  intros [Ty Hi _ _ _] Ox Sx. specialize (Ty x). specialize (Hi x). rewrite Ox in *. rewrite Sx in Hi. cbn in Ty, Hi. destruct Hi as [_ ->]. split; [apply Ty|]. apply N.mod_lt, N.pow_nonzero. lia.
Qed.
Lemma only_more rs x f g : (forall op, f op = true -> g op = true) -> only rs x f -> only rs x g.
Proof.
  intros H O t k co E T. specialize (O t k co E T). unfold is_call in *. apply andb_true_iff in O as [O1 O2]. rewrite O1. cbn. destruct (asked (fst co)); [discriminate|auto].
Qed.

(** Threads that draw numbers with [fetch_add(1)] or [++], with any memory orders, get different ones,
    as long as the type has enough of them, and none is left out. *)
Theorem C105_tickets : forall objs st programs contents n evss ts outss x iw wx ew sg esg v0,
  shared_run objs st programs contents n evss ts outss -> objs x = Int iw wx ew sg esg -> st x = IntState v0 ->
  let rs := replies ts outss in let number_made := made rs (length programs) x adds_one in
  only rs x (fun op => looks op || adds_one op) ->
  (forall t k co, nth_error (rs t) k = Some co -> is_call x adds_one (fst co) = true -> exists c, counted rs x wx adds_one t k c) /\
  (forall t k c, counted rs x wx adds_one t k c -> exists j, j < number_made /\ c = ((v0 + N.of_nat j) mod 2 ^ wx)%N) /\
  (forall j, j < number_made -> exists t k, counted rs x wx adds_one t k ((v0 + N.of_nat j) mod 2 ^ wx)%N) /\
  ((N.of_nat number_made <= 2 ^ wx)%N ->
     forall t k c t' k' c', counted rs x wx adds_one t k c -> counted rs x wx adds_one t' k' c' -> (t, k) <> (t', k') -> c <> c') /\
  represents (objs x) (contents x (n x)) (IntState ((v0 + N.of_nat number_made) mod 2 ^ wx)%N).
Proof.
  intros objs st programs contents n evss ts outss x iw wx ew sg esg v0 Run Ox Sx rs number_made Up.
  destruct (start_small _ _ _ _ _ _ _ _ _ _ _ _ _ _ _ Run Ox Sx) as [Wx Hv].
  assert (All : only rs x (fun op => looks op || adds_one op || takes_one op)) by (eapply only_more; [|exact Up]; intros op ->; reflexivity).
  destruct (on_its_own objs st programs contents n evss ts outss Run x) as (l & st' & [Ls On Or (calls & F & T)] & _ & B).
  pose proof (fun t k co => threads_length _ _ _ _ _ _ _ _ t k co Run) as Th.
  split; [|split; [|split; [|split]]].
  - intros t k co E K. eapply (every_call objs st st' rs x iw wx ew sg esg v0 l); eauto.
  - intros t k c H. destruct (ticket objs st st' rs (length programs) x iw wx ew sg esg v0 l Wx Ox Sx Hv Ls On Th All calls F T Up t k c H) as (j & _ & _ & L & E & _). eauto.
  - intros j L. eapply (every_ticket objs st st' rs (length programs) x iw wx ew sg esg v0 l); eauto.
  - intros Bd t k c t' k' c' H H' N. eapply (tickets_differ objs st st' rs (length programs) x iw wx ew sg esg v0 l); eauto.
  - rewrite (final objs st st' rs x iw wx ew sg esg v0 l Wx Ox Sx Hv Ls All calls F T) in B.
    rewrite (val_up rs x wx v0 l Ls Up l [] ltac:(now rewrite app_nil_r)), (cnt_made rs (length programs) x l Ls On Th) in B. exact B.
Qed.
Print Assumptions C105_tickets.

Section References.
Context (objs : nat -> object_type) (st : nat -> obj_state) (programs : list (list call)) (contents : nat -> nat -> N) (n : nat -> nat).
Context (evss : list (list mevent)) (ts : list (mthread call reply)) (outss : list (list (call * reply))) (x : nat) (iw wx ew : N) (sg esg : bool) (v0 : N) (start : nat -> nat).
Notation rs := (replies ts outss). Notation T := (length programs).
Context (Run : shared_run objs st programs contents n evss ts outss) (Ox : objs x = Int iw wx ew sg esg) (Sx : st x = IntState v0).
Context (Rc : reference_count rs T x wx start v0).
Lemma arranged_count : exists l st' calls, (0 < wx)%N /\ (v0 < 2 ^ wx)%N /\ (forall t k, In (t, k) l <-> exists co, nth_error (rs t) k = Some co /\ (target (fst co) =? x) = true) /\ NoDup l /\
  ForallOrdPairs (fun a b : nat * nat => fst a = fst b -> snd a < snd b) l /\ (forall t k co, nth_error (rs t) k = Some co -> t < T) /\
  Forall2 (fun a co => nth_error (rs (fst a)) (snd a) = Some co) l calls /\ in_turn objs st calls st' /\ ForallOrdPairs (fun a b => ~ turn evss b a) l.
Proof.
  destruct (start_small _ _ _ _ _ _ _ _ _ _ _ _ _ _ _ Run Ox Sx) as [Wx Hv].
  destruct (on_its_own objs st programs contents n evss ts outss Run x) as (l & st' & [Ls On Or (calls & F & Tu)] & O & _).
  exists l, st', calls. repeat (split; [assumption|]). split; [|auto]. intros t k co E. eapply threads_length; eassumption.
Qed.
Lemma never_from_zero t k c : counted rs x wx (fun op => adds_one op || takes_one op) t k c -> (1 <= c)%N.
Proof.
  destruct arranged_count as (l & st' & calls & Wx & Hv & Ls & On & Or & Th & F & Tu & _). pose proof (just_counts _ _ _ _ _ _ Rc) as All.
  intros H. eapply (never_zero objs st st' rs T x iw wx ew sg esg v0 l); eassumption.
Qed.
Lemma at_most_one t k t' k' : counted rs x wx takes_one t k 1 -> counted rs x wx takes_one t' k' 1 -> (t, k) = (t', k').
Proof.
  destruct arranged_count as (l & st' & calls & Wx & Hv & Ls & On & Or & Th & F & Tu & _). pose proof (just_counts _ _ _ _ _ _ Rc) as All.
  intros H H'. eapply (one_last objs st st' rs T x iw wx ew sg esg v0 l); eassumption.
Qed.
Lemma nobody_left t k u : counted rs x wx takes_one t k 1 -> u < T -> has rs x start u (length (rs u)) = 0%Z.
Proof.
  destruct arranged_count as (l & st' & calls & Wx & Hv & Ls & On & Or & Th & F & Tu & _). pose proof (just_counts _ _ _ _ _ _ Rc) as All.
  intros H L. eapply (last_then_none objs st st' rs T x iw wx ew sg esg v0 l); eassumption.
Qed.
Lemma there_is_one : (0 < v0)%N -> (forall u, u < T -> has rs x start u (length (rs u)) = 0%Z) -> exists t k, counted rs x wx takes_one t k 1.
Proof.
  destruct arranged_count as (l & st' & calls & Wx & Hv & Ls & On & Or & Th & F & Tu & _). pose proof (just_counts _ _ _ _ _ _ Rc) as All.
  intros H L. eapply (some_last objs st st' rs T x iw wx ew sg esg v0 l); eassumption.
Qed.
Context (Rel : forall t k co, nth_error (rs t) k = Some co -> is_call x takes_one (fst co) = true -> is_release (wanted (asked (fst co))) = true).
Lemma all_before t k co : counted rs x wx takes_one t k 1 -> nth_error (rs t) k = Some co -> is_acquire (wanted (asked (fst co))) = true ->
  forall u j co', nth_error (rs u) j = Some co' -> (1 <= has rs x start u j)%Z -> (u, j) = (t, k) \/ happens_before evss (u, j) (t, k).
Proof.
  destruct arranged_count as (l & st' & calls & Wx & Hv & Ls & On & Or & Th & F & Tu & O). pose proof (just_counts _ _ _ _ _ _ Rc) as All.
  intros H E A u j co' Eu Hh.
  destruct (before_last objs st st' rs T x iw wx ew sg esg v0 l Wx Ox Sx Hv Ls On Or Th All calls F Tu start Rc t k u j H (Th _ _ _ Eu) Hh) as (j' & L & Tk & Pos).
  assert (First : (u, j) = (u, j') \/ happens_before evss (u, j) (u, j')) by (destruct (Nat.eq_dec j j') as [->|N]; [now left|right; apply hb_sequenced; split; [reflexivity|cbn; lia]]).
  destruct Pos as [Eq|(l1 & l2 & El & I)].
  - rewrite <- Eq. exact First.
  - right. assert (Hb : happens_before evss (u, j') (t, k)); [|destruct First as [->|First]; [exact Hb|eapply hb_then; eassumption]].
    unfold isf in Tk. cbn in Tk. destruct (nth_error (rs u) j') as [[ca oa]|] eqn:Ea; [|discriminate]. destruct co as [cb ob].
    assert (Ch : forall c, is_call x takes_one c = true -> target c = x /\ access_of (asked c) = Changes).
    { intros c K. unfold is_call in K. apply andb_true_iff in K as [K1 K2]. apply Nat.eqb_eq in K1. split; [exact K1|]. destruct (asked c) as [|i]; [discriminate|]. cbn. destruct (int_op i); try discriminate; reflexivity. }
    assert (Kb : is_call x takes_one cb = true).
    { destruct H as (i & r & Ei & Ti & _). rewrite E in Ei. injection Ei as -> _. unfold is_call. cbn. now rewrite Nat.eqb_refl. }
    destruct (Ch ca Tk) as [Ta Aa]. destruct (Ch cb Kb) as [Tb Ab].
    eapply (turns_synchronize objs st programs contents n evss ts outss Run x u j' ca oa t k cb ob); eauto.
    + exact (Rel u j' _ Ea Tk).
    + intros t0 j0 c o E0 T0. pose proof (All t0 j0 (c, o) E0 T0) as K. unfold is_call in K. apply andb_true_iff in K as [_ K]. cbn in K. destruct (asked c) as [|i]; [discriminate|]. cbn. destruct (int_op i); try discriminate K; discriminate.
    + intros Eq. rewrite El, <- Eq in On. clear - On I. induction l1 as [|b l1 IH]; [destruct I|]. inversion On as [|? ? N1 N2]; subst. destruct I as [->|I]; [apply N1, in_or_app; right; now left|now apply IH].
    + rewrite El in O. clear - O I. induction l1 as [|b l1 IH]; [destruct I|]. inversion O as [|? ? O1 O2]; subst. destruct I as [->|I]; [|now apply IH]. rewrite Forall_forall in O1. apply O1. apply in_or_app. right. now left.
Qed.
End References.

(** A reference count: references are added and given up by threads that have one, with any memory
    orders. No call finds the count at zero; at most one finds that it has given up the last reference, and
    then no thread has one; and if all threads give up theirs, there is such a call. *)
Theorem C106_last : forall objs st programs contents n evss ts outss x iw wx ew sg esg v0 start,
  shared_run objs st programs contents n evss ts outss -> objs x = Int iw wx ew sg esg -> st x = IntState v0 ->
  let rs := replies ts outss in let threads := length programs in
  reference_count rs threads x wx start v0 ->
  (forall t k c, counted rs x wx (fun op => adds_one op || takes_one op) t k c -> (1 <= c)%N) /\
  (forall t k t' k', counted rs x wx takes_one t k 1 -> counted rs x wx takes_one t' k' 1 -> (t, k) = (t', k')) /\
  ((0 < v0)%N -> ((exists t k, counted rs x wx takes_one t k 1) <-> forall u, u < threads -> has rs x start u (length (rs u)) = 0%Z)).
Proof.
  intros objs st programs contents n evss ts outss x iw wx ew sg esg v0 start Run Ox Sx rs threads Rc. split; [|split].
  - eapply never_from_zero; eassumption.
  - eapply at_most_one; eassumption.
  - intros P. split; [intros (t & k & H) u L; eapply nobody_left; eassumption|eapply there_is_one; eassumption].
Qed.
Print Assumptions C106_last.

(** If references are given up with releasing calls, and the one that gave up the last acquires, then all
    that any thread did while it had a reference happens before this call returns. *)
Theorem C106_safe : forall objs st programs contents n evss ts outss x iw wx ew sg esg v0 start t k co,
  shared_run objs st programs contents n evss ts outss -> objs x = Int iw wx ew sg esg -> st x = IntState v0 ->
  let rs := replies ts outss in
  reference_count rs (length programs) x wx start v0 ->
  (forall t k co, nth_error (rs t) k = Some co -> is_call x takes_one (fst co) = true -> is_release (wanted (asked (fst co))) = true) ->
  counted rs x wx takes_one t k 1 -> nth_error (rs t) k = Some co -> is_acquire (wanted (asked (fst co))) = true ->
  forall u j co', nth_error (rs u) j = Some co' -> (1 <= has rs x start u j)%Z -> (u, j) = (t, k) \/ happens_before evss (u, j) (t, k).
Proof. intros. eapply all_before; eassumption. Qed.
Print Assumptions C106_safe.

(** ** Examples *)
(** Two threads draw three numbers. *)
Definition drawn : list (list (call * reply)) :=
  [[(int 1 APostInc None, IntReply (Some 0%N)); (int 1 (AFetchAdd 1) (Some Relaxed), IntReply (Some 2%N))]; [(int 1 APreInc None, IntReply (Some 2%N)); (int 1 ALoad (Some Relaxed), IntReply (Some 2%N))]].
Example C105_nonvacuous :
  let rs := replies [@MThread call reply None []; MThread None []] drawn in
  (exists contents n evss, shared_run ex_objs ex_start (map (map fst) drawn) contents n evss [MThread None []; MThread None []] drawn) /\
  only rs 1 (fun op => looks op || adds_one op) /\ made rs 2 1 adds_one = 3 /\ counted rs 1 8 adds_one 1 0 1%N.
Proof.
  intros rs. split; [|split; [|split]].
  - set (evss := [[ev 1 (PAdd 1) SeqCst 0%N 1; ev 1 (PAdd 1) Relaxed 2%N 3]; [ev 1 (PAdd 1) SeqCst 1%N 2; ev 1 PLoad Relaxed 2%N 2]]).
    exists (fun x k => if x =? 1 then N.of_nat k else 0%N). eexists. exists evss. split; [exact ex_types|intros [|[|x]]; apply ex_starts|good|runs|].
    apply (timed_execution [(0, ev 1 (PAdd 1) SeqCst 0%N 1); (1, ev 1 (PAdd 1) SeqCst 1%N 2); (1, ev 1 PLoad Relaxed 2%N 2); (0, ev 1 (PAdd 1) Relaxed 2%N 3)] evss); [merged|].
    cbn. repeat split; reflexivity.
  - intros [|[|t]] k co E _; [| |destruct t; destruct k; discriminate E]; (destruct k as [|[|k]]; [| |destruct k; discriminate E]); cbn in E; injection E as <-; reflexivity.
  - reflexivity.
  - eexists. exists 2%N. split; [reflexivity|]. split; [reflexivity|]. split; reflexivity.
Qed.

(** Two threads with a reference each; the first writes object 2, makes another reference and gives up
    both; the second reads object 2 and gives up its reference, which is the last one. *)
Definition shared_start (x : nat) : obj_state := if x =? 1 then IntState 2%N else ex_start x.
Definition given (rel : memory_order) (last : aop) (mo : option memory_order) (r : N) : list (list (call * reply)) :=
  [[(int 2 (AStore 5) (Some Relaxed), IntReply None); (int 1 (AFetchAdd 1) (Some Relaxed), IntReply (Some 2%N)); (int 1 (AFetchSub 1) (Some rel), IntReply (Some 3%N)); (int 1 (AFetchSub 1) (Some rel), IntReply (Some 2%N))];
   [(int 2 ALoad (Some Relaxed), IntReply (Some 5%N)); (int 1 last mo, IntReply (Some r))]].
Definition given_events (rel lo : memory_order) : list (list mevent) :=
  [[ev 2 (PStore 5) Relaxed 0%N 1; ev 1 (PAdd 1) Relaxed 2%N 1; ev 1 (PSub 1) rel 3%N 2; ev 1 (PSub 1) rel 2%N 3]; [ev 2 PLoad Relaxed 5%N 1; ev 1 (PSub 1) lo 1%N 4]].
Definition given_contents (x k : nat) : N := match x with 1 => match k with 1 => 3%N | 3 => 1%N | 4 => 0%N | _ => 2%N end | 2 => match k with 1 => 5%N | _ => 0%N end | _ => 0%N end.
Lemma given_count rel last mo r : takes_one last = true -> told 8 last r 1 -> let rs := replies [@MThread call reply None []; MThread None []] (given rel last mo r) in
  reference_count rs 2 1 8 (fun _ => 1) 2 /\ counted rs 1 8 takes_one 1 1 1.
Proof.
  intros H Td rs. split; [split|].
  - intros [|[|t]] k co E T; [| |destruct t; destruct k; discriminate E].
    + destruct k as [|[|[|[|k]]]]; cbn in E; try (injection E as <-); try discriminate T; try reflexivity. destruct k; discriminate E.
    + destruct k as [|[|k]]; cbn in E; try (injection E as <-); try discriminate T; [|destruct k; discriminate E]. unfold is_call. cbn. rewrite H. apply orb_true_r.
  - reflexivity.
  - intros [|[|t]] k co E T; [| |destruct t; destruct k; discriminate E].
    + destruct k as [|[|[|[|k]]]]; cbn in E; try (injection E as <-); try discriminate T; try (vm_compute; discriminate). destruct k; discriminate E.
    + destruct k as [|[|k]]; cbn in E; try (injection E as <-); try discriminate T; [vm_compute; discriminate|destruct k; discriminate E].
  - assert (A : made rs 2 1 adds_one = 1); [|rewrite A; reflexivity]. unfold made, number, rs. cbn [seq map]. unfold replies. cbn. unfold is_call. cbn. now destruct last.
  - eexists. exists r. split; [reflexivity|]. split; [exact H|exact Td].
Qed.
Example C106_nonvacuous :
  (exists n, shared_run ex_objs shared_start (map (map fst) (given Release APreDec None 0)) given_contents n (given_events Release SeqCst) [MThread None []; MThread None []] (given Release APreDec None 0)) /\
  let rs := replies [@MThread call reply None []; MThread None []] (given Release APreDec None 0) in
  reference_count rs 2 1 8 (fun _ => 1) 2 /\ counted rs 1 8 takes_one 1 1 1 /\
  forall t k co, nth_error (rs t) k = Some co -> is_call 1 takes_one (fst co) = true -> is_release (wanted (asked (fst co))) = true.
Proof.
  split; [|split; [|split]].
  - eexists. split; [exact ex_types|intros [|[|[|x]]]; cbn; split; reflexivity|good|runs|].
    apply (timed_execution [(0, ev 2 (PStore 5) Relaxed 0%N 1); (0, ev 1 (PAdd 1) Relaxed 2%N 1); (1, ev 2 PLoad Relaxed 5%N 1); (0, ev 1 (PSub 1) Release 3%N 2); (0, ev 1 (PSub 1) Release 2%N 3); (1, ev 1 (PSub 1) SeqCst 1%N 4)] (given_events Release SeqCst)); [merged|].
    cbn. repeat split; reflexivity.
  - apply given_count; [reflexivity|split; reflexivity].
  - apply given_count; [reflexivity|split; reflexivity].
  - intros [|[|t]] k co E T; [| |destruct t; destruct k; discriminate E].
    + destruct k as [|[|[|[|k]]]]; cbn in E; try (injection E as <-); try discriminate T; try reflexivity. destruct k; discriminate E.
    + destruct k as [|[|k]]; cbn in E; try (injection E as <-); try discriminate T; [reflexivity|destruct k; discriminate E].
Qed.

(** With relaxed calls instead, what the first thread did need not happen before the last reference is
    given up. *)
Theorem C106_relaxed_orders : exists n,
  let outss := given Relaxed (AFetchSub 1) (Some Relaxed) 1 in let ts := [MThread None []; MThread None []] in let evss := given_events Relaxed Relaxed in
  shared_run ex_objs shared_start (map (map fst) outss) given_contents n evss ts outss /\
  let rs := replies ts outss in
  reference_count rs 2 1 8 (fun _ => 1) 2 /\ counted rs 1 8 takes_one 1 1 1 /\
  (1 <= has rs 1 (fun _ => 1%nat) 0 0)%Z /\ ~ happens_before evss (0, 0) (1, 1).
Proof.
  eexists. split; [|split; [|split; [|split]]].
  - split; [exact ex_types|intros [|[|[|x]]]; cbn; split; reflexivity|good|runs|].
    apply (timed_execution [(0, ev 2 (PStore 5) Relaxed 0%N 1); (0, ev 1 (PAdd 1) Relaxed 2%N 1); (1, ev 2 PLoad Relaxed 5%N 1); (0, ev 1 (PSub 1) Relaxed 3%N 2); (0, ev 1 (PSub 1) Relaxed 2%N 3); (1, ev 1 (PSub 1) Relaxed 1%N 4)] (given_events Relaxed Relaxed)); [merged|].
    cbn. repeat split; reflexivity.
  - apply given_count; [reflexivity|split; reflexivity].
  - apply given_count; [reflexivity|split; reflexivity].
  - vm_compute. discriminate.
  - intros H. apply hb_unsynchronized in H as [H _]; [discriminate H|]. intros a b (ea & eb & i & j & Ea & _ & _ & R & _). assert (I : In ea (concat (given_events Relaxed Relaxed))) by (apply event_at_in; eauto).
    cbn in I. decompose [or] I; subst; try discriminate R; contradiction.
Qed.
Print Assumptions C106_relaxed_orders.

(** If references are given up without releasing, or without acquiring, whoever gives up the last one need
    not even find what another did while it had one. *)
Definition dangling (mo : memory_order) : list (list (call * reply)) :=
  [[(int 2 (AStore 5) (Some Relaxed), IntReply None); (int 1 (AFetchSub 1) (Some mo), IntReply (Some 2%N))];
   [(int 1 (AFetchSub 1) (Some mo), IntReply (Some 1%N)); (int 2 ALoad (Some Relaxed), IntReply (Some 0%N))]].
Definition dangling_events (mo : memory_order) : list (list mevent) :=
  [[ev 2 (PStore 5) Relaxed 0%N 1; ev 1 (PSub 1) mo 2%N 1]; [ev 1 (PSub 1) mo 1%N 2; ev 2 PLoad Relaxed 0%N 0]].
Theorem C106_weaker_orders : forall mo, mo = Relaxed \/ mo = Acquire \/ mo = Release ->
  exists programs contents n evss outss, let ts := [MThread None []; MThread None []] in let rs := replies ts outss in
  shared_run ex_objs shared_start programs contents n evss ts outss /\
  (forall c, In c (concat programs) -> target c = 1 -> wanted (asked c) = mo) /\
  reference_count rs 2 1 8 (fun _ => 1) 2 /\ (1 <= has rs 1 (fun _ => 1%nat) 0 0)%Z /\
  nth_error (rs 0) 0 = Some (int 2 (AStore 5) (Some Relaxed), IntReply None) /\
  counted rs 1 8 takes_one 1 0 1 /\ nth_error (rs 1) 1 = Some (int 2 ALoad (Some Relaxed), IntReply (Some 0%N)).
Proof.
  intros mo Or. exists (map (map fst) (dangling mo)), (fun x k => match x, k with 2, 1 => 5%N | 1, 0 => 2%N | 1, 1 => 1%N | _, _ => 0%N end), (fun x => match x with 2 => 1 | 1 => 2 | _ => 0 end), (dangling_events mo), (dangling mo).
  cbn zeta. split; [|split; [|split; [split|split; [|split; [|split]]]]].
  - destruct Or as [-> | [-> | ->]]; (split; [exact ex_types|intros [|[|[|x]]]; cbn; split; reflexivity|good|unfold dangling, dangling_events; cbn [map fst]; runs|]); apply unsynchronized.
    1, 4, 7: intros x; destruct x as [|[|[|x]]]; cbn; split; cbn; try (intros e I; cbn in I; decompose [or] I; subst; try contradiction; cbn; try discriminate; intros; try (split; [lia|]); reflexivity);
        try apply Permutation_refl; repeat constructor; cbn; intros; discriminate.
    1, 3, 5: intros a b (ea & eb & i & j & Ea & Eb & Ob & Rl & Ac & Wi & Rj & L & _);
      (assert (Ia : exists a, event_at (dangling_events _) a = Some ea) by eauto); (assert (Ib : exists a, event_at (dangling_events _) a = Some eb) by eauto);
      apply event_at_in in Ia, Ib; cbn in Ia, Ib; decompose [or] Ia; subst; try contradiction; try discriminate Rl; decompose [or] Ib; subst; try contradiction; try discriminate Ac; discriminate.
    all: cbn; intros e I; decompose [or] I; subst; try contradiction; discriminate.
  - intros c I T. cbn in I. decompose [or] I; subst; try contradiction; try reflexivity; discriminate T.
  - intros [|[|t]] k co E T; [| |destruct t; destruct k; discriminate E]; (destruct k as [|[|k]]; cbn in E; try (injection E as <-); try discriminate T; [reflexivity|destruct k; discriminate E]).
  - reflexivity.
  - intros [|[|t]] k co E T; [| |destruct t; destruct k; discriminate E]; (destruct k as [|[|k]]; cbn in E; try (injection E as <-); try discriminate T; [vm_compute; discriminate|destruct k; discriminate E]).
  - reflexivity.
  - vm_compute. discriminate.
  - reflexivity.
  - eexists. exists 1%N. split; [reflexivity|]. split; [reflexivity|]. split; reflexivity.
  - reflexivity.
Qed.
Print Assumptions C106_weaker_orders.
