(** Property C71: atomic and atomic_bitset with any memory orders. *)
From Coq Require Import Permutation.
From Verif Require Import Base BitModel BitsetModel BitsetSpec ConcModel ConcSpec ConcProofs AtomicModel AtomicSpec AtomicBitsetModel AtomicBitsetSpec.
From Verif Require Import AtomicProps RelaxedModel RelaxedProofs.
Open Scope nat_scope.

(** C71. Whatever the memory orders, the threads get the same answers, and leave the same word, as in
    some interleaving of their steps; ... *)
Theorem C71_interleaving {Op Out} w (code : Op -> prog Out) contents n ts evss ts' outss :
  all_perform code ts evss ts' outss -> execution w contents n evss ->
  exists sched h, run_threads w code sched (contents 0) ts = Some (contents n, ts', h) /\
    Permutation (responses h) (concat outss) /\ forall i, answers (N.of_nat i) h = nth i outss [].
Proof. exact (execution_run w code contents n ts evss ts' outss). Qed.
Print Assumptions C71_interleaving.
(** ... and every interleaving is among these executions. *)
Theorem C71_interleaving_converse {Op Out} w (code : Op -> prog Out) sched mem (ts : list (thread Op Out)) mem' ts' h :
  run_threads w code sched mem ts = Some (mem', ts', h) ->
  exists contents n evss outss, contents 0 = mem /\ contents n = mem' /\ all_perform code ts evss ts' outss /\ execution w contents n evss /\
    forall i, i < length ts -> nth_error outss i = Some (answers (N.of_nat i) h).
Proof. exact (run_execution w code sched mem ts mem' ts' h). Qed.
Print Assumptions C71_interleaving_converse.

(** So for atomic_bitset: nothing undefined happens, and the answers are those of a linearizable
    history in which each thread keeps its program order. *)
Theorem C71_bitset : forall pl n w sw same64 contents k m programs evss ts' outss,
  ab_sizes pl n w same64 -> stores n (contents 0) m -> Forall (Forall (abpre n w sw)) programs ->
  all_perform (abcode pl n w sw same64) (start programs) evss ts' outss -> execution w contents k evss ->
  Forall (fun t => ~ undefined t) ts' /\
  exists h m', stores n (contents k) m' /\ linearizable (abspec n w) m h m' /\ (forall i, answers (N.of_nat i) h = nth i outss []) /\
    forall i p, rd programs i = Some p -> exists rest, p = invoked i h ++ rest.
Proof.
  intros pl n w sw same64 contents k m programs evss ts' outss Hs HR Hp A E. split.
  - apply Forall_forall. intros t I U. destruct (execution_undefined _ _ _ _ _ _ _ _ t A E I U) as [s N].
    destruct (C20_linearizable pl n w sw same64 s (contents 0) m programs Hs HR Hp) as (? & ? & ? & ? & N' & _). congruence.
  - destruct (execution_run _ _ _ _ _ _ _ _ A E) as (s & h & R & _ & An).
    destruct (C20_linearizable pl n w sw same64 s (contents 0) m programs Hs HR Hp) as (mem' & ts1 & h1 & m' & R' & S & L & _).
    rewrite R in R'. injection R' as <- <- <-. exists h, m'. repeat split; try assumption; try apply S.
    intros i p. exact (C20_program_order pl n w sw same64 s (contents 0) programs _ _ h i p R).
Qed.
Print Assumptions C71_bitset.
(** Exactly one of the calls that set a clear bit sees it clear, whatever the orders. *)
Theorem C71_test_and_set : forall pl n w sw same64 contents k m programs evss ts' outss i,
  ab_sizes pl n w same64 -> stores n (contents 0) m -> Forall (Forall (abpre n w sw)) programs ->
  (i < n)%N -> bit m i = false ->
  Forall (Forall (fun op => sets i op = true \/ leaves w i op)) programs -> existsb (sets i) (concat programs) = true ->
  all_perform (abcode pl n w sw same64) (start programs) evss ts' outss -> execution w contents k evss -> finished ts' ->
  length (winners w i (concat outss)) = 1 /\ N.testbit (contents k) i = true.
Proof.
  intros pl n w sw same64 contents k m programs evss ts' outss i Hs HR Hp Hi Hb Ho Hex A E F.
  destruct (execution_run _ _ _ _ _ _ _ _ A E) as (s & h & R & P & _).
  destruct (C20_test_and_set pl n w sw same64 s (contents 0) m programs i _ _ h Hs HR Hp Hi Hb Ho Hex R F) as [L T]. split; [|exact T].
  rewrite <- L. apply Permutation_length. apply perm_filter. now symmetry.
Qed.
Print Assumptions C71_test_and_set.

(** For atomic<T>, the same; ... *)
Theorem C71_atomic : forall int_w w ew sg esg contents k m programs evss ts' outss, (0 < w)%N -> (w <= ew)%N ->
  word_holds w ew (contents 0) m -> Forall (Forall (call_ok int_w w ew sg esg)) programs ->
  all_perform (acode int_w w ew sg esg) (start programs) evss ts' outss -> execution ew contents k evss ->
  Forall (fun t => ~ undefined t) ts' /\
  exists h m', word_holds w ew (contents k) m' /\ linearizable (aspec w) m h m' /\ (forall i, answers (N.of_nat i) h = nth i outss []) /\
    forall i p, rd programs i = Some p -> exists rest, p = invoked i h ++ rest.
Proof.
  intros int_w w ew sg esg contents k m programs evss ts' outss Hw Hew HR Hp A E. split.
  - apply Forall_forall. intros t I U. destruct (execution_undefined _ _ _ _ _ _ _ _ t A E I U) as [s N].
    destruct (C21_linearizable int_w w ew sg esg s (contents 0) m programs Hw Hew HR Hp) as (? & ? & ? & ? & N' & _). congruence.
  - destruct (execution_run _ _ _ _ _ _ _ _ A E) as (s & h & R & _ & An).
    destruct (C21_linearizable int_w w ew sg esg s (contents 0) m programs Hw Hew HR Hp) as (mem' & ts1 & h1 & m' & R' & S & L & _).
    rewrite R in R'. injection R' as <- <- <-. exists h, m'. split; [exact S|]. split; [exact L|]. split; [exact An|].
    intros i p Ep. destruct (invoked_order _ _ _ _ _ _ _ _ R i (Thread None p)) as (t' & _ & Ht).
    { rewrite BaseLemmas.rd_nth_error in Ep. rewrite BaseLemmas.rd_nth_error. unfold start. now rewrite nth_error_map, Ep. }
    now exists (todo t').
Qed.
Print Assumptions C71_atomic.
(** ... no addition is lost, ... *)
Theorem C71_sum : forall int_w w ew sg esg contents k m programs evss ts' outss, (0 < w)%N -> (w <= ew)%N ->
  word_holds w ew (contents 0) m -> Forall (Forall (call_ok int_w w ew sg esg)) programs ->
  Forall (Forall (fun op => delta op <> None)) programs ->
  all_perform (acode int_w w ew sg esg) (start programs) evss ts' outss -> execution ew contents k evss -> finished ts' ->
  exists m', word_holds w ew (contents k) m' /\ Z.of_N m' = ((Z.of_N m + total_delta (concat programs)) mod 2 ^ Z.of_N w)%Z.
Proof.
  intros int_w w ew sg esg contents k m programs evss ts' outss Hw Hew HR Hp Hd A E F.
  destruct (execution_run _ _ _ _ _ _ _ _ A E) as (s & h & R & _ & _).
  exact (C21_sum int_w w ew sg esg s (contents 0) m programs _ _ h Hw Hew HR Hp Hd R F).
Qed.
Print Assumptions C71_sum.
(** ... and increments return different values. *)
Theorem C71_increments : forall int_w w ew sg esg contents k m programs evss ts' outss op, (0 < w)%N -> (w <= ew)%N ->
  op = APreInc \/ op = APostInc -> call_ok int_w w ew sg esg op ->
  word_holds w ew (contents 0) m -> Forall (Forall (fun o => o = op)) programs ->
  all_perform (acode int_w w ew sg esg) (start programs) evss ts' outss -> execution ew contents k evss -> finished ts' ->
  word_holds w ew (contents k) ((m + len (concat programs)) mod 2 ^ w) /\
  ((len (concat programs) <= 2 ^ w)%N -> NoDup (map snd (concat outss))).
Proof.
  intros int_w w ew sg esg contents k m programs evss ts' outss op Hw Hew Hop Hok HR Hp A E F.
  destruct (execution_run _ _ _ _ _ _ _ _ A E) as (s & h & R & P & _).
  destruct (C21_increments int_w w ew sg esg s (contents 0) m programs _ _ h op Hw Hew Hop Hok HR Hp R F) as (_ & S & N). split; [exact S|].
  intros L. apply (Permutation_NoDup (Permutation_map snd P)). now apply N.
Qed.
Print Assumptions C71_increments.

(** One thread stores 5 and increments it; another loads 0 and then 6, a third loads 5 twice; all of
    it while the program of the second still has a call to make. *)
Example C71_nonvacuous :
  let contents k := match k with 0 => 0%N | 1 => 5%N | _ => 6%N end in
  let ev p r k := {| performed := p; got := r; place := k |} in
  let evss := [[ev (PStore 5) 0%N 1; ev (PAdd 1) 5%N 2]; [ev PLoad 0%N 0; ev PLoad 6%N 2]; [ev PLoad 5%N 1; ev PLoad 5%N 1]] in
  execution 8 contents 2 evss /\
  all_perform (acode 32 8 8 false false) (start [[AStore 5; APostInc]; [ALoad; ALoad; APreDec]; [ALoad; ALoad]])
    evss [Thread None []; Thread None [APreDec]; Thread None []]
    [[(AStore 5, None); (APostInc, Some 5%N)]; [(ALoad, Some 0%N); (ALoad, Some 6%N)]; [(ALoad, Some 5%N); (ALoad, Some 5%N)]].
Proof.
  intros contents ev evss. split.
  - split.
    + cbv. apply Permutation_refl.
    + intros e. cbn. intros [<-|[<-|[<-|[<-|[<-|[<-|[]]]]]]] M; try discriminate M; reflexivity.
    + intros e. cbn. intros [<-|[<-|[<-|[<-|[<-|[<-|[]]]]]]] M; try discriminate M; cbn; split; try reflexivity; lia.
    + repeat constructor; cbn; intros i j Hi Hj; try discriminate Hi; try discriminate Hj; injection Hi as <-; injection Hj as <-; lia.
  - unfold start, evss, ev. cbn [map]. repeat apply ap_more; try apply ap_none.
    + apply p_call. cbn. apply p_do, p_return, p_call. cbn. apply p_do, p_return, p_stop.
    + apply p_call. cbn. apply p_do, p_return, p_call. cbn. apply p_do, p_return, p_stop.
    + apply p_call. cbn. apply p_do, p_return, p_call. cbn. apply p_do, p_return, p_stop.
Qed.
(** A thread cannot read an older value after a newer one. *)
Example C71_no_going_back : forall contents n r evss,
  ~ execution 8 contents n ([{| performed := PLoad; got := r; place := 2 |}; {| performed := PLoad; got := r; place := 1 |}] :: evss).
Proof.
  intros contents n r evss E. apply coherence in E. inversion E as [|? ? F _]; subst. inversion F as [|? ? G _]; subst.
  inversion G as [|? ? (_ & R & _) _]; subst. specialize (R 2 1 eq_refl eq_refl). lia.
Qed.
