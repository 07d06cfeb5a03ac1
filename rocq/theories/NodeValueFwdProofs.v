From Verif Require Import Base BaseLemmas IntrusiveListModel IntrusiveListSpec IntrusiveListProofs ForwardListModel ForwardListSpec ForwardListProofs.
From Verif Require Import NodeValueModel NodeValueSpec NodeValueProofs NodeValueFwdModel NodeValueFwdSpec.
Open Scope N_scope.

Lemma flink_set m n p k : ~ In n (fseq m) -> flink (set_floose m n p) k = if k =? n then p else flink m k.
Proof.
  intros H. unfold flink. cbn [set_floose fseq floose]. destruct (N.eqb_spec k n) as [->|Hk]; [|reflexivity].
  rewrite after_out by exact H. reflexivity.
Qed.
Lemma fgrow_rep k s m p : FRep k s m -> FRep (k + 1) (with_nexts s (nexts s ++ [p])) (set_floose m k p).
Proof.
  intros (Hn & Hlt & Hh & Ht & HL & HH). assert (Hk : ~ In k (fseq m)) by (intros H; apply Hlt in H; lia).
  split; [exact Hn|]. split; [intros n H; apply Hlt in H; cbn [set_floose fseq] in *; lia|]. split; [exact Hh|]. split; [exact Ht|]. cbn [with_nexts nexts].
  split; [rewrite len_app, len_cons, len_nil; lia|]. intros a Ha. rewrite rd_snoc, flink_set, HL by exact Hk.
  destruct (N.eqb_spec a k); [reflexivity|]. apply HH. lia.
Qed.
Lemma fvalue_step_ok pol hd s m k op m' k' o : FRep k s m -> fvalue_step pol (m, k) op = Some ((m', k'), o) ->
  exists s', fn_step pol hd s op = Done s' o [] /\ FRep k' s' m'.
Proof.
  intros HR. pose proof HR as (Hn & Hlt & Hh & Ht & HH). destruct op as [op| |a|d a]; cbn [fvalue_step fn_step].
  - destruct (fseq_step pol k m op) as [[m1 o1]|] eqn:E; [|discriminate]. intros F. injection F as <- <- <-. exact (f_step_ok pol hd _ _ _ _ _ _ HR E).
  - intros F. injection F as <- <- <-. pose proof HH as [HL _]. rewrite HL. eexists. split; [reflexivity|]. now apply fgrow_rep.
  - destruct (N.ltb_spec a k) as [Ha|]; [|discriminate]. intros F. injection F as <- <- <-. pose proof HH as [HL _]. rewrite (get_next_ok _ _ _ a HH Ha), HL.
    eexists. split; [reflexivity|]. now apply fgrow_rep.
  - destruct (N.ltb_spec d k) as [Hd|]; [|discriminate]. destruct (N.ltb_spec a k) as [Ha|]; [|discriminate]. cbn [andb].
    destruct ((d =? a) || negb (mem d (fseq m))) eqn:E; [|discriminate]. intros F. injection F as <- <- <-.
    rewrite (get_next_ok _ _ _ a HH Ha). destruct (put_next_ok _ _ _ d (flink m a) HH Hd) as (h & E1 & H1). cbn [put_next] in E1. rewrite E1.
    eexists. split; [reflexivity|]. cbn [with_nexts]. destruct (N.eqb_spec d a) as [->|Hda].
    + split; [exact Hn|]. split; [exact Hlt|]. split; [exact Hh|]. split; [exact Ht|]. cbn [nexts]. revert H1. apply frep_ext. intros c _. unfold pupd. destruct (N.eqb_spec c a) as [->|]; reflexivity.
    + cbn [orb] in E. apply negb_true_iff, mem_not in E. split; [exact Hn|]. split; [exact Hlt|]. split; [exact Hh|]. split; [exact Ht|]. cbn [nexts]. revert H1. apply frep_ext. intros c _.
      now rewrite flink_set by exact E.
Qed.
Lemma fvalue_run_ok pol hd ops : forall s m k m' k' os, FRep k s m -> spec_run (fvalue_step pol) (m, k) ops = Some ((m', k'), os) ->
  exists s', run (fn_step pol hd) s ops = Done s' os [] /\ FRep k' s' m'.
Proof.
  induction ops as [|op ops IH]; intros s m k m' k' os HR; cbn [spec_run run].
  - intros E. injection E as <- <- <-. exists s. split; [reflexivity|exact HR].
  - destruct (fvalue_step pol (m, k) op) as [[[m1 k1] o]|] eqn:E1; [|discriminate].
    destruct (spec_run (fvalue_step pol) (m1, k1) ops) as [[[m2 k2] os']|] eqn:E2; [|discriminate]. intros E. injection E as <- <- <-.
    destruct (fvalue_step_ok pol hd _ _ _ _ _ _ _ HR E1) as (s1 & E3 & HR1). rewrite E3. destruct (IH _ _ _ _ _ _ HR1 E2) as (s2 & E4 & HR2). rewrite E4. exists s2. split; [reflexivity|exact HR2].
Qed.

(** ** Nodes outside the list *)
Definition calm (m : fspec) : Prop := forall n, ~ In n (fseq m) -> floose m n = None.
Lemma calm_link m n : calm m -> NoDup (fseq m) -> followed (fseq m) n = false -> flink m n = None.
Proof.
  intros C Hn H. unfold followed in H. apply mem_not in H. destruct (in_dec N.eq_dec n (fseq m)) as [I|I].
  - destruct (last_snoc (fseq m)) as [E|(r & x & E)]; [rewrite E in I; destruct I|]. rewrite E, removelast_last in H.
    assert (n = x) as -> by (rewrite E in I; apply in_app_or in I as [I|[I|[]]]; congruence). exact (flink_last m r x E Hn).
  - rewrite flink_out by exact I. now apply C.
Qed.
Lemma free_step_sim m k op l' k' o : calm m -> NoDup (fseq m) -> ffree_step (fseq m, k) op = Some ((l', k'), o) ->
  exists m', fvalue_step Checked (m, k) op = Some ((m', k'), o) /\ fseq m' = l' /\ calm m'.
Proof.
  intros C Hn. destruct op as [op| |a|d a]; cbn [ffree_step fvalue_step].
  - destruct op as [n|n| | | | | | |n]; cbn [fplain_step fseq_step]; unfold f_insertable; try discriminate.
    + destruct ((n <? k) && negb (mem n (fseq m))) eqn:E; [|discriminate]. intros F. injection F as <- <- <-. apply andb_prop in E as [E1 E2]. apply negb_true_iff, mem_not in E2.
      rewrite (C n E2), andb_true_r. cbn [is_null andb]. eexists. split; [reflexivity|]. split; [reflexivity|]. intros c H. apply C. intros I. apply H. now right.
    + destruct ((n <? k) && negb (mem n (fseq m))) eqn:E; [|discriminate]. intros F. injection F as <- <- <-. apply andb_prop in E as [E1 E2]. apply negb_true_iff, mem_not in E2.
      rewrite (C n E2), andb_true_r. cbn [is_null andb]. eexists. split; [reflexivity|]. split; [reflexivity|]. intros c H. apply C. intros I. apply H. cbn [fseq]. apply in_or_app. now left.
    + destruct (fseq m) as [|n r] eqn:E; [discriminate|]. intros F. injection F as <- <- <-. eexists. split; [reflexivity|]. split; [reflexivity|]. intros c H. cbn [fseq floose] in *. unfold f_release.
      destruct (N.eqb_spec n c); [reflexivity|]. apply C. rewrite E. intros [I|I]; congruence.
    + intros F. injection F as <- <- <-. eexists. split; [reflexivity|]. split; [reflexivity|]. intros c _. cbn [floose]. unfold f_release. destruct (mem c (fseq m)) eqn:E; [reflexivity|].
      apply C. now apply mem_not.
    + intros F. injection F as <- <- <-. now exists m.
    + destruct (fseq m) as [|n r] eqn:E; [discriminate|]. intros F. injection F as <- <- <-. now exists m.
    + destruct (rev (fseq m)) as [|n r] eqn:E; [discriminate|]. intros F. injection F as <- <- <-. now exists m.
    + intros F. injection F as <- <- <-. now exists m.
  - intros F. injection F as <- <- <-. eexists. split; [reflexivity|]. split; [reflexivity|]. intros n H. cbn [set_floose floose]. destruct (n =? k); [reflexivity|]. now apply C.
  - destruct (a <? k); [|discriminate]. cbn [andb]. destruct (followed (fseq m) a) eqn:E; [discriminate|]. cbn [negb]. intros F. injection F as <- <- <-.
    eexists. split; [reflexivity|]. split; [reflexivity|]. intros n H. cbn [set_floose floose]. destruct (n =? k); [|now apply C]. now apply calm_link.
  - destruct (d <? k); [|discriminate]. destruct (a <? k); [|discriminate]. cbn [andb]. destruct (d =? a); cbn [orb].
    + intros F. injection F as <- <- <-. now exists m.
    + destruct (negb (mem d (fseq m))) eqn:E; [|discriminate]. destruct (followed (fseq m) a) eqn:E2; [discriminate|]. cbn [andb negb]. intros F. injection F as <- <- <-.
      eexists. split; [reflexivity|]. split; [reflexivity|]. intros n H. cbn [set_floose floose]. destruct (n =? d); [|now apply C]. now apply calm_link.
Qed.
Lemma ffree_run hd ops : forall s m k l' k' os, FRep k s m -> calm m -> spec_run ffree_step (fseq m, k) ops = Some ((l', k'), os) ->
  exists s', run (fn_step Checked hd) s ops = Done s' os [].
Proof.
  induction ops as [|op ops IH]; intros s m k l' k' os HR C; cbn [spec_run run].
  - intros E. injection E as <- <- <-. now exists s.
  - destruct (ffree_step (fseq m, k) op) as [[[l1 k1] o]|] eqn:E1; [|discriminate].
    destruct (spec_run ffree_step (l1, k1) ops) as [[[l2 k2] os']|] eqn:E2; [|discriminate]. intros E. injection E as <- <- <-.
    destruct (free_step_sim m k op l1 k1 o C (proj1 HR) E1) as (m1 & E3 & <- & C1). destruct (fvalue_step_ok Checked hd _ _ _ _ _ _ _ HR E3) as (s1 & E4 & HR1).
    rewrite E4. destruct (IH _ _ _ _ _ _ HR1 C1 E2) as (s2 & E5). rewrite E5. now exists s2.
Qed.
Lemma rd_nulls k n : match rd (repeat (None : ptr) k) n with Some p => p | None => None end = None.
Proof. destruct (rd (repeat (None : ptr) k) n) as [p|] eqn:E; [|reflexivity]. unfold rd in E. destruct (n <? _); [|discriminate]. apply nth_error_In, repeat_spec in E. exact E. Qed.
Lemma ffree_nodes hd k ops l k' os : spec_run ffree_step ([], N.of_nat k) ops = Some ((l, k'), os) -> exists s, run (fn_step Checked hd) (f_init (repeat (@None N) k)) ops = Done s os [].
Proof.
  intros H. pose proof (f_init_rep (repeat (@None N) k)) as R. unfold len in R. rewrite repeat_length in R.
  apply (ffree_run hd ops (f_init (repeat (@None N) k)) _ (N.of_nat k) l k' os R); [|exact H]. intros n _. cbn [f_spec_init floose].
  apply rd_nulls.
Qed.

(** ** Copies of nodes of the list *)
Lemma fvalue_keeps pol ops : forall m k m' k' os c, spec_run (fvalue_step pol) (m, k) ops = Some ((m', k'), os) -> pol = Checked -> c < k -> ~ In c (fseq m) -> is_null (floose m c) = false ->
  (forall a, ~ In (FAssignNode c a) ops) -> ~ In c (fseq m') /\ is_null (floose m' c) = false /\ c < k'.
Proof.
  induction ops as [|op ops IH]; intros m k m' k' os c H Hp Hc Hni Hl Ha; cbn [spec_run] in H.
  - injection H as <- <- <-. auto.
  - destruct (fvalue_step pol (m, k) op) as [[[m1 k1] o]|] eqn:E1; [|discriminate].
    destruct (spec_run (fvalue_step pol) (m1, k1) ops) as [[[m2 k2] os']|] eqn:E2; [|discriminate]. injection H as <- <- <-.
    assert (G : c < k1 /\ ~ In c (fseq m1) /\ is_null (floose m1 c) = false).
    { subst pol. destruct op as [op| |a|d a]; cbn [fvalue_step] in E1.
      - destruct (fseq_step Checked k m op) as [[m3 o3]|] eqn:E3; [|discriminate]. injection E1 as <- <- <-. split; [exact Hc|].
        destruct op as [n|n| | | | | | |n]; cbn [fseq_step] in E3.
        + destruct (f_insertable Checked k m n) eqn:Ei; [|discriminate]. injection E3 as <- <-. apply f_insertable_spec in Ei as (_ & _ & Ei). specialize (Ei eq_refl). cbn [fseq floose]. split; [|exact Hl].
          intros [->|I]; [congruence|contradiction].
        + destruct (f_insertable Checked k m n) eqn:Ei; [|discriminate]. injection E3 as <- <-. apply f_insertable_spec in Ei as (_ & _ & Ei). specialize (Ei eq_refl). cbn [fseq floose]. split; [|exact Hl].
          intros I. apply in_app_or in I as [I|[->|[]]]; [contradiction|congruence].
        + destruct (fseq m) as [|n r] eqn:E; [discriminate|]. injection E3 as <- <-. cbn [fseq floose]. split; [intros I; apply Hni; now right|]. unfold f_release.
          destruct (N.eqb_spec n c); [exfalso; apply Hni; now left|exact Hl].
        + injection E3 as <- <-. cbn [fseq floose]. split; [intros []|]. unfold f_release. destruct (mem c (fseq m)) eqn:E; [|exact Hl]. apply mem_not in Hni. congruence.
        + injection E3 as <- <-. auto.
        + destruct (fseq m) eqn:E; [discriminate|]. injection E3 as <- <-. rewrite E. auto.
        + destruct (rev (fseq m)); [discriminate|]. injection E3 as <- <-. auto.
        + injection E3 as <- <-. auto.
        + destruct (n <? k); [|discriminate]. injection E3 as <- <-. auto.
      - injection E1 as <- <- <-. cbn [set_floose fseq floose]. split; [lia|]. split; [exact Hni|]. destruct (N.eqb_spec c k); [lia|exact Hl].
      - destruct (a <? k); [|discriminate]. injection E1 as <- <- <-. cbn [set_floose fseq floose]. split; [lia|]. split; [exact Hni|]. destruct (N.eqb_spec c k); [lia|exact Hl].
      - destruct ((d <? k) && (a <? k) && ((d =? a) || negb (mem d (fseq m)))); [|discriminate]. injection E1 as <- <- <-. split; [exact Hc|]. destruct (d =? a); [now split|].
        cbn [set_floose fseq floose]. split; [exact Hni|]. destruct (N.eqb_spec c d) as [->|]; [|exact Hl]. exfalso. apply (Ha a). now left. }
    destruct G as (G1 & G2 & G3). eapply IH; eauto. intros a I. apply (Ha a). now right.
Qed.
Lemma fcopy_refused h ops1 m1 k1 os1 A n x B ops2 m2 k2 os2 op :
  spec_run (fvalue_step Checked) (f_spec_init h, len h) ops1 = Some ((m1, k1), os1) -> fseq m1 = A ++ n :: x :: B ->
  spec_run (fvalue_step Checked) (m1, k1) (FCopyNode n :: ops2) = Some ((m2, k2), os2) -> (forall a, ~ In (FAssignNode k1 a) ops2) -> op = FPushFront k1 \/ op = FPushBack k1 ->
  ~ In k1 (fseq m2) /\ exists s, run (fn_step Checked DoesNotReturn) (f_init h) (ops1 ++ FCopyNode n :: ops2) = Done s (os1 ++ os2) [] /\
    fn_step Checked DoesNotReturn s (FOn op) = Stopped s BadListNode.
Proof.
  intros H1 El H2 Ha Hop. destruct (fvalue_run_ok Checked DoesNotReturn ops1 _ _ _ _ _ _ (f_init_rep h) H1) as (s1 & E1 & R1).
  destruct (fvalue_run_ok Checked DoesNotReturn _ _ _ _ _ _ _ R1 H2) as (s2 & E2 & R2). pose proof R1 as (Hn1 & Hlt1 & _).
  cbn [spec_run] in H2. destruct (fvalue_step Checked (m1, k1) (FCopyNode n)) as [[[m3 k3] o]|] eqn:E3; [|discriminate].
  destruct (spec_run (fvalue_step Checked) (m3, k3) ops2) as [[[m4 k4] os4]|] eqn:E4; [|discriminate]. injection H2 as <- <- <-.
  cbn [fvalue_step] in E3. destruct (n <? k1); [|discriminate]. injection E3 as <- <- <-.
  assert (Hk : ~ In k1 (fseq m1)) by (intros I; apply Hlt1 in I; lia).
  assert (Hx : flink m1 n = Some x). { unfold flink. rewrite El, after_in; [reflexivity|]. rewrite El in Hn1. apply NoDup_remove in Hn1. rewrite in_app_iff in Hn1. tauto. }
  destruct (fvalue_keeps Checked ops2 _ _ _ _ _ k1 E4 eq_refl) as (G1 & G2 & G3); [lia|exact Hk|cbn [set_floose floose]; now rewrite N.eqb_refl, Hx|exact Ha|].
  split; [exact G1|]. exists s2. split.
  - rewrite (run_app _ _ ops1 _ _ _ _ E1), E2. reflexivity.
  - destruct R2 as (_ & _ & _ & _ & HH). assert (V : f_valid (nexts s2) (Some k1) = Some false). { unfold f_valid. rewrite (get_next_ok _ _ _ k1 HH) by lia. cbn iota beta. now rewrite flink_out, G2 by exact G1. }
    destruct Hop as [->| ->]; cbn [fn_step f_step]; unfold f_check; rewrite V; reflexivity.
Qed.

(** ** Assignment to a node of the list *)
(** [l] is a path along [f], from the last node of which [f] leads to [e]. *)
Definition first_of (l : list N) (e : ptr) : ptr := match l with [] => e | x :: _ => Some x end.
Fixpoint path (f : N -> ptr) (l : list N) (e : ptr) : Prop := match l with [] => True | x :: r => f x = first_of r e /\ path f r e end.
Lemma path_app f l1 l2 e : path f (l1 ++ l2) e <-> path f l1 (first_of l2 e) /\ path f l2 e.
Proof.
  induction l1 as [|x l1 IH]; cbn [app path]; [tauto|]. rewrite IH. assert (E : first_of (l1 ++ l2) e = first_of l1 (first_of l2 e)) by now destruct l1. rewrite E. tauto.
Qed.
Lemma path_pupd f n v l e : ~ In n l -> path f l e -> path (pupd f n v) l e.
Proof.
  induction l as [|x l IH]; intros H P; [exact P|]. destruct P as [P1 P2]. split; [|apply IH; [intros I; apply H; now right|exact P2]].
  unfold pupd. destruct (N.eqb_spec x n) as [->|]; [exfalso; apply H; now left|exact P1].
Qed.
Lemma rep_path k s m : FRep k s m -> path (flink m) (fseq m) None.
Proof.
  intros (Hn & _). unfold flink. generalize (floose m) as g. revert Hn. generalize (fseq m) as l. induction l as [|x l IH]; intros Hn g; [exact Logic.I|].
  inversion Hn as [|? ? Hx Hl]; subst. cbn [path after]. rewrite N.eqb_refl. split; [now destruct l|].
  assert (G : forall r, ~ In x r -> path (fun n => match after l n with Some p => p | None => g n end) r None -> path (fun n => match (if x =? n then Some (hd_error l) else after l n) with Some p => p | None => g n end) r None).
  { induction r as [|y r IHr]; intros Hr P; [exact P|]. destruct P as [P1 P2]. split; [|apply IHr; [intros I; apply Hr; now right|exact P2]].
    destruct (N.eqb_spec x y) as [->|]; [exfalso; apply Hr; now left|exact P1]. }
  apply G; [exact Hx|]. apply IH. exact Hl.
Qed.
Lemma fwalk_path h k f l : frep h k f -> (forall n, In n l -> n < k) -> path f l None -> forall fuel, (length l <= fuel)%nat -> f_walk fuel h (first_of l None) = Some l.
Proof.
  intros HH. induction l as [|x l IH]; intros Hlt P fuel L; [now destruct fuel|]. destruct P as [P1 P2]. destruct fuel as [|fuel]; [cbn in L; lia|]. cbn [first_of f_walk].
  rewrite (get_next_ok _ _ _ x HH) by (apply Hlt; now left). cbn iota beta. rewrite P1, IH; [reflexivity| |exact P2|cbn in L; lia]. intros n I. apply Hlt. now right.
Qed.
Lemma fwalk_endless h k f (S0 : N -> Prop) : frep h k f -> (forall n, S0 n -> n < k /\ exists n', f n = Some n' /\ S0 n') -> forall fuel n, S0 n -> f_walk fuel h (Some n) = None.
Proof.
  intros HH C. induction fuel as [|fuel IH]; intros n Hn; [reflexivity|]. cbn [f_walk]. destruct (C n Hn) as (Hk & n' & E & Hn').
  rewrite (get_next_ok _ _ _ n HH Hk). cbn iota beta. rewrite E, IH by exact Hn'. reflexivity.
Qed.
Lemma fassign_ok pol hd k s m n a : FRep k s m -> n < k -> a < k ->
  exists h, fn_step pol hd s (FAssignNode n a) = Done (with_nexts s h) FUnit [] /\ frep h k (pupd (flink m) n (flink m a)).
Proof.
  intros (Hn & Hlt & Hh & Ht & HH) Hk Ha. cbn [fn_step]. rewrite (get_next_ok _ _ _ a HH Ha).
  destruct (put_next_ok _ _ _ n (flink m a) HH Hk) as (h & E1 & H1). cbn [put_next] in E1. rewrite E1. now exists h.
Qed.
Lemma items_ok pol hd s h k f l : frep h k f -> NoDup l -> (forall n, In n l -> n < k) -> path f l None -> fhead s = first_of l None ->
  fn_step pol hd (with_nexts s h) (FOn FItems) = Done (with_nexts s h) (FList l) [].
Proof.
  intros HH N L P E. cbn [fn_step f_step with_nexts nexts fhead]. rewrite E, (fwalk_path h k f l HH L P); [reflexivity|]. pose proof (NoDup_bound _ _ N L). destruct HH as [HL _]. unfold len in *. lia.
Qed.
(** From a fresh node. *)
Lemma fcut pol hd k s m A n B a : FRep k s m -> fseq m = A ++ n :: B -> a < k -> ~ In a (fseq m) -> floose m a = None ->
  exists h, fn_step pol hd s (FAssignNode n a) = Done (with_nexts s h) FUnit [] /\ frep h k (pupd (flink m) n None) /\
    fn_step pol hd (with_nexts s h) (FOn FItems) = Done (with_nexts s h) (FList (A ++ [n])) [].
Proof.
  intros R El Ha Hni Hl. pose proof R as (Hn & Hlt & Hh & Ht & HH). assert (Hk : n < k) by (apply Hlt; rewrite El; apply in_or_app; right; now left).
  destruct (fassign_ok pol hd k s m n a R Hk Ha) as (h & E & H). rewrite flink_out, Hl in H by exact Hni. exists h. split; [exact E|]. split; [exact H|].
  pose proof (rep_path k s m R) as P. rewrite El in P. apply path_app in P as [PA _]. assert (NA : NoDup (A ++ [n]) /\ ~ In n A).
  { rewrite El in Hn. split; [|apply NoDup_remove in Hn; rewrite in_app_iff in Hn; tauto]. change (A ++ n :: B) with (A ++ [n] ++ B) in Hn. rewrite app_assoc in Hn. clear - Hn. revert Hn. generalize (A ++ [n]) as l. induction l as [|x l IH]; intros H; [constructor|].
    inversion H; subst. constructor; [intros I; match goal with K : ~ In x (l ++ B) |- _ => apply K end; apply in_or_app; now left|now apply IH]. }
  apply (items_ok pol hd s h k _ (A ++ [n]) H (proj1 NA)).
  - intros c I. apply Hlt. rewrite El. apply in_app_or in I as [I|[<-|[]]]; apply in_or_app; [now left|right; now left].
  - apply path_app. split; [apply path_pupd; [exact (proj2 NA)|exact PA]|]. cbn [path first_of]. split; [|exact Logic.I]. unfold pupd. now rewrite N.eqb_refl.
  - rewrite Hh, El. now destruct A.
Qed.
Lemma fsub_nodup (A B : list N) n C : NoDup (A ++ n :: B ++ C) -> NoDup (A ++ n :: C).
Proof.
  intros H. induction A as [|x A IH]; cbn [app] in *.
  - inversion H as [|? ? K1 K2]; subst. constructor; [intros I; apply K1, in_or_app; now right|]. clear - K2. induction B as [|y B IH]; [exact K2|]. inversion K2; subst. now apply IH.
  - inversion H as [|? ? K1 K2]; subst. constructor; [|now apply IH]. intros I. apply K1. apply in_app_or in I as [I|[<-|I]]; apply in_or_app; [now left|right; now left|right; right; apply in_or_app; now right].
Qed.
(** From a later node of the list. *)
Lemma fskip pol hd k s m A n B a C : FRep k s m -> fseq m = A ++ n :: B ++ a :: C ->
  exists h, fn_step pol hd s (FAssignNode n a) = Done (with_nexts s h) FUnit [] /\ fn_step pol hd (with_nexts s h) (FOn FItems) = Done (with_nexts s h) (FList (A ++ n :: C)) [].
Proof.
  intros R El. pose proof R as (Hn & Hlt & Hh & Ht & HH). assert (Hk : n < k) by (apply Hlt; rewrite El; apply in_or_app; right; now left).
  assert (Ha : a < k) by (apply Hlt; rewrite El; apply in_or_app; right; right; apply in_or_app; right; now left).
  destruct (fassign_ok pol hd k s m n a R Hk Ha) as (h & E & H). exists h. split; [exact E|].
  pose proof (rep_path k s m R) as P. rewrite El in P. apply path_app in P as [PA P]. destruct P as [_ P]. apply path_app in P as [_ [Pa PC]].
  assert (N1 : NoDup (A ++ n :: C)). { apply (fsub_nodup A (B ++ [a]) n C). rewrite El in Hn. now rewrite <- app_assoc. }
  assert (N2 : ~ In n A /\ ~ In n C) by (apply NoDup_remove in N1; rewrite in_app_iff in N1; tauto).
  apply (items_ok pol hd s h k _ (A ++ n :: C) H N1).
  - intros c I. apply Hlt. rewrite El. apply in_app_or in I as [I|[<-|I]]; apply in_or_app; [now left|right; now left|right; right; apply in_or_app; right; now right].
  - apply path_app. split; [apply path_pupd; [exact (proj1 N2)|exact PA]|]. split; [|apply path_pupd; [exact (proj2 N2)|exact PC]]. unfold pupd. rewrite N.eqb_refl. exact Pa.
  - rewrite Hh, El. now destruct A.
Qed.
(** From an earlier node. *)
Lemma floop pol hd k s m A a B n C : FRep k s m -> fseq m = A ++ a :: B ++ n :: C ->
  exists h, fn_step pol hd s (FAssignNode n a) = Done (with_nexts s h) FUnit [] /\ fn_step pol hd (with_nexts s h) (FOn FItems) = Undef.
Proof.
  intros R El. pose proof R as (Hn & Hlt & Hh & Ht & HH). assert (Ha : a < k) by (apply Hlt; rewrite El; apply in_or_app; right; now left).
  assert (Hk : n < k) by (apply Hlt; rewrite El; apply in_or_app; right; right; apply in_or_app; right; now left).
  destruct (fassign_ok pol hd k s m n a R Hk Ha) as (h & E & H). exists h. split; [exact E|].
  set (L := A ++ a :: B). assert (EL : fseq m = L ++ n :: C) by (rewrite El; unfold L; now rewrite <- app_assoc).
  pose proof (rep_path k s m R) as P. rewrite EL in P. apply path_app in P as [PL _]. cbn [first_of] in PL.
  assert (NL : ~ In n L) by (rewrite EL in Hn; apply NoDup_remove in Hn; rewrite in_app_iff in Hn; tauto).
  assert (Pa : flink m a = first_of B (Some n)). { unfold L in PL. apply path_app in PL as [_ [PL _]]. exact PL. }
  assert (W : forall fuel x, In x (L ++ [n]) -> f_walk fuel h (Some x) = None).
  { apply (fwalk_endless h k _ (fun x => In x (L ++ [n])) H). intros x I. split. { apply Hlt. rewrite EL. apply in_app_or in I as [I|[<-|[]]]; apply in_or_app; [now left|right; now left]. }
    unfold pupd. destruct (N.eqb_spec x n) as [->|Hx].
    - rewrite Pa. destruct B as [|b B]; cbn [first_of]; [exists n; split; [reflexivity|exact I]|]. exists b. split; [reflexivity|]. unfold L. apply in_or_app. left. apply in_or_app. right. right. now left.
    - apply in_app_or in I as [I|[I|[]]]; [|congruence]. apply in_split in I as (L1 & L2 & EE). rewrite EE in PL. apply path_app in PL as [_ [PL _]]. rewrite PL.
      destruct L2 as [|y L2]; cbn [first_of]; [exists n; split; [reflexivity|]|exists y; split; [reflexivity|]]; apply in_or_app; [right; now left|left; rewrite EE; apply in_or_app; right; right; now left]. }
  cbn [fn_step f_step with_nexts nexts fhead]. rewrite Hh, EL. assert (HD : exists x, hd_error (L ++ n :: C) = Some x /\ In x (L ++ [n])). { destruct L as [|x L']; [exists n; split; [reflexivity|now left]|exists x; split; [reflexivity|now left]]. }
  destruct HD as (x & -> & I). now rewrite W.
Qed.
(** What is pushed after a cut is lost. *)
Lemma flost pol hd k s m A n B b x a : FRep k s m -> fseq m = A ++ n :: B ++ [b] -> a < k -> ~ In a (fseq m) -> floose m a = None -> x < k -> ~ In x (fseq m) -> floose m x = None ->
  exists h s2, fn_step pol hd s (FAssignNode n a) = Done (with_nexts s h) FUnit [] /\
    fn_step pol hd (with_nexts s h) (FOn FBack) = Done (with_nexts s h) (FNode b) [] /\
    fn_step pol hd (with_nexts s h) (FOn (FPushBack x)) = Done s2 FUnit [] /\ fn_step pol hd s2 (FOn FItems) = Done s2 (FList (A ++ [n])) [].
Proof.
  intros R El Ha Hni Hl Hx Hxi Hxl. pose proof R as (Hn & Hlt & Hh & Ht & HH). destruct (fcut pol hd k s m A n (B ++ [b]) a R El Ha Hni Hl) as (h & E & H & It).
  assert (Hb : b < k) by (apply Hlt; rewrite El; apply in_or_app; right; right; apply in_or_app; right; now left).
  assert (Tb : ftail s = Some b). { rewrite Ht, El. change (A ++ n :: B ++ [b]) with (A ++ (n :: B) ++ [b]). rewrite app_assoc. apply last_or_snoc. }
  assert (nb : n <> b) by (intros ->; rewrite El in Hn; apply NoDup_remove in Hn; rewrite !in_app_iff in Hn; apply (proj2 Hn); right; right; now left).
  assert (nx : n <> x) by (intros ->; apply Hxi; rewrite El; apply in_or_app; right; now left).
  destruct (put_next_ok _ _ _ b (Some x) H Hb) as (h1 & E1 & H1). destruct (put_next_ok _ _ _ x None H1 Hx) as (h2 & E2 & H2).
  exists h, {| fhead := fhead s; ftail := Some x; nexts := h2 |}. split; [exact E|]. split; [|split].
  - cbn [fn_step f_step with_nexts nexts ftail]. rewrite Tb. cbn iota beta. now rewrite (get_next_ok _ _ _ b H Hb).
  - cbn [fn_step f_step]. assert (Bd : f_push_back (with_nexts s h) (Some x) = Some {| fhead := fhead s; ftail := Some x; nexts := h2 |}).
    { unfold f_push_back. cbn [with_nexts nexts ftail fhead]. rewrite Tb. cbn [is_null]. rewrite E1, E2. rewrite Hh, El. now destruct A. }
    rewrite Bd. unfold f_check, f_valid. cbn [with_nexts nexts]. rewrite (get_next_ok _ _ _ x H Hx). unfold pupd. destruct (N.eqb_spec x n) as [->|]; [congruence|]. rewrite flink_out, Hxl by exact Hxi.
    now destruct pol.
  - change {| fhead := fhead s; ftail := Some x; nexts := h2 |} with (with_nexts {| fhead := fhead s; ftail := Some x; nexts := h2 |} h2).
    assert (P : path (pupd (flink m) n None) (A ++ [n]) None).
    { pose proof (rep_path k s m R) as P. rewrite El in P. apply path_app in P as [PA _]. apply path_app. assert (NA : ~ In n A) by (rewrite El in Hn; apply NoDup_remove in Hn; rewrite in_app_iff in Hn; tauto).
      split; [apply path_pupd; [exact NA|exact PA]|]. cbn [path first_of]. split; [|exact Logic.I]. unfold pupd. now rewrite N.eqb_refl. }
    assert (Nb : ~ In b (A ++ [n])). { rewrite El in Hn. change (A ++ n :: B ++ [b]) with (A ++ (n :: B) ++ [b]) in Hn. rewrite app_assoc in Hn. apply NoDup_remove in Hn as [_ Hn]. rewrite app_nil_r in Hn. intros I. apply Hn.
      apply in_app_or in I as [I|[I|[]]]; apply in_or_app; [now left|right; now left]. }
    assert (Nx : ~ In x (A ++ [n])). { intros I. apply Hxi. rewrite El. apply in_app_or in I as [I|[<-|[]]]; apply in_or_app; [now left|right; now left]. }
    apply (items_ok pol hd _ h2 k _ (A ++ [n]) H2).
    + rewrite El in Hn. apply (fsub_nodup A (B ++ [b]) n []). now rewrite app_nil_r.
    + intros c I. apply Hlt. rewrite El. apply in_app_or in I as [I|[<-|[]]]; apply in_or_app; [now left|right; now left].
    + apply path_pupd; [exact Nx|]. apply path_pupd; [exact Nb|exact P].
    + cbn [fhead]. rewrite Hh, El. now destruct A.
Qed.
