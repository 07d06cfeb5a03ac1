From Verif Require Import Base BaseLemmas IntrusiveListModel IntrusiveListSpec IntrusiveListProofs.
From Verif Require Import ForwardListModel ForwardListSpec.
Open Scope N_scope.

Definition frep (h : list ptr) (nodes : N) (f : N -> ptr) : Prop :=
  len h = nodes /\ forall a, a < nodes -> rd h a = Some (f a).
Definition pupd (f : N -> ptr) (a : N) (v : ptr) : N -> ptr :=
  fun b => if N.eqb b a then v else f b.

Lemma get_next_ok h nodes f a : frep h nodes f -> a < nodes -> get_next h (Some a) = Some (f a).
Proof. intros (H1 & H2) Ha. cbn. apply H2. exact Ha. Qed.

Lemma put_next_ok h nodes f a v : frep h nodes f -> a < nodes ->
  exists h', put_next h (Some a) v = Some h' /\ frep h' nodes (pupd f a v).
Proof.
  intros (H1 & H2) Ha. cbn.
  destruct (wr_lt_Some h a v) as (h' & E); [lia|]. rewrite E. exists h'. split; [reflexivity|].
  split; [rewrite (wr_len _ _ _ _ E); exact H1|]. intros b Hb. rewrite (rd_wr _ _ _ _ b E).
  unfold pupd. destruct (N.eqb b a); [reflexivity|]. apply H2. exact Hb.
Qed.

Lemma frep_ext h nodes f g : (forall a, a < nodes -> f a = g a) -> frep h nodes f -> frep h nodes g.
Proof. intros E (H1 & H2). split; [exact H1|]. intros a Ha. rewrite <- E by exact Ha. apply H2. exact Ha. Qed.

Lemma after_out l n : ~ In n l -> after l n = None.
Proof.
  induction l as [|x l IH]; intros H; cbn; [reflexivity|].
  destruct (N.eqb_spec x n); [exfalso; apply H; left; assumption|].
  apply IH. intros Hn. apply H. right. exact Hn.
Qed.
Lemma after_in l1 n l2 : ~ In n l1 -> after (l1 ++ n :: l2) n = Some (hd_error l2).
Proof.
  induction l1 as [|x l1 IH]; intros H; cbn [app after].
  - rewrite N.eqb_refl. reflexivity.
  - destruct (N.eqb_spec x n); [exfalso; apply H; left; assumption|].
    apply IH. intros Hn. apply H. right. exact Hn.
Qed.

Lemma after_snoc l n : NoDup l -> ~ In n l -> forall c, c <> n ->
  after (l ++ [n]) c = if peq (last_or None l) c then Some (Some n) else after l c.
Proof.
  intros Hn Hni. induction l as [|x l IH]; intros c Hc; cbn [app after].
  - destruct (N.eqb_spec n c); [congruence|reflexivity].
  - inversion Hn as [|x' l' Hx Hl]; subst x' l'.
    destruct (N.eqb_spec x c) as [->|Hxc].
    + destruct l as [|y l]; [cbn; rewrite N.eqb_refl; reflexivity|].
      rewrite last_or_cons, (last_or_notin (Some c) (y :: l) c Hx) by discriminate. reflexivity.
    + rewrite IH; [|exact Hl|intros H; apply Hni; right; exact H|exact Hc].
      destruct l as [|y l]; [|reflexivity]. cbn. destruct (N.eqb_spec c x); [congruence|reflexivity].
Qed.

Definition FRep (nodes : N) (s : flist) (m : fspec) : Prop :=
  NoDup (fseq m) /\ (forall n, In n (fseq m) -> n < nodes) /\
  fhead s = hd_error (fseq m) /\ ftail s = last_or None (fseq m) /\
  frep (nexts s) nodes (flink m).

Lemma f_insertable_spec pol nodes m n : f_insertable pol nodes m n = true ->
  n < nodes /\ ~ In n (fseq m) /\ (pol = Checked -> is_null (floose m n) = true).
Proof.
  unfold f_insertable. rewrite !andb_true_iff, negb_true_iff, N.ltb_lt, mem_not.
  intros ((H1 & H2) & H3). repeat split; auto. intros ->. exact H3.
Qed.
Lemma flink_out m n : ~ In n (fseq m) -> flink m n = floose m n.
Proof. intros H. unfold flink. rewrite after_out by exact H. reflexivity. Qed.

Lemma f_push_front_ok nodes s m n : FRep nodes s m -> n < nodes -> ~ In n (fseq m) ->
  exists s', f_push_front s (Some n) = Some s' /\
    FRep nodes s' {| fseq := n :: fseq m; floose := floose m |}.
Proof.
  intros (Hn & Hlt & Hh & Ht & HH) Hb Hni. unfold f_push_front.
  destruct (put_next_ok _ _ _ n (fhead s) HH Hb) as (h & E & H). rewrite E.
  eexists. split; [reflexivity|]. split; [|split; [|split; [|split]]]; cbn [fseq fhead ftail nexts].
  - constructor; assumption.
  - intros k [<-|Hk]; [exact Hb|apply Hlt; exact Hk].
  - reflexivity.
  - rewrite Ht. destruct (last_snoc (fseq m)) as [->|(r & x & ->)]; [reflexivity|].
    rewrite last_or_snoc. cbn [is_null].
    change (n :: r ++ [x]) with ((n :: r) ++ [x]). rewrite last_or_snoc. reflexivity.
  - revert H. apply frep_ext. intros c _. unfold pupd, flink. cbn [fseq floose after].
    rewrite (N.eqb_sym n c). destruct (N.eqb c n); [exact Hh|reflexivity].
Qed.

Lemma f_push_back_ok nodes s m n : FRep nodes s m -> n < nodes -> ~ In n (fseq m) ->
  exists s', f_push_back s (Some n) = Some s' /\
    FRep nodes s' {| fseq := fseq m ++ [n]; floose := floose m |}.
Proof.
  intros (Hn & Hlt & Hh & Ht & HH) Hb Hni. unfold f_push_back.
  assert (HA : exists h1, (if is_null (ftail s) then Some (nexts s) else put_next (nexts s) (ftail s) (Some n)) = Some h1 /\
     frep h1 nodes (fun c => if peq (last_or None (fseq m)) c then Some n else flink m c)).
  { rewrite Ht. destruct (last_snoc (fseq m)) as [El|(r & x & El)]; rewrite El.
    - exists (nexts s). split; [reflexivity|exact HH].
    - rewrite last_or_snoc. cbn [is_null peq].
      assert (Hx : x < nodes) by (apply Hlt; rewrite El; apply in_or_app; right; left; reflexivity).
      destruct (put_next_ok _ _ _ x (Some n) HH Hx) as (h & E & H). exists h. split; [exact E|exact H]. }
  destruct HA as (h1 & E1 & H1). rewrite E1.
  destruct (put_next_ok _ _ _ n None H1 Hb) as (h2 & E2 & H2). rewrite E2.
  eexists. split; [reflexivity|]. split; [|split; [|split; [|split]]]; cbn [fseq fhead ftail nexts].
  - apply NoDup_insert; rewrite app_nil_r; assumption.
  - intros k Hk. apply in_app_or in Hk. destruct Hk as [Hk|[<-|[]]]; [apply Hlt; exact Hk|exact Hb].
  - rewrite Hh. destruct (fseq m); reflexivity.
  - rewrite last_or_snoc. reflexivity.
  - revert H2. apply frep_ext. intros c _. unfold pupd. destruct (N.eqb_spec c n) as [->|Hcn].
    + unfold flink. cbn [fseq]. rewrite after_in by exact Hni. reflexivity.
    + unfold flink at 2. cbn [fseq floose]. rewrite after_snoc by assumption.
      destruct (peq (last_or None (fseq m)) c); reflexivity.
Qed.

Lemma f_pop_ok pol nodes s m n r : FRep nodes s m -> fseq m = n :: r ->
  exists s', f_pop_front pol s = Some (s', Some n) /\
    FRep nodes s' {| fseq := r; floose := f_release pol m (N.eqb n) |}.
Proof.
  intros (Hn & Hlt & Hh & Ht & HH) El. unfold f_pop_front. rewrite Hh, El. cbn [hd_error].
  assert (Hb : n < nodes) by (apply Hlt; rewrite El; left; reflexivity).
  rewrite (get_next_ok _ _ _ n HH Hb).
  assert (Ef : flink m n = hd_error r) by (unfold flink; rewrite El; cbn; rewrite N.eqb_refl; reflexivity).
  rewrite El in Hn. inversion Hn as [|n' r' Hnr Hr]; subst n' r'.
  assert (HP : exists h, f_on_pop pol (nexts s) (Some n) = Some h /\
     frep h nodes (fun c => if N.eqb n c then match pol with Checked => None | Unchecked => flink m c end else flink m c)).
  { destruct pol; cbn [f_on_pop].
    - destruct (put_next_ok _ _ _ n None HH Hb) as (h & E & H). exists h. split; [exact E|].
      revert H. apply frep_ext. intros c _. unfold pupd. rewrite N.eqb_sym. reflexivity.
    - exists (nexts s). split; [reflexivity|]. revert HH. apply frep_ext. intros c _. destruct (n =? c); reflexivity. }
  destruct HP as (h & E & H). rewrite E. eexists. split; [reflexivity|]. rewrite Ef.
  split; [|split; [|split; [|split]]]; cbn [fseq fhead ftail nexts].
  - exact Hr.
  - intros k Hk. apply Hlt. rewrite El. right. exact Hk.
  - reflexivity.
  - rewrite Ht, El. destruct r as [|x r]; reflexivity.
  - revert H. apply frep_ext. intros c _. unfold flink at 3. cbn [fseq floose]. unfold f_release.
    destruct (N.eqb_spec n c) as [->|Hc].
    + rewrite after_out by exact Hnr. reflexivity.
    + unfold flink. rewrite El. cbn [after]. destruct (N.eqb_spec n c); [congruence|reflexivity].
Qed.

Lemma f_clear_loop_ok nodes l : forall fuel h f,
  frep h nodes f -> NoDup l -> (forall n, In n l -> n < nodes) -> (length l <= fuel)%nat ->
  (forall n, In n l -> after l n = Some (f n)) ->
  exists h', f_clear_loop fuel h (hd_error l) = Some h' /\
    frep h' nodes (fun n => if mem n l then None else f n).
Proof.
  induction l as [|x l IH]; intros fuel h f H Hn Hlt Hf Hc.
  - exists h. destruct fuel; (split; [reflexivity|]); exact H.
  - destruct fuel as [|fuel]; [cbn in Hf; lia|]. cbn [hd_error f_clear_loop].
    assert (Hx : x < nodes) by (apply Hlt; left; reflexivity).
    rewrite (get_next_ok _ _ _ x H Hx).
    destruct (put_next_ok _ _ _ x None H Hx) as (h1 & E1 & H1). rewrite E1.
    assert (Ex : f x = hd_error l).
    { specialize (Hc x (or_introl eq_refl)). cbn in Hc. rewrite N.eqb_refl in Hc. congruence. }
    rewrite Ex. inversion Hn as [|x' l' Hxl Hl]; subst x' l'.
    destruct (IH fuel h1 _ H1 Hl) as (h3 & E3 & H3).
    + intros k Hk. apply Hlt. right. exact Hk.
    + cbn in Hf. lia.
    + intros k Hk. assert (Hkx : k <> x) by (intros ->; tauto).
      specialize (Hc k (or_intror Hk)). cbn in Hc. unfold pupd.
      destruct (N.eqb_spec x k); [congruence|]. destruct (N.eqb_spec k x); [congruence|]. exact Hc.
    + exists h3. split; [exact E3|]. revert H3. apply frep_ext. intros a _. unfold mem. cbn [existsb].
      unfold pupd. destruct (a =? x), (existsb (N.eqb a) l); reflexivity.
Qed.

Lemma f_clear_ok pol nodes s m : FRep nodes s m ->
  exists s', f_clear pol s = Some s' /\
    FRep nodes s' {| fseq := []; floose := f_release pol m (fun n => mem n (fseq m)) |}.
Proof.
  intros (Hn & Hlt & Hh & Ht & HH). unfold f_clear.
  assert (HC : exists h', f_on_clear pol (nexts s) (fhead s) = Some h' /\
     frep h' nodes (fun n => if mem n (fseq m) then match pol with Checked => None | Unchecked => flink m n end else floose m n)).
  { destruct pol; cbn [f_on_clear].
    - rewrite Hh. destruct (f_clear_loop_ok nodes (fseq m) (length (nexts s)) (nexts s) (flink m) HH Hn Hlt) as (h' & E & H').
      + pose proof (NoDup_bound _ _ Hn Hlt). destruct HH as (HL & _). unfold len in *. lia.
      + intros n Hin. unfold flink. apply in_split in Hin as (l1 & l2 & El).
        rewrite El, after_in; [reflexivity|]. rewrite El in Hn. apply NoDup_remove in Hn.
        rewrite in_app_iff in Hn. tauto.
      + exists h'. split; [exact E|]. revert H'. apply frep_ext. intros a _.
        destruct (mem a (fseq m)) eqn:Ea; [reflexivity|]. apply flink_out. apply mem_not. exact Ea.
    - exists (nexts s). split; [reflexivity|]. revert HH. apply frep_ext. intros a _.
      destruct (mem a (fseq m)) eqn:Ea; [reflexivity|]. apply flink_out. apply mem_not. exact Ea. }
  destruct HC as (h' & E & H'). rewrite E. eexists. split; [reflexivity|].
  split; [constructor|]. split; [intros k []|]. split; [reflexivity|]. split; [reflexivity|].
  cbn [nexts]. exact H'.
Qed.

Lemma f_walk_ok h nodes m : frep h nodes (flink m) -> NoDup (fseq m) ->
  (forall n, In n (fseq m) -> n < nodes) ->
  forall l2 l1 fuel, fseq m = l1 ++ l2 -> (length l2 <= fuel)%nat ->
  f_walk fuel h (hd_error l2) = Some l2.
Proof.
  intros HH Hn Hlt. induction l2 as [|x l2 IH]; intros l1 fuel El Hf.
  - destruct fuel; reflexivity.
  - destruct fuel as [|fuel]; [cbn in Hf; lia|]. cbn [hd_error f_walk].
    rewrite (get_next_ok _ _ _ x HH) by (apply Hlt; rewrite El; apply in_or_app; right; left; reflexivity).
    unfold flink. rewrite El, after_in.
    + rewrite (IH (l1 ++ [x]) fuel); [reflexivity| |cbn in Hf; lia]. rewrite <- app_assoc. exact El.
    + rewrite El in Hn. apply NoDup_remove in Hn. rewrite in_app_iff in Hn. tauto.
Qed.

Lemma f_check_ok pol hd nodes s m n body s' :
  FRep nodes s m -> f_insertable pol nodes m n = true -> body = Some s' ->
  f_check pol hd s n body = Done s' FUnit [].
Proof.
  intros (Hn & Hlt & Hh & Ht & HH) Hi ->. apply f_insertable_spec in Hi as (Hb & Hni & Hc).
  unfold f_check. destruct pol; [|reflexivity]. unfold f_valid.
  rewrite (get_next_ok _ _ _ n HH Hb), flink_out by exact Hni. rewrite (Hc eq_refl). reflexivity.
Qed.

Lemma f_step_ok pol hd nodes s m op m' o :
  FRep nodes s m -> fseq_step pol nodes m op = Some (m', o) ->
  exists s', f_step pol hd s op = Done s' o [] /\ FRep nodes s' m'.
Proof.
  intros HR Hs. pose proof HR as (Hn & Hlt & Hh & Ht & HH).
  destruct op as [n|n| | | | | | |n]; cbn [fseq_step] in Hs; unfold f_step.
  - destruct (f_insertable pol nodes m n) eqn:Ei; [|discriminate]. injection Hs as <- <-.
    pose proof (f_insertable_spec _ _ _ _ Ei) as (Hb & Hni & _).
    destruct (f_push_front_ok nodes s m n HR Hb Hni) as (s' & E & HR').
    exists s'. split; [|exact HR']. exact (f_check_ok pol hd nodes s m n _ s' HR Ei E).
  - destruct (f_insertable pol nodes m n) eqn:Ei; [|discriminate]. injection Hs as <- <-.
    pose proof (f_insertable_spec _ _ _ _ Ei) as (Hb & Hni & _).
    destruct (f_push_back_ok nodes s m n HR Hb Hni) as (s' & E & HR').
    exists s'. split; [|exact HR']. exact (f_check_ok pol hd nodes s m n _ s' HR Ei E).
  - destruct (fseq m) as [|n r] eqn:El; [discriminate|]. injection Hs as <- <-.
    destruct (f_pop_ok pol nodes s m n r HR El) as (s' & E & HR'). rewrite E.
    exists s'. split; [reflexivity|exact HR'].
  - injection Hs as <- <-. destruct (f_clear_ok pol nodes s m HR) as (s' & E & HR'). rewrite E.
    exists s'. split; [reflexivity|exact HR'].
  - injection Hs as <- <-. exists s. split; [|exact HR]. rewrite Hh. destruct (fseq m); reflexivity.
  - destruct (fseq m) as [|n r] eqn:El; [discriminate|]. injection Hs as <- <-.
    exists s. split; [|exact HR]. rewrite Hh. cbn [hd_error].
    rewrite (get_next_ok _ _ _ n HH); [reflexivity|]. apply Hlt. left. reflexivity.
  - destruct (last_snoc (fseq m)) as [El|(r & n & El)]; rewrite El in Hs; [discriminate|].
    rewrite rev_unit in Hs. injection Hs as <- <-. exists s. split; [|exact HR].
    rewrite Ht, El, last_or_snoc. rewrite (get_next_ok _ _ _ n HH); [reflexivity|].
    apply Hlt. rewrite El. apply in_or_app. right. left. reflexivity.
  - injection Hs as <- <-. exists s. split; [|exact HR]. rewrite Hh.
    rewrite (f_walk_ok (nexts s) nodes m HH Hn Hlt (fseq m) []); [reflexivity|reflexivity|].
    pose proof (NoDup_bound _ _ Hn Hlt). destruct HH as (HL & _). unfold len in *. lia.
  - destruct (N.ltb_spec n nodes); [|discriminate]. injection Hs as <- <-.
    exists s. split; [|exact HR]. rewrite (get_next_ok _ _ _ n HH) by assumption. reflexivity.
Qed.

Lemma f_run_ok pol hd nodes ops : forall s m m' os,
  FRep nodes s m -> spec_run (fseq_step pol nodes) m ops = Some (m', os) ->
  exists s', run (f_step pol hd) s ops = Done s' os [] /\ FRep nodes s' m'.
Proof.
  induction ops as [|op ops IH]; intros s m m' os HR; cbn [spec_run run].
  - intros E; injection E as <- <-. exists s. split; [reflexivity|exact HR].
  - destruct (fseq_step pol nodes m op) as [[m1 o]|] eqn:E1; [|discriminate].
    destruct (spec_run (fseq_step pol nodes) m1 ops) as [[m2 os']|] eqn:E2; [|discriminate].
    intros E; injection E as <- <-.
    destruct (f_step_ok pol hd nodes _ _ _ _ _ HR E1) as (s1 & E3 & HR1). rewrite E3.
    destruct (IH _ _ _ _ HR1 E2) as (s2 & E4 & HR2). rewrite E4. exists s2. split; [reflexivity|exact HR2].
Qed.

Lemma f_init_rep h : FRep (len h) (f_init h) (f_spec_init h).
Proof.
  split; [constructor|]. split; [intros n []|]. split; [reflexivity|]. split; [reflexivity|].
  split; [reflexivity|]. intros a Ha. cbn. destruct (rd_lt_Some h a Ha) as (nd & E). rewrite E. reflexivity.
Qed.

Lemma forward_list_seq pol hd h ops m os :
  spec_run (fseq_step pol (len h)) (f_spec_init h) ops = Some (m, os) ->
  exists s, run (f_step pol hd) (f_init h) ops = Done s os [].
Proof.
  intros H. destruct (f_run_ok pol hd (len h) ops _ _ _ _ (f_init_rep h) H) as (s & E & _). eauto.
Qed.

(** In a list, only the last node has a null next. *)
Lemma flink_last m l1 n : fseq m = l1 ++ [n] -> NoDup (fseq m) -> flink m n = None.
Proof.
  intros El Hn. unfold flink. rewrite El, after_in; [reflexivity|].
  rewrite El in Hn. apply NoDup_remove in Hn. rewrite app_nil_r in Hn. tauto.
Qed.

Lemma forward_checked_panics h ops m os n op :
  spec_run (fseq_step Checked (len h)) (f_spec_init h) ops = Some (m, os) ->
  In n (fseq m) -> op = FPushFront n \/ op = FPushBack n ->
  exists s, run (f_step Checked DoesNotReturn) (f_init h) ops = Done s os [] /\
   (f_step Checked DoesNotReturn s op = Stopped s BadListNode <-> exists l1 x l2, fseq m = l1 ++ n :: x :: l2).
Proof.
  intros H Hin Hi.
  destruct (f_run_ok Checked DoesNotReturn (len h) ops _ _ _ _ (f_init_rep h) H) as (s & E & HR).
  exists s. split; [exact E|]. destruct HR as (Hn & Hlt & Hh & Ht & HH).
  assert (Hv : f_valid (nexts s) (Some n) = Some (is_null (flink m n))).
  { unfold f_valid. rewrite (get_next_ok _ _ _ n HH); [reflexivity|]. apply Hlt. exact Hin. }
  pose proof Hin as Hin'. apply in_split in Hin' as (l1 & l2 & El).
  assert (Hiff : (exists l1 x l2, fseq m = l1 ++ n :: x :: l2) <-> is_null (flink m n) = false).
  { assert (Hni : forall a b, fseq m = a ++ n :: b -> ~ In n a).
    { intros a b Eab. rewrite Eab in Hn. apply NoDup_remove in Hn. rewrite in_app_iff in Hn. tauto. }
    split.
    - intros (a & x & b & Eab). unfold flink. rewrite Eab, after_in by (eapply Hni; eauto). reflexivity.
    - unfold flink. rewrite El, after_in by (eapply Hni; eauto). destruct l2 as [|x l2]; [discriminate|].
      intros _. eauto. }
  rewrite Hiff.
  destruct Hi as [->| ->]; cbn [f_step]; unfold f_check; rewrite Hv;
  (destruct (is_null (flink m n)); (split; [|congruence])); intros Hx; try reflexivity; exfalso; revert Hx;
  match goal with |- context [match ?b with _ => _ end] => destruct b; discriminate end.
Qed.

(** Re-pushing the last node to the front is not detected and makes a cycle. *)
Lemma forward_tail_undetected h ops m os l n hd :
  spec_run (fseq_step Checked (len h)) (f_spec_init h) ops = Some (m, os) ->
  fseq m = l ++ [n] ->
  exists s s1, run (f_step Checked hd) (f_init h) ops = Done s os [] /\
    f_step Checked hd s (FPushFront n) = Done s1 FUnit [] /\
    f_step Checked hd s1 FItems = Undef.
Proof.
  intros H El.
  destruct (f_run_ok Checked hd (len h) ops _ _ _ _ (f_init_rep h) H) as (s & E & HR).
  destruct HR as (Hn & Hlt & Hh & Ht & HH).
  assert (Hb : n < len h) by (apply Hlt; rewrite El; apply in_or_app; right; left; reflexivity).
  exists s. cbn [f_step]. unfold f_check, f_valid, f_push_front.
  rewrite (get_next_ok _ _ _ n HH Hb). rewrite (flink_last m l n El Hn). cbn [is_null].
  destruct (put_next_ok _ _ _ n (fhead s) HH Hb) as (h1 & E1 & H1). rewrite E1.
  eexists. split; [exact E|]. split; [reflexivity|]. cbn [f_step nexts fhead].
  (* from any node of the list the walk never ends *)
  assert (Hcyc : forall fuel a, In a (fseq m) -> f_walk fuel h1 (Some a) = None).
  { induction fuel as [|fuel IH]; [reflexivity|]. intros a Ha. cbn [f_walk].
    rewrite (get_next_ok _ _ _ a H1) by (apply Hlt; exact Ha). unfold pupd.
    destruct (N.eqb_spec a n) as [->|Han].
    - rewrite Hh. destruct (fseq m) as [|y r] eqn:Ef; [destruct Ha|]. cbn [hd_error].
      rewrite IH; [reflexivity|left; reflexivity].
    - apply in_split in Ha as (a1 & a2 & Ea). unfold flink. rewrite Ea, after_in.
      2:{ rewrite Ea in Hn. apply NoDup_remove in Hn. rewrite in_app_iff in Hn. tauto. }
      destruct a2 as [|y a2]; [exfalso; apply Han|].
      + rewrite El in Ea. apply app_inj_tail in Ea as (_ & Ea). symmetry. exact Ea.
      + cbn [hd_error]. rewrite IH; [reflexivity|]. rewrite Ea. apply in_or_app. right. right. left. reflexivity. }
  rewrite Hcyc; [reflexivity|]. rewrite El. apply in_or_app. right. left. reflexivity.
Qed.
