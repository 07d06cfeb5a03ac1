From Verif Require Import Base BaseLemmas IntrusiveListModel IntrusiveListSpec IntrusiveListProofs NodeValueModel NodeValueSpec.
Open Scope N_scope.

Lemma links_set_loose m n nd k : ~ In n (seq m) -> links (set_loose m n nd) k = if k =? n then nd else links m k.
Proof.
  intros H. unfold links. cbn [set_loose seq loose]. destruct (N.eqb_spec k n) as [->|Hk]; [|reflexivity].
  rewrite nbrs_out by exact H. reflexivity.
Qed.

Lemma rd_snoc {A} (h : list A) x a : rd (h ++ [x]) a = if a =? len h then Some x else rd h a.
Proof.
  unfold rd. rewrite len_app, len_cons, len_nil. destruct (N.eqb_spec a (len h)) as [->|Ha].
  - destruct (N.ltb_spec (len h) (len h + (0 + 1))); [|lia]. unfold len. rewrite Nat2N.id, nth_error_app2, Nat.sub_diag by lia. reflexivity.
  - destruct (N.ltb_spec a (len h + (0 + 1))), (N.ltb_spec a (len h)); try reflexivity; try lia.
    apply nth_error_app1. unfold len in *. lia.
Qed.

Lemma grow_rep k s m nd : LRep k s m -> LRep (k + 1) (with_heap s (heap s ++ [nd])) (set_loose m k nd).
Proof.
  intros (Hn & Hlt & Hh & Ht & HL & HH). assert (Hk : ~ In k (seq m)) by (intros H; apply Hlt in H; lia).
  split; [exact Hn|]. split; [intros n H; apply Hlt in H; lia|]. split; [exact Hh|]. split; [exact Ht|]. cbn [with_heap heap].
  split; [rewrite len_app, len_cons, len_nil; lia|]. intros a Ha. rewrite rd_snoc, links_set_loose, HL by exact Hk.
  destruct (N.eqb_spec a k); [reflexivity|]. apply HH. lia.
Qed.

Lemma value_step_ok pol hd s m k op m' k' o : LRep k s m -> value_step pol (m, k) op = Some ((m', k'), o) ->
  exists s', n_step pol hd s op = Done s' o [] /\ LRep k' s' m'.
Proof.
  intros HR. pose proof HR as (Hn & Hlt & Hh & Ht & HH). destruct op as [op| |a|d a]; cbn [value_step n_step].
  - destruct (seq_step pol k m op) as [[m1 o1]|] eqn:E; [|discriminate]. intros F. injection F as <- <- <-. exact (l_step_ok pol hd _ _ _ _ _ _ HR E).
  - intros F. injection F as <- <- <-. eexists. split; [|apply grow_rep; exact HR]. destruct HH as [-> _]. reflexivity.
  - destruct (N.ltb_spec a k) as [Ha|]; [|discriminate]. intros F. injection F as <- <- <-. rewrite (get_ok _ _ _ a HH Ha).
    eexists. split; [|apply grow_rep; exact HR]. destruct HH as [-> _]. reflexivity.
  - destruct (N.ltb_spec d k) as [Hd|]; [|discriminate]. destruct (N.ltb_spec a k) as [Ha|]; [|discriminate]. cbn [andb].
    destruct ((d =? a) || negb (mem d (seq m))) eqn:E; [|discriminate]. intros F. injection F as <- <- <-. rewrite (get_ok _ _ _ a HH Ha).
    destruct HH as [HL HH]. destruct (wr_lt_Some (heap s) d (links m a)) as [h W]; [lia|]. rewrite W. eexists. split; [reflexivity|].
    destruct (N.eqb_spec d a) as [->|Hda].
    + split; [exact Hn|]. split; [exact Hlt|]. split; [exact Hh|]. split; [exact Ht|]. cbn [with_heap heap].
      split; [rewrite (wr_len _ _ _ _ W); exact HL|]. intros b Hb. rewrite (rd_wr _ _ _ _ b W). destruct (N.eqb_spec b a) as [->|]; [reflexivity|]. exact (HH b Hb).
    + cbn [orb] in E. apply negb_true_iff, mem_not in E.
      split; [exact Hn|]. split; [exact Hlt|]. split; [exact Hh|]. split; [exact Ht|]. cbn [with_heap heap].
      split; [rewrite (wr_len _ _ _ _ W); exact HL|]. intros b Hb. rewrite (rd_wr _ _ _ _ b W), links_set_loose by exact E.
      destruct (b =? d); [reflexivity|]. exact (HH b Hb).
Qed.

Lemma value_run_ok pol hd ops : forall s m k m' k' os, LRep k s m -> spec_run (value_step pol) (m, k) ops = Some ((m', k'), os) ->
  exists s', run (n_step pol hd) s ops = Done s' os [] /\ LRep k' s' m'.
Proof.
  induction ops as [|op ops IH]; intros s m k m' k' os HR; cbn [spec_run run].
  - intros E; injection E as <- <- <-. exists s. split; [reflexivity|exact HR].
  - destruct (value_step pol (m, k) op) as [[[m1 k1] o]|] eqn:E1; [|discriminate].
    destruct (spec_run (value_step pol) (m1, k1) ops) as [[[m2 k2] os']|] eqn:E2; [|discriminate].
    intros E; injection E as <- <- <-.
    destruct (value_step_ok pol hd _ _ _ _ _ _ _ HR E1) as (s1 & E3 & HR1). rewrite E3.
    destruct (IH _ _ _ _ _ _ HR1 E2) as (s2 & E4 & HR2). rewrite E4. exists s2. split; [reflexivity|exact HR2].
Qed.

(** ** Nodes outside the list *)
Lemma set_null_plain l m n : PRep l m -> ~ In n l -> PRep l (set_loose m n null_node).
Proof.
  intros (E & Hn & Hl) H. split; [exact E|]. split; [exact Hn|]. intros a Ha. cbn [set_loose loose]. destruct (a =? n); [reflexivity|]. exact (Hl a Ha).
Qed.
Lemma plain_links l m a : PRep l m -> ~ In a l -> links m a = null_node.
Proof. intros (E & Hn & Hl) H. rewrite links_out by (rewrite E; exact H). exact (Hl a H). Qed.

Lemma free_sim l m k op l' k' o : PRep l m -> (forall n, In n l -> n < k) -> free_step (l, k) op = Some ((l', k'), o) ->
  exists m', value_step Checked (m, k) op = Some ((m', k'), o) /\ PRep l' m'.
Proof.
  intros HR Hlt. pose proof HR as (E & _). destruct op as [op| |a|d a]; cbn [free_step value_step].
  - destruct (plain_step k l op) as [[l1 o1]|] eqn:Es; [|discriminate]. intros F. injection F as <- <- <-.
    destruct (plain_sim _ _ _ _ _ _ HR Es) as (m1 & E1 & H1). rewrite E1. eauto.
  - intros F. injection F as <- <- <-. eexists. split; [reflexivity|]. apply set_null_plain; [exact HR|]. intros H. apply Hlt in H. lia.
  - destruct (a <? k); [|discriminate]. destruct (mem a l) eqn:Ea; [discriminate|]. intros F. injection F as <- <- <-. eexists. split; [reflexivity|].
    rewrite (plain_links _ _ _ HR) by (apply mem_not; exact Ea). apply set_null_plain; [exact HR|]. intros H. apply Hlt in H. lia.
  - destruct (d <? k); [|discriminate]. destruct (a <? k); [|discriminate]. cbn [andb]. rewrite E. destruct (N.eqb_spec d a) as [->|Hda]; cbn [orb].
    + intros F. injection F as <- <- <-. exists m. split; [reflexivity|exact HR].
    + destruct (mem d l) eqn:Ed; [discriminate|]. destruct (mem a l) eqn:Ea; [discriminate|]. cbn [negb andb]. intros F. injection F as <- <- <-.
      eexists. split; [reflexivity|]. rewrite (plain_links _ _ _ HR) by (apply mem_not; exact Ea). apply set_null_plain; [exact HR|]. apply mem_not. exact Ed.
Qed.

Lemma free_run_sim hd ops : forall s l m k l' k' os, LRep k s m -> PRep l m -> spec_run free_step (l, k) ops = Some ((l', k'), os) ->
  exists s' m', run (n_step Checked hd) s ops = Done s' os [] /\ spec_run (value_step Checked) (m, k) ops = Some ((m', k'), os) /\ LRep k' s' m' /\ PRep l' m'.
Proof.
  induction ops as [|op ops IH]; intros s l m k l' k' os HR HP; cbn [spec_run run].
  - intros E; injection E as <- <- <-. eauto 10.
  - destruct (free_step (l, k) op) as [[[l1 k1] o]|] eqn:E1; [|discriminate].
    destruct (spec_run free_step (l1, k1) ops) as [[[l2 k2] os']|] eqn:E2; [|discriminate].
    intros E; injection E as <- <- <-.
    assert (Hlt : forall n, In n l -> n < k). { destruct HR as (_ & Hlt & _). destruct HP as (<- & _). exact Hlt. }
    destruct (free_sim _ _ _ _ _ _ _ HP Hlt E1) as (m1 & E3 & HP1). rewrite E3.
    destruct (value_step_ok Checked hd _ _ _ _ _ _ _ HR E3) as (s1 & E4 & HR1). rewrite E4.
    destruct (IH _ _ _ _ _ _ _ HR1 HP1 E2) as (s2 & m2 & E5 & E6 & HR2 & HP2). rewrite E5, E6. exists s2, m2. auto.
Qed.

Lemma free_nodes hd k ops l k' os : spec_run free_step ([], N.of_nat k) ops = Some ((l, k'), os) ->
  exists s, run (n_step Checked hd) (l_init (repeat null_node k)) ops = Done s os [].
Proof.
  intros H. pose proof (l_init_rep (repeat null_node k)) as HR. replace (len (repeat null_node k)) with (N.of_nat k) in HR by (unfold len; rewrite repeat_length; reflexivity).
  destruct (free_run_sim hd _ _ _ _ _ _ _ _ HR (plain_init k) H) as (s & m & E & _). eauto.
Qed.

(** ** A copy of a linked node *)
Lemma insertable_linked k m n : unlinked (loose m n) = false -> insertable Checked k m n = false.
Proof. intros H. unfold insertable. rewrite H. apply andb_false_r. Qed.

Lemma in_insert_before p n l x : In x (insert_before p n l) -> x = n \/ In x l.
Proof.
  induction l as [|y l IH]; cbn; [tauto|]. destruct (y =? p); cbn; [intros [H|[H|H]]; auto|]. intros [H|H]; [tauto|]. apply IH in H. tauto.
Qed.
Lemma in_without n l x : In x (without n l) -> In x l.
Proof. induction l as [|y l IH]; cbn; [tauto|]. destruct (y =? n); cbn; tauto. Qed.

Lemma step_keeps_linked m k op m' k' o c : value_step Checked (m, k) op = Some ((m', k'), o) -> (forall a, op <> AssignNode c a) ->
  c < k -> ~ In c (seq m) -> unlinked (loose m c) = false -> c < k' /\ ~ In c (seq m') /\ unlinked (loose m' c) = false.
Proof.
  intros H Hop Hc Hin Hu.
  assert (Hrel : forall f, f c = false -> unlinked (release Checked m f c) = false) by (intros f Hf; unfold release; rewrite Hf; exact Hu).
  destruct op as [op| |a|d a]; cbn [value_step] in H.
  - destruct (seq_step Checked k m op) as [[m1 o1]|] eqn:E; [|discriminate]. injection H as <- <- <-. split; [exact Hc|].
    assert (Hne : forall n, insertable Checked k m n = true -> c <> n) by (intros n Hn <-; rewrite insertable_linked in Hn by exact Hu; discriminate).
    destruct op as [n|n|[p|] n| | |n| | | | | | |n]; cbn [seq_step] in E.
    + destruct (insertable Checked k m n) eqn:Ei; [|discriminate]. injection E as <- <-. split; [|exact Hu].
      intros [H|H]; [exact (Hne n Ei (eq_sym H))|exact (Hin H)].
    + destruct (insertable Checked k m n) eqn:Ei; [|discriminate]. injection E as <- <-. split; [|exact Hu].
      cbn [seq]. rewrite in_app_iff. intros [H|[H|[]]]; [exact (Hin H)|exact (Hne n Ei (eq_sym H))].
    + destruct (insertable Checked k m n) eqn:Ei; [|discriminate]. destruct (mem p (seq m)); [|discriminate]. injection E as <- <-. split; [|exact Hu].
      cbn [seq]. intros H. apply in_insert_before in H as [H|H]; [exact (Hne n Ei H)|exact (Hin H)].
    + destruct (insertable Checked k m n) eqn:Ei; [|discriminate]. destruct (match seq m with [] => true | _ => _ end); [|discriminate]. injection E as <- <-. split; [|exact Hu].
      cbn [seq]. rewrite in_app_iff. intros [H|[H|[]]]; [exact (Hin H)|exact (Hne n Ei (eq_sym H))].
    + destruct (seq m) as [|n r] eqn:El; [discriminate|]. injection E as <- <-. cbn [seq loose]. split; [intros H; apply Hin; right; exact H|].
      apply Hrel. apply N.eqb_neq. intros ->. apply Hin. left. reflexivity.
    + destruct (rev (seq m)) as [|n r] eqn:El; [discriminate|]. injection E as <- <-. cbn [seq loose].
      assert (Er : seq m = rev r ++ [n]) by (rewrite <- (rev_involutive (seq m)), El; reflexivity). rewrite Er in Hin. rewrite in_app_iff in Hin.
      split; [tauto|]. apply Hrel. apply N.eqb_neq. intros ->. apply Hin. right. left. reflexivity.
    + destruct (mem n (seq m)) eqn:Em; [|discriminate]. injection E as <- <-. cbn [seq loose]. split; [intros H; apply in_without in H; exact (Hin H)|].
      apply Hrel. apply N.eqb_neq. intros ->. apply Hin, mem_In, Em.
    + injection E as <- <-. split; [intros []|]. cbn [loose]. apply Hrel. apply mem_not. exact Hin.
    + injection E as <- <-. auto.
    + destruct (seq m) eqn:El; [discriminate|]. injection E as <- <-. rewrite El. auto.
    + destruct (rev (seq m)); [discriminate|]. injection E as <- <-. auto.
    + injection E as <- <-. auto.
    + injection E as <- <-. auto.
    + destruct (n <? k); [|discriminate]. injection E as <- <-. auto.
  - injection H as <- <- <-. split; [lia|]. split; [exact Hin|]. cbn [set_loose loose]. destruct (N.eqb_spec c k); [lia|exact Hu].
  - destruct (a <? k); [|discriminate]. injection H as <- <- <-. split; [lia|]. split; [exact Hin|]. cbn [set_loose loose]. destruct (N.eqb_spec c k); [lia|exact Hu].
  - destruct (_ && _); [|discriminate]. injection H as <- <- <-. split; [exact Hc|]. destruct (d =? a); [auto|]. split; [exact Hin|]. cbn [set_loose loose].
    destruct (N.eqb_spec c d) as [->|]; [exfalso; exact (Hop a eq_refl)|exact Hu].
Qed.

Lemma run_keeps_linked ops : forall m k m' k' os c, spec_run (value_step Checked) (m, k) ops = Some ((m', k'), os) -> (forall a, ~ In (AssignNode c a) ops) ->
  c < k -> ~ In c (seq m) -> unlinked (loose m c) = false -> c < k' /\ ~ In c (seq m') /\ unlinked (loose m' c) = false.
Proof.
  induction ops as [|op ops IH]; intros m k m' k' os c; cbn [spec_run].
  - intros E; injection E as <- <- <-. auto.
  - destruct (value_step Checked (m, k) op) as [[[m1 k1] o]|] eqn:E1; [|discriminate].
    destruct (spec_run (value_step Checked) (m1, k1) ops) as [[[m2 k2] os']|] eqn:E2; [|discriminate].
    intros E; injection E as <- <- <-. intros Hop Hc Hin Hu.
    destruct (step_keeps_linked _ _ _ _ _ _ c E1) as (A & B & C); auto. { intros a ->. apply (Hop a). left. reflexivity. }
    apply (IH _ _ _ _ _ _ E2); auto. intros a Ha. apply (Hop a). right. exact Ha.
Qed.

Lemma refused k s m c op : LRep k s m -> c < k -> ~ In c (seq m) -> unlinked (loose m c) = false -> is_insertion op c ->
  l_step Checked DoesNotReturn s op = Stopped s BadListNode.
Proof.
  intros (Hn & Hlt & Hh & Ht & HH) Hc Hin Hu Hi.
  assert (Hv : valid_for_push (heap s) (Some c) = Some false).
  { unfold valid_for_push. rewrite (get_ok _ _ _ c HH Hc), links_out by exact Hin. unfold unlinked in Hu. rewrite Hu. reflexivity. }
  destruct Hi as [->|[->|(it & ->)]]; cbn [l_step]; unfold with_check; rewrite Hv; reflexivity.
Qed.

Lemma copy_refused h ops1 m1 k1 os1 n ops2 m2 k2 os2 op :
  spec_run (value_step Checked) (l_spec_init h, len h) ops1 = Some ((m1, k1), os1) -> In n (seq m1) -> 2 <= len (seq m1) ->
  spec_run (value_step Checked) (m1, k1) (CopyNode n :: ops2) = Some ((m2, k2), os2) -> (forall a, ~ In (AssignNode k1 a) ops2) -> is_insertion op k1 ->
  ~ In k1 (seq m2) /\ exists s, run (n_step Checked DoesNotReturn) (l_init h) (ops1 ++ CopyNode n :: ops2) = Done s (os1 ++ os2) [] /\
    n_step Checked DoesNotReturn s (On op) = Stopped s BadListNode.
Proof.
  intros H1 Hin H2l H2 Ha Hi. destruct (value_run_ok Checked DoesNotReturn _ _ _ _ _ _ _ (l_init_rep h) H1) as (s1 & E1 & R1).
  destruct (value_run_ok Checked DoesNotReturn _ _ _ _ _ _ _ R1 H2) as (s2 & E2 & R2).
  pose proof R1 as (Hn & Hlt & _). cbn [spec_run value_step] in H2. destruct (n <? k1); [|discriminate].
  destruct (spec_run _ (set_loose m1 k1 (links m1 n), k1 + 1) ops2) as [[[m k] os]|] eqn:E; [|discriminate]. injection H2 as <- <- <-.
  destruct (run_keeps_linked _ _ _ _ _ _ k1 E Ha) as (A & B & C).
  - lia.
  - cbn [set_loose seq]. intros H. apply Hlt in H. lia.
  - cbn [set_loose loose]. rewrite N.eqb_refl. unfold links. destruct (nbrs_two _ _ Hin Hn H2l) as (nd & En & Eu). rewrite En. exact Eu.
  - split; [exact B|]. exists s2. split; [|exact (refused _ _ _ _ _ R2 A B C Hi)].
    assert (Rapp : forall (St : ilist) o1 o2 St1 p1 St2 p2 q1 q2, run (n_step Checked DoesNotReturn) St o1 = Done St1 p1 q1 ->
      run (n_step Checked DoesNotReturn) St1 o2 = Done St2 p2 q2 -> run (n_step Checked DoesNotReturn) St (o1 ++ o2) = Done St2 (p1 ++ p2) (q1 ++ q2)).
    { clear. intros St o1. revert St. induction o1 as [|o o1 IH]; intros St o2 St1 p1 St2 p2 q1 q2; cbn [run app].
      - intros F; injection F as <- <- <-. exact (fun F => F).
      - destruct (n_step _ _ St o) as [St' x px|?|]; [|discriminate|discriminate]. destruct (run _ St' o1) as [St'' xs pxs|?|] eqn:F; [|discriminate|discriminate].
        intros G; injection G as <- <- <-. intros G. rewrite (IH _ _ _ _ _ _ _ _ F G). cbn [app]. rewrite app_assoc. reflexivity. }
    exact (Rapp _ _ _ _ _ _ _ _ _ E1 E2).
Qed.

(** ** Assigning to a node of the list *)
Fixpoint chain (f : node -> ptr) (L : N -> node) (p : ptr) (l : list N) : Prop :=
  match l with [] => p = None | x :: r => p = Some x /\ chain f L (f (L x)) r end.

Lemma walk_chain f h k L l : hrep h k L -> (forall x, In x l -> x < k) -> forall fuel p, (length l <= fuel)%nat -> chain f L p l -> walk f fuel h p = Some l.
Proof.
  intros HH. induction l as [|x l IH]; intros Hlt fuel p Hf; cbn [chain].
  - intros ->. destruct fuel; reflexivity.
  - intros [-> Hc]. destruct fuel as [|fuel]; [cbn in Hf; lia|]. cbn [walk]. rewrite (get_ok _ _ _ x HH) by (apply Hlt; left; reflexivity).
    rewrite (IH (fun y Hy => Hlt y (or_intror Hy)) fuel _ ltac:(cbn in Hf; lia) Hc). reflexivity.
Qed.
Lemma walk_endless f h k L (S : list N) : hrep h k L -> (forall x, In x S -> x < k /\ exists y, f (L x) = Some y /\ In y S) ->
  forall fuel x, In x S -> walk f fuel h (Some x) = None.
Proof.
  intros HH HS. induction fuel as [|fuel IH]; intros x Hx; [reflexivity|]. cbn [walk]. destruct (HS x Hx) as (Hk & y & Ey & Hy).
  rewrite (get_ok _ _ _ x HH Hk), Ey, (IH y Hy). reflexivity.
Qed.

Lemma assign_rep pol hd k s m d a : LRep k s m -> d < k -> a < k ->
  exists s', n_step pol hd s (AssignNode d a) = Done s' LUnit [] /\ head s' = head s /\ tail s' = tail s /\ hrep (heap s') k (fupd (links m) d (links m a)).
Proof.
  intros (Hn & Hlt & Hh & Ht & HL & HH) Hd Ha. cbn [n_step]. rewrite (get_ok _ _ _ a (conj HL HH) Ha).
  destruct (wr_lt_Some (heap s) d (links m a)) as [h W]; [lia|]. rewrite W. eexists. split; [reflexivity|]. split; [reflexivity|]. split; [reflexivity|].
  cbn [with_heap heap]. split; [rewrite (wr_len _ _ _ _ W); exact HL|]. intros b Hb. rewrite (rd_wr _ _ _ _ b W). unfold fupd. destruct (b =? d); [reflexivity|]. exact (HH b Hb).
Qed.

Lemma NoDup_mid (A B : list N) n : NoDup (A ++ n :: B) -> ~ In n A /\ ~ In n B.
Proof. intros H. apply NoDup_remove in H as [_ H]. rewrite in_app_iff in H. tauto. Qed.

Lemma fwd_chain m n B nd C : NoDup (seq m) -> forall A A0, seq m = A0 ++ A ++ n :: B -> chain next (fupd (links m) n nd) (next nd) C ->
  chain next (fupd (links m) n nd) (hd_error (A ++ n :: B)) (A ++ n :: C).
Proof.
  intros Hn. induction A as [|x A IH]; intros A0 E HC; cbn [app hd_error chain].
  - split; [reflexivity|]. unfold fupd at 2. rewrite N.eqb_refl. exact HC.
  - split; [reflexivity|]. assert (Hx : x <> n).
    { intros ->. rewrite E in Hn. apply NoDup_mid in Hn as [_ Hn]. apply Hn. rewrite in_app_iff. right. left. reflexivity. }
    unfold fupd at 2. destruct (N.eqb_spec x n); [contradiction|]. rewrite (links_in m A0 x (A ++ n :: B) E).
    + cbn [next]. apply (IH (A0 ++ [x])); [rewrite <- app_assoc; exact E|exact HC].
    + rewrite E in Hn. exact (proj1 (NoDup_mid _ _ _ Hn)).
Qed.
Lemma bwd_chain m n A nd C : NoDup (seq m) -> forall B B0, seq m = A ++ n :: rev B ++ B0 -> chain prev (fupd (links m) n nd) (prev nd) C ->
  chain prev (fupd (links m) n nd) (last_or None (A ++ n :: rev B)) (B ++ n :: C).
Proof.
  intros Hn. induction B as [|x B IH]; intros B0 E HC; cbn [app rev chain].
  - rewrite last_or_snoc. split; [reflexivity|]. unfold fupd at 2. rewrite N.eqb_refl. exact HC.
  - change (A ++ n :: rev B ++ [x]) with (A ++ (n :: rev B) ++ [x]). rewrite app_assoc, last_or_snoc. split; [reflexivity|].
    cbn [rev] in E. rewrite <- app_assoc in E. cbn [app] in E.
    assert (Hx : x <> n). { intros ->. rewrite E in Hn. apply NoDup_mid in Hn as [_ Hn]. apply Hn. rewrite in_app_iff. right. left. reflexivity. }
    unfold fupd at 2. destruct (N.eqb_spec x n); [contradiction|]. rewrite (links_in m (A ++ n :: rev B) x B0).
    + cbn [prev]. apply (IH (x :: B0)); [exact E|exact HC].
    + rewrite E, <- app_assoc. reflexivity.
    + assert (E' : seq m = (A ++ n :: rev B) ++ x :: B0) by (rewrite E, <- app_assoc; reflexivity). rewrite E' in Hn. exact (proj1 (NoDup_mid _ _ _ Hn)).
Qed.

(** Parts of the sequence with the old links. *)
Lemma fwd_tail m L : NoDup (seq m) -> forall C P, seq m = P ++ C -> (forall x, In x C -> L x = links m x) -> chain next L (hd_error C) C.
Proof.
  intros Hn. induction C as [|x C IH]; intros P E HL; cbn [hd_error chain]; [reflexivity|]. split; [reflexivity|].
  rewrite HL by (left; reflexivity). rewrite (links_in m P x C E) by (rewrite E in Hn; exact (proj1 (NoDup_mid _ _ _ Hn))). cbn [next].
  apply (IH (P ++ [x])); [rewrite <- app_assoc; exact E|]. intros y Hy. apply HL. right. exact Hy.
Qed.
Lemma bwd_tail m L : NoDup (seq m) -> forall C P, seq m = rev C ++ P -> (forall x, In x C -> L x = links m x) -> chain prev L (last_or None (rev C)) C.
Proof.
  intros Hn. induction C as [|x C IH]; intros P E HL; cbn [rev chain]; [reflexivity|]. rewrite last_or_snoc. split; [reflexivity|].
  cbn [rev] in E. rewrite <- app_assoc in E. cbn [app] in E.
  rewrite HL by (left; reflexivity). rewrite (links_in m (rev C) x P E) by (rewrite E in Hn; exact (proj1 (NoDup_mid _ _ _ Hn))). cbn [prev].
  apply (IH (x :: P)); [exact E|]. intros y Hy. apply HL. right. exact Hy.
Qed.
Lemma next_inside m P n C x : NoDup (seq m) -> seq m = P ++ n :: C -> In x P -> exists y, next (links m x) = Some y /\ In y (P ++ [n]).
Proof.
  intros Hn E Hx. apply in_split in Hx as (P1 & P2 & ->). rewrite <- app_assoc in E. cbn [app] in E.
  rewrite (links_in m P1 x _ E) by (rewrite E in Hn; exact (proj1 (NoDup_mid _ _ _ Hn))). cbn [next].
  destruct P2 as [|y P2]; cbn [app hd_error]; eexists; (split; [reflexivity|]); rewrite !in_app_iff; cbn; tauto.
Qed.
Lemma prev_inside m P n C x : NoDup (seq m) -> seq m = P ++ n :: C -> In x C -> exists y, prev (links m x) = Some y /\ In y (n :: C).
Proof.
  intros Hn E Hx. apply in_split in Hx as (C1 & C2 & ->). assert (E' : seq m = (P ++ n :: C1) ++ x :: C2) by (rewrite E, <- app_assoc; reflexivity).
  rewrite (links_in m _ x _ E') by (rewrite E' in Hn; exact (proj1 (NoDup_mid _ _ _ Hn))). cbn [prev].
  destruct (last_snoc C1) as [->|(r & y & ->)].
  - rewrite last_or_snoc. eexists. split; [reflexivity|]. left. reflexivity.
  - change (P ++ n :: r ++ [y]) with (P ++ (n :: r) ++ [y]). rewrite app_assoc, last_or_snoc. eexists. split; [reflexivity|].
    right. rewrite !in_app_iff. cbn. tauto.
Qed.

Lemma items_from s l pol hd : walk next (length (heap s)) (heap s) (head s) = Some l -> n_step pol hd s (On LItems) = Done s (LList l) [].
Proof. intros E. cbn [n_step l_step]. rewrite E. reflexivity. Qed.
Lemma ritems_from s l pol hd : walk prev (length (heap s)) (heap s) (tail s) = Some l -> n_step pol hd s (On LRItems) = Done s (LList l) [].
Proof. intros E. cbn [n_step l_step]. rewrite E. reflexivity. Qed.

Lemma sub_bound (l : list N) (m : lspec) h k L : hrep h k L -> NoDup (seq m) -> (forall n, In n (seq m) -> n < k) -> (length l <= length (seq m))%nat -> (length l <= length h)%nat.
Proof. intros [HL _] Hn Hlt H. pose proof (NoDup_bound _ _ Hn Hlt). unfold len in *. lia. Qed.

Lemma cut pol hd k s m A n B a : LRep k s m -> seq m = A ++ n :: B -> a < k -> ~ In a (seq m) -> loose m a = null_node ->
  exists s', n_step pol hd s (AssignNode n a) = Done s' LUnit [] /\
    n_step pol hd s' (On LItems) = Done s' (LList (A ++ [n])) [] /\ n_step pol hd s' (On LRItems) = Done s' (LList (rev B ++ [n])) [].
Proof.
  intros HR E Ha Hin Hl. pose proof HR as (Hn & Hlt & Hh & Ht & HH). assert (Hk : n < k) by (apply Hlt; rewrite E, in_app_iff; right; left; reflexivity).
  destruct (assign_rep pol hd k s m n a HR Hk Ha) as (s' & E1 & Eh & Et & H1). rewrite links_out, Hl in H1 by exact Hin.
  exists s'. split; [exact E1|]. assert (Hlt' : forall x, In x (A ++ [n]) \/ In x (rev B ++ [n]) -> x < k).
  { intros x Hx. apply Hlt. rewrite E. rewrite !in_app_iff, <- in_rev in Hx. rewrite in_app_iff. cbn in *. tauto. }
  split.
  - apply items_from. apply (walk_chain _ _ _ _ _ H1); [intros; apply Hlt'; auto| |].
    + apply (sub_bound _ m _ _ _ H1 Hn Hlt). rewrite E, !app_length. cbn. lia.
    + rewrite Eh, Hh, E. apply (fwd_chain m n B null_node [] Hn A []); [exact E|reflexivity].
  - apply ritems_from. apply (walk_chain _ _ _ _ _ H1); [intros; apply Hlt'; auto| |].
    + apply (sub_bound _ m _ _ _ H1 Hn Hlt). rewrite E, !app_length, rev_length. cbn. lia.
    + rewrite Et, Ht, E. rewrite <- (rev_involutive B) at 1. apply (bwd_chain m n A null_node [] Hn (rev B) []); [rewrite rev_involutive, app_nil_r; exact E|reflexivity].
Qed.

Lemma skip pol hd k s m A n B a C : LRep k s m -> seq m = A ++ n :: B ++ a :: C ->
  exists s', n_step pol hd s (AssignNode n a) = Done s' LUnit [] /\
    n_step pol hd s' (On LItems) = Done s' (LList (A ++ n :: C)) [] /\ n_step pol hd s' (On LRItems) = Undef.
Proof.
  intros HR E. pose proof HR as (Hn & Hlt & Hh & Ht & HH). assert (Hk : n < k) by (apply Hlt; rewrite E, in_app_iff; right; left; reflexivity).
  assert (E2 : seq m = (A ++ n :: B) ++ a :: C) by (rewrite E, <- app_assoc; reflexivity).
  assert (Ha : a < k) by (apply Hlt; rewrite E2, in_app_iff; right; left; reflexivity).
  pose proof Hn as Hn2. rewrite E2 in Hn2. pose proof (NoDup_mid _ _ _ Hn2) as [Hna1 Hna2]. pose proof Hn as Hn1. rewrite E in Hn1. pose proof (NoDup_mid _ _ _ Hn1) as [Hnn1 Hnn2].
  destruct (assign_rep pol hd k s m n a HR Hk Ha) as (s' & E1 & Eh & Et & H1). rewrite (links_in m _ a C E2 Hna1) in H1.
  exists s'. split; [exact E1|]. split.
  - apply items_from. apply (walk_chain _ _ _ _ _ H1).
    + intros x Hx. apply Hlt. rewrite E. rewrite !in_app_iff in *. cbn in *. rewrite in_app_iff. cbn. tauto.
    + apply (sub_bound _ m _ _ _ H1 Hn Hlt). rewrite E, !app_length. cbn. rewrite app_length. cbn. lia.
    + rewrite Eh, Hh, E. apply (fwd_chain m n _ _ C Hn A []); [exact E|]. cbn [next].
      apply (fwd_tail m _ Hn C ((A ++ n :: B) ++ [a])); [rewrite <- app_assoc; exact E2|].
      intros x Hx. unfold fupd. destruct (N.eqb_spec x n) as [->|]; [|reflexivity]. exfalso. apply Hnn2. rewrite in_app_iff. right. right. exact Hx.
  - cbn [n_step l_step].
    assert (W : walk prev (length (heap s')) (heap s') (tail s') = None).
    { assert (Hl : exists t, tail s' = Some t /\ In t (n :: B ++ a :: C)).
      { rewrite Et, Ht, E2. destruct (last_snoc C) as [->|(r & y & ->)].
        - rewrite last_or_snoc. eexists. split; [reflexivity|]. right. rewrite in_app_iff. right. left. reflexivity.
        - change ((A ++ n :: B) ++ a :: r ++ [y]) with ((A ++ n :: B) ++ (a :: r) ++ [y]). rewrite app_assoc, last_or_snoc. eexists. split; [reflexivity|].
          right. rewrite in_app_iff. right. right. rewrite in_app_iff. right. left. reflexivity. }
      destruct Hl as (t & -> & Hin). refine (walk_endless prev _ k _ (n :: B ++ a :: C) H1 _ _ t Hin). intros x Hx. split.
      - apply Hlt. rewrite E, in_app_iff. right. exact Hx.
      - unfold fupd. destruct (N.eqb_spec x n) as [->|Hxn].
        + cbn [prev]. destruct (last_snoc B) as [->|(r & y & ->)].
          * rewrite last_or_snoc. eexists. split; [reflexivity|]. left. reflexivity.
          * change (A ++ n :: r ++ [y]) with (A ++ (n :: r) ++ [y]). rewrite app_assoc, last_or_snoc. eexists. split; [reflexivity|].
            right. rewrite !in_app_iff. left. right. left. reflexivity.
        + destruct Hx as [Hx|Hx]; [congruence|]. exact (prev_inside m A n _ x Hn E Hx). }
    rewrite W. reflexivity.
Qed.

Lemma loop pol hd k s m A a B n C : LRep k s m -> seq m = A ++ a :: B ++ n :: C ->
  exists s', n_step pol hd s (AssignNode n a) = Done s' LUnit [] /\
    n_step pol hd s' (On LItems) = Undef /\ n_step pol hd s' (On LRItems) = Done s' (LList (rev C ++ n :: rev A)) [].
Proof.
  intros HR E. pose proof HR as (Hn & Hlt & Hh & Ht & HH).
  assert (E2 : seq m = (A ++ a :: B) ++ n :: C) by (rewrite E, <- app_assoc; reflexivity).
  assert (Hk : n < k) by (apply Hlt; rewrite E2, in_app_iff; right; left; reflexivity).
  assert (Ha : a < k) by (apply Hlt; rewrite E, in_app_iff; right; left; reflexivity).
  pose proof Hn as Hn2. rewrite E2 in Hn2. pose proof (NoDup_mid _ _ _ Hn2) as [Hnn1 Hnn2]. pose proof Hn as Hn1. rewrite E in Hn1. pose proof (NoDup_mid _ _ _ Hn1) as [Hna1 Hna2].
  destruct (assign_rep pol hd k s m n a HR Hk Ha) as (s' & E1 & Eh & Et & H1). rewrite (links_in m _ a _ E Hna1) in H1.
  exists s'. split; [exact E1|]. split.
  - cbn [n_step l_step].
    assert (W : walk next (length (heap s')) (heap s') (head s') = None).
    { assert (Hl : exists t, head s' = Some t /\ In t ((A ++ a :: B) ++ [n])).
      { rewrite Eh, Hh, E. destruct A as [|y A]; cbn [app hd_error]; eexists; (split; [reflexivity|]); left; reflexivity. }
      destruct Hl as (t & -> & Hin). refine (walk_endless next _ k _ ((A ++ a :: B) ++ [n]) H1 _ _ t Hin). intros x Hx. split.
      - apply Hlt. rewrite E2. rewrite in_app_iff in *. cbn in *. tauto.
      - unfold fupd. destruct (N.eqb_spec x n) as [->|Hxn].
        + cbn [next]. destruct B as [|y B]; cbn [app hd_error]; eexists; (split; [reflexivity|]); rewrite !in_app_iff; cbn; tauto.
        + rewrite in_app_iff in Hx. destruct Hx as [Hx|[Hx|[]]]; [|congruence]. exact (next_inside m _ n _ x Hn E2 Hx). }
    rewrite W. reflexivity.
  - apply ritems_from. apply (walk_chain _ _ _ _ _ H1).
    + intros x Hx. apply Hlt. rewrite E. rewrite in_app_iff in *. cbn in *. rewrite <- !in_rev in Hx. rewrite in_app_iff. cbn. tauto.
    + apply (sub_bound _ m _ _ _ H1 Hn Hlt). rewrite E, !app_length. cbn. rewrite !app_length, !rev_length. cbn. lia.
    + rewrite Et, Ht, E2. replace (last_or None ((A ++ a :: B) ++ n :: C)) with (last_or None ((A ++ a :: B) ++ n :: rev (rev C))) by (rewrite rev_involutive; reflexivity).
      apply (bwd_chain m n _ _ (rev A) Hn (rev C) []); [rewrite rev_involutive, app_nil_r; exact E2|].
      cbn [prev]. replace (last_or None A) with (last_or None (rev (rev A))) at 2 by (rewrite rev_involutive; reflexivity).
      apply (bwd_tail m _ Hn (rev A) (a :: B ++ n :: C)); [rewrite rev_involutive; exact E|].
      intros x Hx. unfold fupd. destruct (N.eqb_spec x n) as [->|]; [|reflexivity]. exfalso. apply Hnn1. rewrite in_app_iff. left. apply in_rev. exact Hx.
Qed.
