(** C123: intrusive lists and intrusive forward lists share nodes. *)
From Verif Require Import Base BaseLemmas IntrusiveListModel IntrusiveListSpec IntrusiveListProofs ForwardListModel ForwardListSpec ForwardListProofs PoolModel PoolSpec PoolProofs MixModel MixSpec MixProofs.
Open Scope N_scope.

(** For any number of lists of either kind with the checked policy, any number of nodes with null
    links, and any history in which a node is put into a list only while it is in none, every list
    behaves as a plain list of its own and nothing panics. *)
Theorem C123_lists_are_independent : forall (hd : handler) (kinds : list kind) (k : nat) ops ls outs,
  spec_run (mix_lists kinds (N.of_nat k)) (repeat [] (length kinds)) ops = Some (ls, outs) ->
  exists s, run (mix_step (all_checked kinds) hd) (mix_init (all_checked kinds) k) ops = Done s outs [].
Proof. intros hd kinds k ops ls outs H. destruct (mix_run_init hd _ _ _ _ _ H) as (s & E & _). eauto. Qed.
Print Assumptions C123_lists_are_independent.

(** After such a history, pushing a node onto any list panics exactly if the node is in an
    intrusive_list and not alone in it, or in a forward list and not the last of it. *)
Theorem C123_panics_partial : forall (kinds : list kind) (k : nat) ops ls outs i n op,
  spec_run (mix_lists kinds (N.of_nat k)) (repeat [] (length kinds)) ops = Some (ls, outs) ->
  i < len kinds -> n < N.of_nat k -> op = LPushFront n \/ op = LPushBack n ->
  exists s, run (mix_step (all_checked kinds) DoesNotReturn) (mix_init (all_checked kinds) k) ops = Done s outs [] /\
    ((exists t, mix_step (all_checked kinds) DoesNotReturn s (i, op) = Stopped t BadListNode) <->
     exists j kj l, rd kinds j = Some kj /\ rd ls j = Some l /\ noticed kj l n).
Proof.
  intros kinds k ops ls outs i n op H Hi Hn Ho. destruct (mix_run_init DoesNotReturn _ _ _ _ _ H) as (s & E & [HL HM HR HD HF] & LS).
  exists s. split; [exact E|].
  destruct (rd_lt_Some kinds i Hi) as (ki & Ki). destruct (rd_lt_Some (ends s) i) as (e & Re); [lia|].
  assert (Ln : n < len (memory s)) by lia.
  assert (Q : (exists t, mix_step (all_checked kinds) DoesNotReturn s (i, op) = Stopped t BadListNode) <-> unlinked (at_ (memory s) n) = false).
  { cbn [mix_step]. rewrite rd_checked, Ki, Re.
    assert (X : exists body, kind_step ki Checked DoesNotReturn (as_list e (memory s)) op = with_check Checked DoesNotReturn (as_list e (memory s)) n body)
      by (destruct ki, Ho as [-> | ->]; eexists; reflexivity).
    destruct X as (body & X). rewrite X. destruct (wr_lt_Some (ends s) i (fst e, snd e)) as (es & We); [lia|]. split.
    - intros (t & Y). destruct (with_check Checked DoesNotReturn (as_list e (memory s)) n body) as [a b c|a b|] eqn:W.
      + destruct (put_back s i a); discriminate.
      + apply check_panics in W as (_ & U & _); [exact U | exact Ln].
      + discriminate.
    - intros U. assert (W : with_check Checked DoesNotReturn (as_list e (memory s)) n body = Stopped (as_list e (memory s)) BadListNode) by (apply check_panics; auto).
      rewrite W. unfold put_back. cbn [as_list head tail]. rewrite We. eauto. }
  rewrite Q. clear Q. split.
  - intros U. assert (F : free ls n = false).
    { destruct (free ls n) eqn:F; [|reflexivity]. rewrite (HF n) in U by (apply free_spec; exact F). discriminate. }
    destruct (in_some_list ls n F) as (j & l & Rj & I).
    destruct (rd_lt_Some kinds j) as (kj & Kj); [rewrite <- LS; eapply rd_Some_lt; eauto|].
    destruct (rd_lt_Some (ends s) j) as (ej & Rej); [rewrite HL; eapply rd_Some_lt; eauto|].
    exists j, kj, l. split; [exact Kj|]. split; [exact Rj|]. pose proof (HR j kj l ej Kj Rj Rej) as (_ & ND & _ & _ & _ & A).
    rewrite (A n I) in U. apply link_noticed; assumption.
  - intros (j & kj & l & Kj & Rj & No). destruct (rd_lt_Some (ends s) j) as (ej & Rej); [rewrite HL; eapply rd_Some_lt; eauto|].
    pose proof (HR j kj l ej Kj Rj Rej) as (_ & ND & _ & _ & _ & A). pose proof (noticed_in _ _ _ No) as I.
    rewrite (A n I). apply link_noticed; assumption.
Qed.
Print Assumptions C123_panics_partial.

(** FINDING: the last node of a forward list can be pushed onto another list without a panic, and
    the forward list then goes on into that list. *)
Theorem C123_last_node_refuted : forall (hd : handler) (kinds : list kind) (k : nat) ops ls outs i j ki before n x r,
  spec_run (mix_lists kinds (N.of_nat k)) (repeat [] (length kinds)) ops = Some (ls, outs) ->
  i <> j -> rd kinds i = Some ki -> rd ls i = Some (x :: r) -> rd kinds j = Some Single -> rd ls j = Some (before ++ [n]) ->
  exists s s1, run (mix_step (all_checked kinds) hd) (mix_init (all_checked kinds) k) ops = Done s outs [] /\
    mix_step (all_checked kinds) hd s (i, LPushFront n) = Done s1 LUnit [] /\
    mix_step (all_checked kinds) hd s1 (i, LItems) = Done s1 (LList (n :: x :: r)) [] /\
    mix_step (all_checked kinds) hd s1 (j, LItems) = Done s1 (LList (before ++ n :: x :: r)) [].
Proof.
  intros hd kinds k ops ls outs i j ki before n x r H ij Ki Ri Kj Rj.
  destruct (mix_run_init hd _ _ _ _ _ H) as (s & E & [HL HM HR HD HF] & LS).
  destruct (rd_lt_Some (ends s) i) as (ei & Rei); [rewrite HL; eapply rd_Some_lt; eauto|].
  destruct (rd_lt_Some (ends s) j) as (ej & Rej); [rewrite HL; eapply rd_Some_lt; eauto|].
  pose proof (HR _ _ _ _ Ki Ri Rei) as Ra. pose proof (HR _ _ _ _ Kj Rj Rej) as Rb.
  destruct Rb as (_ & NDb & HBb & H1b & H2b & HNb).
  assert (In_n : In n (before ++ [n])) by (apply in_or_app; right; left; reflexivity).
  assert (Nb : ~ In n before) by (apply NoDup_remove in NDb; rewrite app_nil_r in NDb; apply NDb).
  assert (An : at_ (memory s) n = null_node).
  { rewrite (HNb n In_n). cbn [link]. unfold succ. rewrite after_in by exact Nb. reflexivity. }
  assert (Nx : ~ In n (x :: r)) by (intros I; apply ij; exact (HD i j _ _ n Ri Rj I In_n)).
  assert (Ln : n < N.of_nat k) by (apply HBb; exact In_n).
  assert (P : plain_of ki (N.of_nat k) (x :: r) (LPushFront n) = Some (n :: x :: r, LUnit)).
  { assert (O : (n <? N.of_nat k) && negb (mem n (x :: r)) = true).
    { apply andb_true_iff. split; [apply N.ltb_lt; exact Ln | apply negb_true_iff, mem_not; exact Nx]. }
    destruct ki; cbn [plain_of plain_forward plain_step]; rewrite O; reflexivity. }
  destruct (kind_ok ki hd _ ei (memory s) (x :: r) (LPushFront n) _ _ Ra An P) as (t & St & Gr & Out & Gone & Hi).
  destruct (wr_lt_Some (ends s) i (head t, tail t)) as (es & We); [rewrite HL; eapply rd_Some_lt; eauto|].
  exists s, {| ends := es; memory := heap t |}. split; [exact E|].
  assert (Gi : rd es i = Some (head t, tail t)) by (rewrite (rd_wr _ _ _ _ i We), N.eqb_refl; reflexivity).
  assert (Gj : rd es j = Some ej) by (rewrite (rd_wr _ _ _ _ j We); destruct (N.eqb_spec j i); [congruence | exact Rej]).
  assert (Back : forall q e, rd es q = Some e -> wr es q e = Some es).
  { intros q e Q. destruct (wr_lt_Some es q e) as (es3 & W3); [eapply rd_Some_lt; eauto|]. rewrite W3. f_equal.
    apply rd_ext; [exact (wr_len _ _ _ _ W3)|]. intros y _. rewrite (rd_wr _ _ _ _ y W3). destruct (N.eqb_spec y q) as [->|]; congruence. }
  assert (Items : forall q kq e w, rd kinds q = Some kq -> rd es q = Some e -> walk next (length (heap t)) (heap t) (fst e) = Some w ->
    mix_step (all_checked kinds) hd {| ends := es; memory := heap t |} (q, LItems) = Done {| ends := es; memory := heap t |} (LList w) []).
  { intros q kq e w Kq Q W. cbn [mix_step ends memory]. rewrite rd_checked, Kq, Q. destruct e as [e1 e2]. cbn [fst] in W.
    assert (Y : kind_step kq Checked hd (as_list (e1, e2) (heap t)) LItems = Done (as_list (e1, e2) (heap t)) (LList w) []).
    { destruct kq; cbn [kind_step l_step fwd_step as_list heap head fst]; rewrite W; reflexivity. }
    rewrite Y. unfold put_back. cbn [as_list head tail fst snd heap ends]. rewrite (Back q (e1, e2) Q). reflexivity. }
  split; [cbn [mix_step]; rewrite rd_checked, Ki, Rei, St; unfold put_back; rewrite We; reflexivity|].
  split; [apply (Items i ki (head t, tail t)); [exact Ki | exact Gi | exact (rep_walk _ _ _ _ _ Gr)]|].
  apply (Items j Single ej); [exact Kj | exact Gj|]. rewrite H1b.
  assert (hd_error (before ++ [n]) = hd_error (before ++ n :: x :: r)) as -> by (destruct before; reflexivity).
  destruct Gr as (LT & NDt & HBt & _ & _ & HNt).
  assert (Dis : forall q, In q before -> ~ In q (n :: x :: r)).
  { intros q I [->|I2]; [contradiction|]. apply ij. apply (HD i j _ _ q Ri Rj I2). apply in_or_app. left. exact I. }
  assert (NDw : NoDup (before ++ n :: x :: r)).
  { clear - NDb NDt Dis. induction before as [|b bs IH]; [exact NDt|]. cbn [app] in *. inversion NDb; subst. constructor.
    - rewrite in_app_iff. intros [I|I]; [apply H1; apply in_or_app; left; exact I | exact (Dis b (or_introl eq_refl) I)].
    - apply IH; [assumption|]. intros q I. apply Dis. right. exact I. }
  assert (HBw : forall q, In q (before ++ n :: x :: r) -> q < N.of_nat k).
  { intros q I. apply in_app_or in I as [I|I]; [apply HBb; apply in_or_app; left; exact I | apply HBt; exact I]. }
  apply chain_walk; [exact NDw | rewrite LT; exact HBw | |].
  - intros q I. apply in_app_or in I as [I|I].
    + assert (Nq : ~ In q (n :: x :: r)) by (apply Dis; exact I).
      rewrite Out; [|intros I2; apply Nq; right; exact I2 | exact Nq]. rewrite (HNb q) by (apply in_or_app; left; exact I). cbn [link next].
      apply in_split in I as (b1 & b2 & ->). assert (Nb1 : ~ In q b1).
      { clear - NDb. rewrite <- app_assoc in NDb. cbn in NDb. apply NoDup_remove in NDb. rewrite in_app_iff in NDb. tauto. }
      unfold succ. rewrite <- !app_assoc. cbn [app]. rewrite !after_in by exact Nb1. destruct b2; reflexivity.
    + rewrite (HNt q I). assert (Nq : ~ In q before) by (intros I2; exact (Dis q I2 I)).
      apply in_split in I as (w1 & w2 & Ew). assert (Nw : ~ In q w1) by (rewrite Ew in NDt; apply NoDup_remove in NDt; rewrite in_app_iff in NDt; tauto).
      rewrite Ew. unfold succ. rewrite app_assoc, after_in by (rewrite in_app_iff; tauto).
      destruct ki; cbn [link next]; [rewrite nbrs_in by exact Nw; reflexivity | unfold succ; rewrite after_in by exact Nw; reflexivity].
  - pose proof (NoDup_bound _ _ NDw HBw) as B. unfold len in *. lia.
Qed.
Print Assumptions C123_last_node_refuted.

(** FINDING: a node popped from a list with the unchecked policy that was not the only one keeps
    the pointer to its neighbour, and pushing it onto a list with the checked policy panics
    although it is in no list.  This holds from every state of the lists and the memory. *)
Theorem C123_policies_refuted : forall (cfg : list (kind * policy)) s i j ki kj n x rest s1,
  rd cfg i = Some (ki, Unchecked) -> rd cfg j = Some (kj, Checked) ->
  mix_step cfg DoesNotReturn s (i, LItems) = Done s (LList (n :: x :: rest)) [] ->
  mix_step cfg DoesNotReturn s (i, LPopFront) = Done s1 (LNode n) [] ->
  i < len (ends s) -> j < len (ends s) -> n <> x ->
  exists t, mix_step cfg DoesNotReturn s1 (j, LPushFront n) = Stopped t BadListNode /\
            mix_step cfg DoesNotReturn s1 (j, LPushBack n) = Stopped t BadListNode.
Proof.
  intros cfg s i j ki kj n x rest s1 Ci Cj It Po Li Lj nx.
  destruct (rd_lt_Some (ends s) i Li) as ([e1 e2] & Re).
  assert (W : walk next (length (memory s)) (memory s) e1 = Some (n :: x :: rest)).
  { cbn [mix_step] in It. rewrite Ci, Re in It.
    assert (Y : kind_step ki Unchecked DoesNotReturn (as_list (e1, e2) (memory s)) LItems =
      match walk next (length (memory s)) (memory s) e1 with Some l => Done (as_list (e1, e2) (memory s)) (LList l) [] | None => Undef end).
    { destruct ki; cbn [kind_step l_step fwd_step as_list heap head fst]; destruct (walk _ _ _ _); reflexivity. }
    rewrite Y in It. destruct (walk next (length (memory s)) (memory s) e1) as [l|]; [|discriminate].
    destruct (put_back s i (as_list (e1, e2) (memory s))); [|discriminate]. injection It as _ <-. reflexivity. }
  assert (Gn : exists p, get (memory s) (Some n) = Some {| prev := p; next := Some x |} /\ e1 = Some n).
  { destruct (length (memory s)) as [|f]; [destruct e1; discriminate|]. destruct e1 as [a|]; [|discriminate]. cbn [walk] in W.
    destruct (get (memory s) (Some a)) as [[p q]|] eqn:G; [|discriminate]. cbn [next] in W.
    destruct (walk next f (memory s) q) as [w|] eqn:W2; [|discriminate]. injection W as -> ->.
    exists p. split; [|reflexivity]. rewrite G. do 2 f_equal. destruct q as [b|].
    - destruct f as [|f]; [discriminate|]. cbn [walk] in W2. destruct (get (memory s) (Some b)) as [nd|]; [|discriminate].
      destruct (walk next f (memory s) (next nd)); [|discriminate]. injection W2 as -> _. reflexivity.
    - destruct f; discriminate. }
  destruct Gn as (p & Gn & ->).
  assert (M1 : exists p', get (memory s1) (Some n) = Some {| prev := p'; next := Some x |} /\ len (ends s1) = len (ends s)).
  { cbn [mix_step] in Po. rewrite Ci, Re in Po. destruct ki; cbn [kind_step l_step fwd_step] in Po.
    - unfold pop_front in Po. cbn [as_list head tail heap fst snd] in Po. rewrite Gn in Po. cbn [next is_null] in Po.
      destruct (set_prev (memory s) (Some x) None) as [h|] eqn:Sx; [|discriminate]. cbn [on_pop ret] in Po. unfold put_back in Po. cbn [head tail heap] in Po.
      match type of Po with context [wr ?a ?b ?c] => destruct (wr a b c) as [es|] eqn:We; [|discriminate Po] end. injection Po as <-. cbn [memory ends].
      exists p. split; [|exact (wr_len _ _ _ _ We)]. unfold set_prev, put in Sx. destruct (rd (memory s) x) as [nd|]; [|discriminate].
      cbn [get]. rewrite (rd_wr _ _ _ _ n Sx). destruct (N.eqb_spec n x); [contradiction|]. exact Gn.
    - unfold fwd_pop_front in Po. cbn [as_list head tail heap fst snd] in Po. rewrite Gn in Po. cbn [next is_null on_pop ret] in Po. unfold put_back in Po. cbn [head tail heap] in Po.
      match type of Po with context [wr ?a ?b ?c] => destruct (wr a b c) as [es|] eqn:We; [|discriminate Po] end. injection Po as <-. cbn [memory ends].
      exists p. split; [exact Gn | exact (wr_len _ _ _ _ We)]. }
  destruct M1 as (p' & G1 & L1). destruct (rd_lt_Some (ends s1) j) as ([f1 f2] & Rj); [lia|].
  destruct (wr_lt_Some (ends s1) j (f1, f2)) as (es & We); [lia|].
  exists {| ends := es; memory := memory s1 |}.
  assert (X : forall body, with_check Checked DoesNotReturn (as_list (f1, f2) (memory s1)) n body = Stopped (as_list (f1, f2) (memory s1)) BadListNode).
  { intros body. unfold with_check, valid_for_push. cbn [as_list heap]. rewrite G1. cbn [prev next is_null]. rewrite andb_false_r. reflexivity. }
  split; cbn [mix_step]; rewrite Cj, Rj; destruct kj; cbn [kind_step l_step fwd_step]; rewrite X; unfold put_back; cbn [as_list head tail heap fst snd]; rewrite We; reflexivity.
Qed.
Print Assumptions C123_policies_refuted.

(** An intrusive_list and two forward lists, five nodes: nodes move between them. *)
Example C123_example :
  let kinds := [Double; Single; Single] in
  spec_run (mix_lists kinds 5) [[]; []; []]
    [(0, LPushBack 2); (1, LPushFront 1); (1, LPushBack 3); (0, LPushFront 0); (0, LRemove 2); (2, LPushBack 2); (1, LPopFront); (0, LInsert (Some 0) 1);
     (0, LItems); (1, LItems); (2, LItems); (0, LLinks 0); (2, LPushFront 4); (2, LLinks 4); (2, LClear); (0, LPushBack 4); (0, LRItems); (0, LPopBack); (1, LPushBack 4); (1, LItems)] =
  Some ([[1; 0]; [3; 4]; []],
    [LUnit; LUnit; LUnit; LUnit; LUnit; LUnit; LNode 1; LUnit; LList [1; 0]; LList [3]; LList [2]; LPair (Some 1) None; LUnit; LPair None (Some 2); LUnit; LUnit;
     LList [4; 0; 1]; LNode 4; LUnit; LList [3; 4]]) /\
  (* the panic: node 3 is first of two in the forward list; node 4 is its last *)
  noticed Single [3; 4] 3 /\ ~ noticed Single [3; 4] 4 /\ noticed Double [1; 0] 0 /\
  (* from an unchecked list of two to a checked one *)
  (let cfg := [(Double, Unchecked); (Single, Checked)] in
   exists s s1, run (mix_step cfg DoesNotReturn) (mix_init cfg 2) [(0, LPushBack 0); (0, LPushBack 1)] = Done s [LUnit; LUnit] [] /\
     mix_step cfg DoesNotReturn s (0, LItems) = Done s (LList [0; 1]) [] /\
     mix_step cfg DoesNotReturn s (0, LPopFront) = Done s1 (LNode 0) []).
Proof.
  cbv zeta. split; [reflexivity|]. split; [exists [], 4, []; reflexivity|]. split.
  - intros (b & x & a & E). destruct b as [|? [|? [|? b]]]; discriminate.
  - split; [split; [right; left; reflexivity | discriminate]|].
    eexists. eexists. split; [reflexivity|]. split; reflexivity.
Qed.
