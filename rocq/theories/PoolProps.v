(** C92: several intrusive lists share their nodes. *)
From Verif Require Import Base BaseLemmas IntrusiveListModel IntrusiveListSpec IntrusiveListProofs PoolModel PoolSpec PoolProofs.
Open Scope N_scope.

(** For any number of lists and of nodes, and any history in which a node is put into a list
    only while it is in none and taken out through the list it is in, every list behaves as a
    plain list of its own. *)
Theorem C92_lists_are_independent : forall (hd : handler) (c k : nat) ops ls outs,
  spec_run (lists_step (N.of_nat k)) (repeat [] c) ops = Some (ls, outs) ->
  exists s, run (p_step Checked hd) (p_init c k) ops = Done s outs [].
Proof.
  intros hd c k ops ls outs H. destruct (pool_run hd _ _ _ _ _ _ (pool_init c k) H) as (s & E & _). eauto.
Qed.
Print Assumptions C92_lists_are_independent.

(** After such a history, putting a node into any list panics exactly if the node is in some
    list and not alone in it. *)
Theorem C92_panics_partial : forall (c k : nat) ops ls outs i n op,
  spec_run (lists_step (N.of_nat k)) (repeat [] c) ops = Some (ls, outs) -> i < N.of_nat c -> n < N.of_nat k ->
  op = LPushFront n \/ op = LPushBack n \/ (exists it, op = LInsert it n) ->
  exists s, run (p_step Checked DoesNotReturn) (p_init c k) ops = Done s outs [] /\
    ((exists t, p_step Checked DoesNotReturn s (On i op) = Stopped t BadListNode) <-> exists j l, rd ls j = Some l /\ In n l /\ l <> [n]).
Proof.
  intros c k ops ls outs i n op H Hi Hn Ho. destruct (pool_run DoesNotReturn _ _ _ _ _ _ (pool_init c k) H) as (s & E & R).
  exists s. split; [exact E|]. pose proof R as [HL HM HR HD HF].
  assert (LS : len ls = N.of_nat c) by exact (lists_len _ _ _ _ _ H).
  destruct (rd_lt_Some ls i) as (l & Rl); [lia|]. destruct (rd_lt_Some (ends s) i) as (e & Re); [lia|].
  pose proof (HR i l e Rl Re) as Ri.
  pose proof (insertion_panics _ _ _ n op Ri Hn Ho) as P.
  assert (Q : (exists t, p_step Checked DoesNotReturn s (On i op) = Stopped t BadListNode) <-> (exists t, l_step Checked DoesNotReturn (as_list e (memory s)) op = Stopped t BadListNode)).
  { cbn [p_step]. rewrite Re. destruct (l_step Checked DoesNotReturn (as_list e (memory s)) op) as [t o ps|t p|].
    - split; intros (u & X); [destruct (put_back s i t); discriminate | discriminate].
    - destruct (wr_lt_Some (ends s) i (head t, tail t)) as (es & We); [lia|]. unfold put_back. rewrite We. destruct p. split; intros _; eauto.
    - split; intros (u & X); discriminate. }
  rewrite Q, P. clear P Q.
  assert (At : links (canon l (memory s)) n = at_ (memory s) n) by (symmetry; apply (hrep_at _ (N.of_nat k)); [apply Ri | exact Hn]).
  rewrite At. split.
  - intros U. assert (F : free ls n = false).
    { destruct (free ls n) eqn:F; [|reflexivity]. rewrite (HF n) in U by (apply free_spec; exact F). discriminate. }
    unfold free in F. assert (X : exists l', In l' ls /\ In n l').
    { clear - F. induction ls as [|l ls IH]; [discriminate|]. cbn in F. destruct (mem n l) eqn:M.
      - exists l. split; [left; reflexivity | apply mem_In; exact M].
      - destruct (IH F) as (l' & A & B). exists l'. split; [right; exact A | exact B]. }
    destruct X as (l' & A & B). apply In_nth_error in A as (j & A). exists (N.of_nat j), l'.
    assert (Rj : rd ls (N.of_nat j) = Some l') by (rewrite rd_nth_error, Nat2N.id; exact A).
    split; [exact Rj|]. split; [exact B|]. intros ->. destruct (rd_lt_Some (ends s) (N.of_nat j)) as (ej & Rej); [rewrite HL; eapply rd_Some_lt; eauto|].
    pose proof (HR _ _ _ Rj Rej) as Rr.
    assert (V : at_ (memory s) n = links (canon [n] (memory s)) n) by (apply (hrep_at _ (N.of_nat k)); [apply Rr | exact Hn]).
    rewrite V in U. unfold links in U. cbn [canon seq nbrs] in U. rewrite N.eqb_refl in U. discriminate.
  - intros (j & l' & Rj & B & NS). destruct (sole_or_two l' n B) as [->|T]; [congruence|].
    destruct (rd_lt_Some (ends s) j) as (ej & Rej); [rewrite HL; eapply rd_Some_lt; eauto|].
    pose proof (HR _ _ _ Rj Rej) as Rr. rewrite (hrep_at (memory s) (N.of_nat k) (links (canon l' (memory s))) n) by (solve [apply Rr] || exact Hn).
    unfold links. cbn [canon seq]. destruct (nbrs_two l' n B) as (nd & E1 & E2); [apply Rr | exact T |]. rewrite E1. exact E2.
Qed.
Print Assumptions C92_panics_partial.

(** FINDING: removing the first node of one list through another list is accepted, and gives the
    other list the rest of the first one in place of its own nodes. *)
Theorem C92_remove_refuted : forall (hd : handler) (c k : nat) ops ls outs i j l n x r,
  spec_run (lists_step (N.of_nat k)) (repeat [] c) ops = Some (ls, outs) ->
  i <> j -> rd ls i = Some l -> rd ls j = Some (n :: x :: r) ->
  exists s s1, run (p_step Checked hd) (p_init c k) ops = Done s outs [] /\
    p_step Checked hd s (On i (LRemove n)) = Done s1 LUnit [] /\
    p_step Checked hd s1 (On i LItems) = Done s1 (LList (x :: r)) [] /\
    p_step Checked hd s1 (On j LItems) = Done s1 (LList [n]) [].
Proof.
  intros hd c k ops ls outs i j l n x r H ij Ri Rj. destruct (pool_run hd _ _ _ _ _ _ (pool_init c k) H) as (s & E & R).
  destruct R as [HL HM HR HD HF].
  destruct (rd_lt_Some (ends s) i) as (ei & Rei); [rewrite HL; eapply rd_Some_lt; eauto|].
  destruct (rd_lt_Some (ends s) j) as (ej & Rej); [rewrite HL; eapply rd_Some_lt; eauto|].
  pose proof (HR _ _ _ Rj Rej) as Rr. set (m := canon (n :: x :: r) (memory s)) in *.
  destruct (release_list_frame Checked _ _ m [] n (x :: r) Rr eq_refl) as (t & Et & Rt).
  assert (Hnode : get (memory s) (Some n) = Some {| prev := None; next := Some x |}).
  { rewrite (get_ok (memory s) (N.of_nat k) (links m)); [|apply Rr | apply Rr; left; reflexivity]. unfold links. cbn. rewrite N.eqb_refl. reflexivity. }
  (* the same removal through list i *)
  unfold remove in Et. cbn [as_list heap head tail] in Et. rewrite Hnode in Et. cbn [prev next is_null] in Et.
  destruct (set_prev (memory s) (Some x) None) as [h1|] eqn:S1; [|discriminate]. destruct (on_pop Checked h1 (Some n)) as [h2|] eqn:S2; [|discriminate].
  injection Et as Et.
  assert (Ei : remove Checked (as_list ei (memory s)) (Some n) = Some {| head := Some x; tail := snd ei; heap := h2 |}).
  { unfold remove. cbn [as_list heap head tail]. rewrite Hnode. cbn [prev next is_null]. rewrite S1, S2. reflexivity. }
  destruct (wr_lt_Some (ends s) i (Some x, snd ei)) as (es & We); [eapply rd_Some_lt; eauto|].
  exists s, {| ends := es; memory := h2 |}. split; [exact E|].
  assert (Gi : rd es i = Some (Some x, snd ei)) by (rewrite (rd_wr _ _ _ _ i We), N.eqb_refl; reflexivity).
  assert (Gj : rd es j = Some ej) by (rewrite (rd_wr _ _ _ _ j We); destruct (N.eqb_spec j i); [congruence | exact Rej]).
  assert (Ht : heap t = h2) by (rewrite <- Et; reflexivity).
  destruct Rt as (T1 & T2 & T3 & T4 & T5). rewrite Ht in T5. cbn [seq] in *.
  split; [|split].
  - cbn [p_step]. rewrite Rei. cbn [l_step]. rewrite Ei. cbn [ret]. unfold put_back. cbn [head tail heap].
    match goal with |- context [wr ?a ?b ?c] => replace (wr a b c) with (Some es) by (symmetry; exact We) end. reflexivity.
  - cbn [p_step ends]. rewrite Gi. cbn [l_step as_list heap head tail fst snd].
    match type of T5 with hrep _ _ (links ?y) => set (m' := y) in * end.
    assert (Em : seq m' = x :: r) by reflexivity.
    assert (W : walk next (length h2) h2 (Some x) = Some (x :: r)).
    { refine (walk_next_ok h2 _ m' T5 _ _ (x :: r) [] (length h2) _ _); [rewrite Em; exact T1 | rewrite Em; exact T2 | exact Em |].
      pose proof (NoDup_bound (x :: r) _ T1 T2) as B. destruct T5 as (B2 & _). unfold len in *. lia. }
    cbn [memory]. rewrite W. cbn [ret]. unfold put_back. cbn [head tail heap ends]. 
    destruct (wr_lt_Some es i (Some x, snd ei)) as (es2 & We2); [eapply rd_Some_lt; eauto|]. match goal with |- context [wr ?a ?b ?c] => replace (wr a b c) with (Some es2) by (symmetry; exact We2) end.
    assert (es2 = es) as ->; [|reflexivity]. apply rd_ext; [exact (wr_len _ _ _ _ We2)|]. intros q _. rewrite (rd_wr _ _ _ _ q We2). destruct (N.eqb_spec q i) as [->|]; [symmetry; exact Gi | reflexivity].
  - cbn [p_step ends]. rewrite Gj. cbn [l_step as_list heap head tail fst snd memory].
    assert (Hj : fst ej = Some n) by (destruct Rr as (_ & _ & A & _); exact A). destruct ej as [a b]. cbn [fst snd] in *. subst a.
    assert (Ln : n < N.of_nat k) by (apply Rr; left; reflexivity).
    match type of T5 with hrep _ _ (links ?y) => set (m' := y) in * end.
    assert (Gn : get h2 (Some n) = Some null_node).
    { rewrite (get_ok _ _ _ n T5 Ln). rewrite links_out.
      - unfold m'. cbn [loose]. unfold release. rewrite N.eqb_refl. reflexivity.
      - cbn. destruct Rr as (A & _). cbn in A. inversion A; subst. assumption. }
    assert (Lh : (1 <= length h2)%nat) by (destruct T5 as (B2 & _); unfold len in B2; lia).
    destruct (length h2) as [|f]; [lia|]. cbn [walk]. rewrite Gn. cbn [null_node next].
    assert (W0 : walk next f h2 None = Some []) by (destruct f; reflexivity). rewrite W0. cbn [ret]. unfold put_back. cbn [head tail heap ends].
    destruct (wr_lt_Some es j (Some n, b)) as (es2 & We2); [eapply rd_Some_lt; eauto|]. match goal with |- context [wr ?a ?b ?c] => replace (wr a b c) with (Some es2) by (symmetry; exact We2) end.
    assert (es2 = es) as ->; [|reflexivity]. apply rd_ext; [exact (wr_len _ _ _ _ We2)|]. intros q _. rewrite (rd_wr _ _ _ _ q We2). destruct (N.eqb_spec q j) as [->|]; [|reflexivity]. symmetry; exact Gj.
Qed.
Print Assumptions C92_remove_refuted.

(** FINDING: lists can be copied, but the copy shares the nodes: after the original pops its
    first node, the copy holds that node and nothing else. *)
Theorem C92_assign_refuted : forall (hd : handler) (c k : nat) ops ls outs i j n r,
  spec_run (lists_step (N.of_nat k)) (repeat [] c) ops = Some (ls, outs) ->
  i <> j -> rd ls i = Some (n :: r) -> j < N.of_nat c ->
  exists s s1 s2, run (p_step Checked hd) (p_init c k) ops = Done s outs [] /\
    p_step Checked hd s (Assign j i) = Done s1 LUnit [] /\
    p_step Checked hd s1 (On i LPopFront) = Done s2 (LNode n) [] /\
    p_step Checked hd s2 (On i LItems) = Done s2 (LList r) [] /\
    p_step Checked hd s2 (On j LItems) = Done s2 (LList [n]) [].
Proof.
  intros hd c k ops ls outs i j n r H ij Ri Hj. destruct (pool_run hd _ _ _ _ _ _ (pool_init c k) H) as (s & E & R).
  assert (LS : len ls = N.of_nat c) by exact (lists_len _ _ _ _ _ H).
  destruct R as [HL HM HR HD HF].
  destruct (rd_lt_Some (ends s) i) as (ei & Rei); [rewrite HL; eapply rd_Some_lt; eauto|].
  pose proof (HR _ _ _ Ri Rei) as Rr. set (m := canon (n :: r) (memory s)) in *.
  destruct (wr_lt_Some (ends s) j ei) as (es & We); [lia|].
  assert (Gi : rd es i = Some ei) by (rewrite (rd_wr _ _ _ _ i We); destruct (N.eqb_spec i j); [congruence | exact Rei]).
  assert (Gj : rd es j = Some ei) by (rewrite (rd_wr _ _ _ _ j We), N.eqb_refl; reflexivity).
  destruct (l_step_ok Checked hd _ _ m LPopFront _ _ Rr eq_refl) as (t & St & Rt). cbn [m canon seq] in Rt.
  destruct (wr_lt_Some es i (head t, tail t)) as (es2 & We2); [eapply rd_Some_lt; eauto|].
  assert (Gi2 : rd es2 i = Some (head t, tail t)) by (rewrite (rd_wr _ _ _ _ i We2), N.eqb_refl; reflexivity).
  assert (Gj2 : rd es2 j = Some ei) by (rewrite (rd_wr _ _ _ _ j We2); destruct (N.eqb_spec j i); [congruence | exact Gj]).
  assert (Back : forall q e, rd es2 q = Some e -> wr es2 q e = Some es2).
  { intros q e Q. destruct (wr_lt_Some es2 q e) as (es3 & W3); [eapply rd_Some_lt; eauto|]. rewrite W3. f_equal.
    apply rd_ext; [exact (wr_len _ _ _ _ W3)|]. intros y _. rewrite (rd_wr _ _ _ _ y W3). destruct (N.eqb_spec y q) as [->|]; congruence. }
  exists s, {| ends := es; memory := memory s |}, {| ends := es2; memory := heap t |}. split; [exact E|].
  split; [cbn [p_step]; rewrite Rei, We; reflexivity|].
  split; [cbn [p_step ends memory]; rewrite Gi, St; unfold put_back; cbn [ends]; rewrite We2; reflexivity|].
  split.
  - destruct Rt as (T1 & T2 & T3 & T4 & T5). cbn [seq] in T1, T2, T3.
    cbn [p_step ends memory]. rewrite Gi2. cbn [l_step as_list heap head tail fst snd].
    match type of T5 with hrep _ _ (links ?y) => set (m' := y) in * end.
    assert (W : walk next (length (heap t)) (heap t) (head t) = Some r).
    { rewrite T3. refine (walk_next_ok (heap t) _ m' T5 _ _ r [] (length (heap t)) _ _); [exact T1 | exact T2 | reflexivity |].
      pose proof (NoDup_bound r _ T1 T2) as B. destruct T5 as (B2 & _). unfold len in *. lia. }
    rewrite W. cbn [ret]. unfold put_back. cbn [head tail heap ends as_list fst snd].
    match goal with |- context [wr ?a ?b ?c] => replace (wr a b c) with (Some es2) by (symmetry; apply Back; exact Gi2) end. reflexivity.
  - cbn [p_step ends memory]. rewrite Gj2. cbn [l_step as_list heap head tail].
    assert (Hh : fst ei = Some n) by (destruct Rr as (_ & _ & A & _); exact A).
    destruct ei as [a b]. cbn [fst snd] in *. subst a.
    assert (Ln : n < N.of_nat k) by (apply Rr; left; reflexivity).
    destruct Rt as (T1 & T2 & T3 & T4 & T5).
    assert (Gn : get (heap t) (Some n) = Some null_node).
    { rewrite (get_ok _ _ _ n T5 Ln). rewrite links_out.
      - cbn [loose]. unfold release. rewrite N.eqb_refl. reflexivity.
      - cbn [seq]. destruct Rr as (A & _). cbn in A. inversion A; subst. assumption. }
    assert (Lh : (1 <= length (heap t))%nat) by (destruct T5 as (B2 & _); unfold len in B2; lia).
    destruct (length (heap t)) as [|f]; [lia|]. cbn [walk]. rewrite Gn. cbn [null_node next].
    assert (W0 : walk next f (heap t) None = Some []) by (destruct f; reflexivity). rewrite W0. cbn [ret]. unfold put_back. cbn [head tail heap ends].
    match goal with |- context [wr ?a ?b ?c] => replace (wr a b c) with (Some es2) by (symmetry; apply Back; exact Gj2) end. reflexivity.
Qed.
Print Assumptions C92_assign_refuted.

(** FINDING: a list that is destroyed (or assigned an empty one) while it holds nodes does not
    let go of them: none of the two or more nodes it held can be put into any list again. *)
Theorem C92_destroyed_refuted : forall (c k : nat) ops ls outs i j l n op,
  spec_run (lists_step (N.of_nat k)) (repeat [] c) ops = Some (ls, outs) ->
  rd ls i = Some l -> In n l -> l <> [n] -> j < N.of_nat c ->
  op = LPushFront n \/ op = LPushBack n \/ (exists it, op = LInsert it n) ->
  exists s s1 s2, run (p_step Checked DoesNotReturn) (p_init c k) ops = Done s outs [] /\
    p_step Checked DoesNotReturn s (Fresh i) = Done s1 LUnit [] /\
    p_step Checked DoesNotReturn s1 (On i LEmpty) = Done s1 (LBool true) [] /\
    p_step Checked DoesNotReturn s1 (On j op) = Stopped s2 BadListNode.
Proof.
  intros c k ops ls outs i j l n op H Ri B NS Hj Ho. destruct (pool_run DoesNotReturn _ _ _ _ _ _ (pool_init c k) H) as (s & E & R).
  assert (LS : len ls = N.of_nat c) by exact (lists_len _ _ _ _ _ H). destruct R as [HL HM HR HD HF].
  destruct (rd_lt_Some (ends s) i) as (ei & Rei); [rewrite HL; eapply rd_Some_lt; eauto|].
  pose proof (HR _ _ _ Ri Rei) as Rr. assert (Hn : n < N.of_nat k) by (apply Rr; exact B).
  destruct (wr_lt_Some (ends s) i (None, None)) as (es & We); [eapply rd_Some_lt; eauto|].
  assert (Gi : rd es i = Some (None, None)) by (rewrite (rd_wr _ _ _ _ i We), N.eqb_refl; reflexivity).
  assert (U : unlinked (at_ (memory s) n) = false).
  { destruct (sole_or_two l n B) as [->|T]; [congruence|].
    rewrite (hrep_at (memory s) (N.of_nat k) (links (canon l (memory s))) n) by (solve [apply Rr] || exact Hn).
    unfold links. cbn [canon seq]. destruct (nbrs_two l n B) as (nd & E1 & E2); [apply Rr | exact T |]. rewrite E1. exact E2. }
  assert (Lj : exists e lj, rd es j = Some e /\ LRep (N.of_nat k) (as_list e (memory s)) (canon lj (memory s))).
  { rewrite (rd_wr _ _ _ _ j We). destruct (N.eqb_spec j i) as [->|].
    - exists (None, None), []. split; [reflexivity|]. split; [constructor|]. split; [intros ? []|]. split; [reflexivity|]. split; [reflexivity|].
      destruct Rr as (_ & _ & _ & _ & A & Q). split; [exact A|]. intros a La. unfold links, canon, at_. cbn [seq loose nbrs]. cbn [heap as_list] in *. rewrite (Q a La). reflexivity.
    - destruct (rd_lt_Some ls j) as (lj & Rj); [lia|]. destruct (rd_lt_Some (ends s) j) as (ej & Rej); [lia|]. exists ej, lj. split; [exact Rej|]. exact (HR _ _ _ Rj Rej). }
  destruct Lj as (e & lj & Gj & Rj).
  assert (At : links (canon lj (memory s)) n = at_ (memory s) n) by (symmetry; apply (hrep_at _ (N.of_nat k)); [apply Rj | exact Hn]).
  destruct (proj2 (insertion_panics _ _ _ n op Rj Hn Ho)) as (t & St); [rewrite At; exact U|].
  assert (We2 : wr es i (None, None) = Some es).
  { destruct (wr_lt_Some es i (None, None)) as (es3 & W3); [eapply rd_Some_lt; eauto|]. rewrite W3. f_equal.
    apply rd_ext; [exact (wr_len _ _ _ _ W3)|]. intros y _. rewrite (rd_wr _ _ _ _ y W3). destruct (N.eqb_spec y i) as [->|]; [symmetry; exact Gi | reflexivity]. }
  destruct (wr_lt_Some es j (head t, tail t)) as (es2 & W2); [eapply rd_Some_lt; eauto|].
  exists s, {| ends := es; memory := memory s |}, {| ends := es2; memory := heap t |}. split; [exact E|].
  split; [cbn [p_step]; rewrite We; reflexivity|]. split.
  - cbn [p_step ends memory]. rewrite Gi. cbn [l_step as_list head tail heap fst snd is_null]. unfold put_back. cbn [head tail heap ends]. match goal with |- context [wr ?a ?b ?c] => replace (wr a b c) with (Some es) by (symmetry; exact We2) end. reflexivity.
  - cbn [p_step ends memory]. rewrite Gj, St. unfold put_back. cbn [ends]. rewrite W2. reflexivity.
Qed.
Print Assumptions C92_destroyed_refuted.

(** Two lists and four nodes: nodes move between the lists. *)
Example C92_example :
  spec_run (lists_step 4) [[]; []]
    [On 0 (LPushBack 2); On 0 (LPushFront 1); On 1 (LPushBack 3); On 1 (LInsert (Some 3) 0); On 0 (LRemove 2); On 1 (LInsert None 2);
     On 0 LItems; On 1 LItems; On 1 LRItems; On 1 (LLinks 3); On 0 LPopFront; On 1 (LPushFront 1); On 0 LEmpty; On 1 LItems] =
  Some ([[]; [1; 0; 3; 2]],
    [LUnit; LUnit; LUnit; LUnit; LUnit; LUnit; LList [1]; LList [0; 3; 2]; LList [2; 3; 0]; LPair (Some 0) (Some 2); LNode 1; LUnit; LBool true; LList [1; 0; 3; 2]]) /\
  spec_run (lists_step 4) [[]; []] [On 0 (LPushBack 2); On 0 (LPushFront 1); On 1 (LPushBack 3)] = Some ([[1; 2]; [3]], [LUnit; LUnit; LUnit]) /\
  (* a list handed over to an empty one, which is then given back; a list renewed while empty *)
  spec_run (lists_step 4) [[]; []] [On 0 (LPushBack 2); On 0 (LPushFront 1); Swap 0 1; On 0 LItems; On 1 LItems; Fresh 0; On 0 (LPushBack 3); Swap 1 0; On 1 LItems] =
    Some ([[1; 2]; [3]], [LUnit; LUnit; LUnit; LList []; LList [1; 2]; LUnit; LUnit; LUnit; LList [3]]) /\
  (* a list dropped with nodes in it: its nodes are stuck *)
  (exists t, run (p_step Checked DoesNotReturn) (p_init 2 4) [On 0 (LPushBack 2); On 0 (LPushFront 1); Fresh 0; On 0 LEmpty; On 1 (LPushBack 2)] = Stopped t BadListNode) /\
  (* removing node 1 of list 0 through list 1: list 1 then shows node 2 *)
  run (p_step Checked Returns) (p_init 2 4) [On 0 (LPushBack 2); On 0 (LPushFront 1); On 1 (LPushBack 3); On 1 (LRemove 1); On 1 LItems; On 0 LItems] =
    Done {| ends := [(Some 1, Some 2); (Some 2, Some 3)];
            memory := [{| prev := None; next := None |}; {| prev := None; next := None |}; {| prev := None; next := None |}; {| prev := None; next := None |}] |}
      [LUnit; LUnit; LUnit; LUnit; LList [2]; LList [1]] [].
Proof. repeat split; try reflexivity. eexists. reflexivity. Qed.
