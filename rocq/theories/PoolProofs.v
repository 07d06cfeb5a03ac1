From Verif Require Import Base BaseLemmas IntrusiveListModel IntrusiveListSpec IntrusiveListProofs PoolModel PoolSpec.
Open Scope N_scope.

(** One list, seen from the whole memory: what a step does to the nodes outside. *)
Definition node_ok (m : lspec) (op : l_op) : Prop :=
  match op with
  | LPushFront n | LPushBack n | LInsert _ n => loose m n = null_node
  | LLinks n => In n (seq m) \/ loose m n = null_node
  | _ => True
  end.

Lemma ins_ok nodes m n : (n <? nodes) && negb (mem n (seq m)) = true -> loose m n = null_node ->
  insertable Checked nodes m n = true /\ ~ In n (seq m).
Proof.
  intros H L. apply andb_true_iff in H as (H1 & H2).
  assert (~ In n (seq m)) by (apply mem_not; apply negb_true_iff; exact H2). split; [|assumption].
  unfold insertable. rewrite H1, H2, L. reflexivity.
Qed.
Lemma pool_sim nodes m op l' o : NoDup (seq m) -> node_ok m op -> plain_step nodes (seq m) op = Some (l', o) ->
  exists m', seq_step Checked nodes m op = Some (m', o) /\ seq m' = l' /\
    (forall n, ~ In n (seq m) -> loose m' n = loose m n) /\
    (forall n, In n (seq m) -> ~ In n l' -> loose m' n = null_node) /\
    (forall n, In n l' -> In n (seq m) \/ is_insertion op n).
Proof.
  intros Hn Hk Hs. unfold is_insertion.
  destruct op as [n|n|it n| | |n| | | | | | |n]; cbn [plain_step seq_step node_ok] in *.
  - destruct ((n <? nodes) && negb (mem n (seq m))) eqn:Eo; [|discriminate]. injection Hs as <- <-.
    destruct (ins_ok _ _ _ Eo Hk) as (Ei & Hni). rewrite Ei. eexists. split; [reflexivity|]. cbn [seq loose].
    split; [reflexivity|]. split; [reflexivity|]. split; [intros k A B; exfalso; apply B; right; exact A|].
    intros k [->|A]; auto.
  - destruct ((n <? nodes) && negb (mem n (seq m))) eqn:Eo; [|discriminate]. injection Hs as <- <-.
    destruct (ins_ok _ _ _ Eo Hk) as (Ei & Hni). rewrite Ei. eexists. split; [reflexivity|]. cbn [seq loose].
    split; [reflexivity|]. split; [reflexivity|]. split; [intros k A B; exfalso; apply B; apply in_or_app; auto|].
    intros k A. apply in_app_or in A as [A|[->|[]]]; auto.
  - destruct it as [p|].
    + destruct ((n <? nodes) && negb (mem n (seq m))) eqn:Eo; [|discriminate].
      destruct (mem p (seq m)) eqn:Ep; [|discriminate]. cbn [andb] in Hs. injection Hs as <- <-.
      destruct (ins_ok _ _ _ Eo Hk) as (Ei & Hni). rewrite Ei. cbn [andb].
      eexists. split; [reflexivity|]. cbn [seq loose]. split; [reflexivity|]. split; [reflexivity|].
      apply mem_In in Ep. apply in_split in Ep as (A & B & El). rewrite El in *.
      rewrite insert_before_split by (apply NoDup_remove in Hn; rewrite in_app_iff in Hn; tauto). split.
      * intros k H1 H2. exfalso. apply H2. rewrite in_app_iff in *. cbn in *. tauto.
      * intros k H. rewrite in_app_iff in *. cbn in *. destruct H as [H|[->|H]]; auto. right; right; right. eauto.
    + destruct ((n <? nodes) && negb (mem n (seq m))) eqn:Eo; [|discriminate]. injection Hs as <- <-.
      destruct (ins_ok _ _ _ Eo Hk) as (Ei & Hni). rewrite Ei, Hk. cbn [andb null_node next is_null].
      assert (match seq m with [] => true | _ :: _ => true end = true) as -> by (destruct (seq m); reflexivity).
      eexists. split; [reflexivity|]. cbn [seq loose]. split; [reflexivity|]. split; [reflexivity|].
      split; [intros k A B; exfalso; apply B; apply in_or_app; auto|].
      intros k A. apply in_app_or in A as [A|[->|[]]]; auto. right; right; right. eauto.
  - destruct (seq m) as [|n r] eqn:El; [discriminate|]. injection Hs as <- <-. eexists. split; [reflexivity|]. cbn [seq loose].
    split; [reflexivity|]. unfold release. split; [|split].
    + intros k H. destruct (N.eqb_spec n k); [exfalso; apply H; left; assumption | reflexivity].
    + intros k [->|H] H2; [rewrite N.eqb_refl; reflexivity | contradiction].
    + intros k H. left. right. exact H.
  - destruct (last_snoc (seq m)) as [El|(r & n & El)]; rewrite El in *; [discriminate|]. rewrite rev_unit in *.
    injection Hs as <- <-. eexists. split; [reflexivity|]. cbn [seq loose]. rewrite rev_involutive.
    split; [reflexivity|]. unfold release. split; [|split].
    + intros k H. destruct (N.eqb_spec n k); [exfalso; apply H; apply in_or_app; right; left; assumption | reflexivity].
    + intros k H H2. apply in_app_or in H as [H|[->|[]]]; [contradiction | rewrite N.eqb_refl; reflexivity].
    + intros k H. left. apply in_or_app. auto.
  - destruct (mem n (seq m)) eqn:En; [|discriminate]. injection Hs as <- <-. eexists. split; [reflexivity|]. cbn [seq loose].
    split; [reflexivity|]. apply mem_In in En. unfold release. apply in_split in En as (A & B & El). rewrite El in *.
    assert (Hna : ~ In n A) by (apply NoDup_remove in Hn; rewrite in_app_iff in Hn; tauto). rewrite without_split by exact Hna.
    split; [|split].
    + intros k H. destruct (N.eqb_spec n k); [exfalso; apply H; subst; apply in_or_app; right; left; reflexivity | reflexivity].
    + intros k H H2. destruct (N.eqb_spec n k); [reflexivity|]. exfalso. rewrite in_app_iff in *. cbn in *. intuition congruence.
    + intros k H. left. rewrite in_app_iff in *. cbn. tauto.
  - injection Hs as <- <-. eexists. split; [reflexivity|]. cbn [seq loose]. split; [reflexivity|]. unfold release. split; [|split].
    + intros k H. apply mem_not in H. rewrite H. reflexivity.
    + intros k H _. apply mem_In in H. rewrite H. reflexivity.
    + intros k [].
  - injection Hs as <- <-. exists m. repeat split; auto; intros; contradiction.
  - destruct (seq m) as [|n r] eqn:El; [discriminate|]. injection Hs as <- <-. exists m. rewrite El. repeat split; auto; intros; contradiction.
  - destruct (rev (seq m)) as [|n r]; [discriminate|]. injection Hs as <- <-. exists m. repeat split; auto; intros; contradiction.
  - injection Hs as <- <-. exists m. repeat split; auto; intros; contradiction.
  - injection Hs as <- <-. exists m. repeat split; auto; intros; contradiction.
  - destruct (n <? nodes) eqn:En; [|discriminate]. injection Hs as <- <-. exists m. split; [|repeat split; auto; intros; contradiction].
    unfold links. destruct (nbrs None (seq m) n) as [nd|] eqn:Enb; [reflexivity|].
    destruct Hk as [Hk| ->]; [|reflexivity]. apply in_split in Hk as (l1 & l2 & El). rewrite El in *.
    rewrite nbrs_in in Enb; [discriminate|]. apply NoDup_remove in Hn. rewrite in_app_iff in Hn. tauto.
Qed.

(** The lists over one memory. *)
Definition at_ (h : list node) (n : N) : node := match rd h n with Some nd => nd | None => null_node end.
Definition canon (l : list N) (h : list node) : lspec := {| seq := l; loose := at_ h |}.
Record PoolRep (nodes : N) (s : pool) (ls : list (list N)) : Prop := {
  pr_len : len (ends s) = len ls;
  pr_mem : len (memory s) = nodes;
  pr_rep : forall i l e, rd ls i = Some l -> rd (ends s) i = Some e -> LRep nodes (as_list e (memory s)) (canon l (memory s));
  pr_dis : forall i j l l' n, rd ls i = Some l -> rd ls j = Some l' -> In n l -> In n l' -> i = j;
  pr_free : forall n, (forall i l, rd ls i = Some l -> ~ In n l) -> at_ (memory s) n = null_node }.

Lemma free_spec ls n : free ls n = true <-> forall i l, rd ls i = Some l -> ~ In n l.
Proof.
  unfold free. rewrite forallb_forall. split.
  - intros H i l R. rewrite rd_nth_error in R. apply nth_error_In in R. apply H in R. apply negb_true_iff in R. now apply mem_not.
  - intros H l I. apply negb_true_iff, mem_not. apply In_nth_error in I as (i & E). apply (H (N.of_nat i) l). rewrite rd_nth_error, Nat2N.id. exact E.
Qed.
Lemma hrep_at h nodes f n : hrep h nodes f -> n < nodes -> at_ h n = f n.
Proof. intros (_ & H) L. unfold at_. rewrite H by exact L. reflexivity. Qed.

Lemma canon_rep nodes s m : LRep nodes s m -> LRep nodes s (canon (seq m) (heap s)).
Proof.
  intros (A & B & C & D & E). repeat split; auto; cbn [seq canon]; [apply E|].
  intros n L. destruct E as (E1 & E2). rewrite (E2 n L). f_equal. unfold links, canon. cbn [seq loose].
  destruct (nbrs None (seq m) n) eqn:Q; [reflexivity|]. unfold at_. rewrite (E2 n L). unfold links. rewrite Q. reflexivity.
Qed.

(** Writing each of two cells with what the other held. *)
Definition other (i j k : N) : N := if k =? j then i else if k =? i then j else k.
Lemma swapped {A} (l l1 l2 : list A) i j a b : rd l i = Some a -> rd l j = Some b -> wr l i b = Some l1 -> wr l1 j a = Some l2 ->
  len l2 = len l /\ forall k, rd l2 k = rd l (other i j k).
Proof.
  intros Ra Rb W1 W2. split; [rewrite (wr_len _ _ _ _ W2); exact (wr_len _ _ _ _ W1)|]. intros k. unfold other.
  rewrite (rd_wr _ _ _ _ k W2), (rd_wr _ _ _ _ k W1). destruct (k =? j); [congruence|]. destruct (k =? i); congruence.
Qed.
Lemma other_inj i j k k' : other i j k = other i j k' -> k = k'.
Proof.
  unfold other. destruct (N.eqb_spec k j), (N.eqb_spec k' j), (N.eqb_spec k i), (N.eqb_spec k' i); congruence.
Qed.
Lemma other_other i j k : other i j (other i j k) = k.
Proof.
  unfold other. destruct (N.eqb_spec k j) as [->|]; [destruct (N.eqb_spec i j); [congruence|]; now rewrite N.eqb_refl|].
  destruct (N.eqb_spec k i) as [->|]; [now rewrite N.eqb_refl|]. apply N.eqb_neq in n, n0. now rewrite n, n0.
Qed.
Lemma pool_swap nodes s ls es' ls' i j : PoolRep nodes s ls ->
  (len es' = len (ends s) /\ forall k, rd es' k = rd (ends s) (other i j k)) -> (len ls' = len ls /\ forall k, rd ls' k = rd ls (other i j k)) ->
  PoolRep nodes {| ends := es'; memory := memory s |} ls'.
Proof.
  intros [HL HM HR HD HF] [E1 E2] [L1 L2]. constructor; cbn [ends memory].
  - congruence.
  - exact HM.
  - intros k l e Rl Re. rewrite L2 in Rl. rewrite E2 in Re. exact (HR _ _ _ Rl Re).
  - intros a b la lb n Ra Rb Ia Ib. rewrite L2 in Ra, Rb. apply (other_inj i j). exact (HD _ _ _ _ _ Ra Rb Ia Ib).
  - intros n H. apply HF. intros k l Rl. apply (H (other i j k)). rewrite L2, other_other. exact Rl.
Qed.

Lemma pool_step hd nodes s ls op ls' o : PoolRep nodes s ls -> lists_step nodes ls op = Some (ls', o) ->
  exists s', p_step Checked hd s op = Done s' o [] /\ PoolRep nodes s' ls'.
Proof.
  intros PR Hs. pose proof PR as [HL HM HR HD HF]. destruct op as [i op|j i|i j|i]; [|discriminate| |]; cbn [lists_step] in Hs.
  2: { destruct (rd ls i) as [li|] eqn:Ri; [|discriminate]. destruct (rd ls j) as [lj|] eqn:Rj; [|discriminate].
       destruct (wr ls i lj) as [ls1|] eqn:W1; [|discriminate]. destruct (wr ls1 j li) as [ls2|] eqn:W2; [|discriminate]. injection Hs as <- <-.
       destruct (rd_lt_Some (ends s) i) as (ei & Rei); [rewrite HL; eapply rd_Some_lt; eauto|].
       destruct (rd_lt_Some (ends s) j) as (ej & Rej); [rewrite HL; eapply rd_Some_lt; eauto|].
       destruct (wr_lt_Some (ends s) i ej) as (es1 & We1); [eapply rd_Some_lt; eauto|].
       destruct (wr_lt_Some es1 j ei) as (es2 & We2); [rewrite (wr_len _ _ _ _ We1); eapply rd_Some_lt; eauto|].
       cbn [p_step]. rewrite Rei, Rej, We1, We2. eexists. split; [reflexivity|].
       exact (pool_swap nodes s ls es2 ls2 i j PR (swapped _ _ _ i j _ _ Rei Rej We1 We2) (swapped _ _ _ i j _ _ Ri Rj W1 W2)). }
  2: { destruct (rd ls i) as [[|]|] eqn:Ri; try discriminate. injection Hs as <- <-.
       destruct (rd_lt_Some (ends s) i) as (ei & Rei); [rewrite HL; eapply rd_Some_lt; eauto|].
       cbn [p_step]. destruct (wr_lt_Some (ends s) i (None, None)) as (es & We); [eapply rd_Some_lt; eauto|]. rewrite We.
       eexists. split; [reflexivity|]. constructor; cbn [ends memory].
       - rewrite (wr_len _ _ _ _ We). exact HL.
       - exact HM.
       - intros k l e Rl Re. rewrite (rd_wr _ _ _ _ k We) in Re. destruct (N.eqb_spec k i) as [->|]; [|exact (HR _ _ _ Rl Re)].
         injection Re as <-. rewrite Ri in Rl. injection Rl as <-. destruct (HR _ _ _ Ri Rei) as (A & B & C & D & E).
         split; [exact A|]. split; [exact B|]. split; [reflexivity|]. split; [|exact E]. cbn. tauto.
       - exact HD.
       - exact HF. }
  destruct (rd ls i) as [l|] eqn:Rl; [|discriminate].
  assert (Re : exists e, rd (ends s) i = Some e) by (apply rd_lt_Some; rewrite HL; eapply rd_Some_lt; eauto).
  destruct Re as (e & Re). pose proof (HR i l e Rl Re) as R.
  set (m := canon l (memory s)) in *.
  assert (OK : node_ok m op /\ forall n, is_insertion op n -> free ls n = true).
  { unfold is_insertion. destruct op as [n|n|it n| | |n| | | | | | |n]; cbn [node_ok];
      try (split; [exact I|]; intros k [Q|[Q|(q & Q)]]; discriminate).
    1-3: destruct (free ls n) eqn:F; [|discriminate]; split; [apply HF, free_spec; exact F | intros k [Q|[Q|(q & Q)]]; congruence].
    destruct (mem n l || free ls n) eqn:F; [|discriminate]. split; [|intros k [Q|[Q|(q & Q)]]; discriminate].
    apply orb_true_iff in F as [F|F]; [left; now apply mem_In | right; apply HF, free_spec; exact F]. }
  destruct OK as (OK & FI).
  match type of Hs with (if ?c then _ else _) = _ => destruct c; [|discriminate] end.
  destruct (plain_step nodes l op) as [[l' x]|] eqn:P; [|discriminate].
  destruct (wr ls i l') as [ls1|] eqn:Wl; [|discriminate]. injection Hs as <- <-.
  assert (ND : NoDup (seq m)) by apply R.
  destruct (pool_sim nodes m op l' x ND OK P) as (m' & Sm & Em & Ho & Hg & Hi).
  destruct (l_step_ok Checked hd nodes _ _ _ _ _ R Sm) as (t & St & Rt).
  cbn [p_step]. rewrite Re, St. unfold put_back.
  destruct (wr_lt_Some (ends s) i (head t, tail t)) as (es & We); [rewrite HL; eapply rd_Some_lt; eauto|]. rewrite We.
  eexists. split; [reflexivity|].
  assert (Hm : forall n, n < nodes -> at_ (heap t) n = links m' n) by (intros n L; apply (hrep_at _ nodes); [apply Rt | exact L]).
  assert (Hat : forall n, at_ (memory s) n = links m n \/ ~ n < nodes).
  { intros n. destruct (N.lt_ge_cases n nodes) as [L|L]; [left | right; lia]. apply (hrep_at _ nodes); [apply R | exact L]. }
  assert (Out : forall n, ~ In n l -> ~ In n l' -> at_ (heap t) n = at_ (memory s) n).
  { intros n A B. destruct (N.lt_ge_cases n nodes) as [L|L].
    - rewrite Hm by exact L. rewrite (links_out m') by (rewrite Em; exact B). rewrite Ho by exact A. reflexivity.
    - unfold at_. rewrite !rd_ge_None; [reflexivity | | rewrite (proj1 (proj2 (proj2 (proj2 (proj2 Rt))))); exact L]. rewrite HM. exact L. }
  assert (Inl' : forall n k l2, In n l' -> rd ls k = Some l2 -> In n l2 -> k = i).
  { intros n k l2 A B C. destruct (Hi n A) as [Q|Q].
    - exact (HD k i l2 l n B Rl C Q).
    - apply FI in Q. rewrite free_spec in Q. exfalso. exact (Q k l2 B C). }
  assert (Rd : forall k, rd ls1 k = if k =? i then Some l' else rd ls k) by (intros k; apply (rd_wr _ _ _ _ k Wl)).
  constructor; cbn [ends memory].
  - rewrite (wr_len _ _ _ _ We), (wr_len _ _ _ _ Wl). exact HL.
  - apply Rt.
  - intros k lk ek Rk Rek. rewrite Rd in Rk. rewrite (rd_wr _ _ _ _ k We) in Rek.
    destruct (N.eqb_spec k i) as [->|ki].
    + injection Rk as <-. injection Rek as <-. apply canon_rep in Rt. rewrite Em in Rt. destruct t as [th tt hh]. exact Rt.
    + pose proof (HR k lk ek Rk Rek) as (A1 & A2 & A3 & A4 & A5). split; [exact A1|]. split; [exact A2|]. split; [exact A3|]. split; [exact A4|].
      cbn [as_list heap]. split; [apply Rt|]. intros n L. cbn [seq canon] in *.
      assert (E1 : rd (heap t) n = Some (at_ (heap t) n)).
      { unfold at_. destruct (rd (heap t) n) eqn:Q; [reflexivity|]. destruct (rd_lt_Some (heap t) n) as (y & Y); [|congruence]. rewrite (proj1 (proj2 (proj2 (proj2 (proj2 Rt))))). exact L. }
      rewrite E1. f_equal. unfold links. cbn [seq loose canon]. destruct (nbrs None lk n) as [nd|] eqn:Q; [|reflexivity].
      assert (Ink : In n lk). { destruct (in_dec N.eq_dec n lk) as [H|H]; [exact H|]. rewrite nbrs_out in Q by exact H. discriminate. }
      rewrite Out.
      * destruct A5 as (B1 & B2). specialize (B2 n L). cbn [as_list heap] in B2. unfold at_. rewrite B2. unfold links. cbn [seq canon]. rewrite Q. reflexivity.
      * intros H. apply ki. exact (HD k i lk l n Rk Rl Ink H).
      * intros H. apply ki. exact (Inl' n k lk H Rk Ink).
  - intros a b la lb n Ra Rb Ia Ib. rewrite Rd in Ra, Rb.
    destruct (N.eqb_spec a i) as [->|ai], (N.eqb_spec b i) as [->|bi]; auto.
    + injection Ra as <-. symmetry. exact (Inl' n b lb Ia Rb Ib).
    + injection Rb as <-. exact (Inl' n a la Ib Ra Ia).
    + exact (HD a b la lb n Ra Rb Ia Ib).
  - intros n H. assert (A : ~ In n l') by (apply (H i); rewrite Rd, N.eqb_refl; reflexivity).
    destruct (in_dec N.eq_dec n l) as [B|B].
    + assert (L : n < nodes) by (apply R; exact B). rewrite Hm by exact L. rewrite (links_out m') by (rewrite Em; exact A). apply Hg; [exact B | exact A].
    + rewrite Out by assumption. apply HF. intros k lk Rk C. destruct (N.eqb_spec k i) as [->|ki]; [rewrite Rl in Rk; injection Rk as <-; contradiction|].
      apply (H k lk); [|exact C]. rewrite Rd. apply N.eqb_neq in ki. rewrite ki. exact Rk.
Qed.

Lemma rd_repeat {A} (x : A) c i y : rd (repeat x c) i = Some y -> y = x.
Proof. rewrite rd_nth_error. intros H. apply nth_error_In, repeat_spec in H. exact H. Qed.
Lemma pool_init c k : PoolRep (N.of_nat k) (p_init c k) (repeat [] c).
Proof.
  assert (LK : len (repeat {| prev := None; next := None |} k) = N.of_nat k) by (unfold len; rewrite repeat_length; reflexivity).
  constructor; cbn [p_init ends memory].
  - unfold len. rewrite !repeat_length. reflexivity.
  - exact LK.
  - intros i l e Rl Re. apply rd_repeat in Rl, Re. subst. split; [constructor|]. split; [intros n []|]. split; [reflexivity|]. split; [reflexivity|].
    split; [exact LK|]. intros n L. cbn [as_list heap]. unfold links, canon. cbn [seq loose nbrs]. unfold at_.
    destruct (rd_lt_Some (repeat {| prev := None; next := None |} k) n) as (y & Y); [rewrite LK; exact L|]. rewrite Y. reflexivity.
  - intros i j l l' n Rl _ I. apply rd_repeat in Rl. subst. destruct I.
  - intros n _. unfold at_. destruct (rd _ n) eqn:Q; [|reflexivity]. apply rd_repeat in Q. subst. reflexivity.
Qed.
Lemma pool_run hd nodes ops : forall s ls ls' os, PoolRep nodes s ls -> spec_run (lists_step nodes) ls ops = Some (ls', os) ->
  exists s', run (p_step Checked hd) s ops = Done s' os [] /\ PoolRep nodes s' ls'.
Proof.
  induction ops as [|op ops IH]; intros s ls ls' os R; cbn [spec_run run].
  - intros E; injection E as <- <-. exists s. split; [reflexivity|exact R].
  - destruct (lists_step nodes ls op) as [[l1 o]|] eqn:E1; [|discriminate].
    destruct (spec_run (lists_step nodes) l1 ops) as [[l2 os']|] eqn:E2; [|discriminate].
    intros E; injection E as <- <-.
    destruct (pool_step hd nodes _ _ _ _ _ R E1) as (s1 & E3 & R1). rewrite E3.
    destruct (IH _ _ _ _ R1 E2) as (s2 & E4 & R2). rewrite E4. exists s2. split; [reflexivity|exact R2].
Qed.

(** Inserting a node panics exactly if one of its links is not null. *)
Lemma insertion_panics nodes s m n op : LRep nodes s m -> n < nodes -> is_insertion op n ->
  (exists t, l_step Checked DoesNotReturn s op = Stopped t BadListNode) <-> unlinked (links m n) = false.
Proof.
  intros (Hn & Hlt & Hh & Ht & HH) Hb Hi.
  assert (Hv : valid_for_push (heap s) (Some n) = Some (unlinked (links m n))).
  { unfold valid_for_push. rewrite (get_ok _ _ _ n HH Hb). reflexivity. }
  assert (W : forall body, (exists t, with_check Checked DoesNotReturn s n body = Stopped t BadListNode) <-> unlinked (links m n) = false).
  { intros body. unfold with_check. rewrite Hv. destruct (unlinked (links m n)).
    - split; [|discriminate]. intros (t & E). destruct body; discriminate.
    - split; [reflexivity|]. intros _. eauto. }
  destruct Hi as [->|[->|(it & ->)]]; cbn [l_step]; apply W.
Qed.
Lemma sole_or_two (l : list N) n : In n l -> l = [n] \/ 2 <= len l.
Proof. destruct l as [|a [|b l]]; [intros []|intros [->|[]]; auto|]. intros _. right. rewrite !len_cons. lia. Qed.
Lemma lists_len c nodes ops ls outs : spec_run (lists_step nodes) (repeat [] c) ops = Some (ls, outs) -> len ls = N.of_nat c.
Proof.
  assert (L0 : len (repeat (@nil N) c) = N.of_nat c) by (unfold len; rewrite repeat_length; reflexivity). rewrite <- L0.
  generalize (repeat (@nil N) c) as l0. clear. revert outs. induction ops as [|op ops IH]; intros outs l0; cbn [spec_run].
  - intros [= <- _]. reflexivity.
  - destruct (lists_step nodes l0 op) as [[l1 o]|] eqn:E1; [|discriminate].
    destruct (spec_run (lists_step nodes) l1 ops) as [[l2 os]|] eqn:E2; [|discriminate]. intros [= <- _].
    rewrite (IH _ _ E2). destruct op as [i op|j i|i j|i]; [|discriminate| |]; cbn [lists_step] in E1.
    2: { destruct (rd l0 i) as [li|]; [|discriminate]. destruct (rd l0 j) as [lj|]; [|discriminate]. destruct (wr l0 i lj) as [x|] eqn:W1; [|discriminate].
         destruct (wr x j li) as [y|] eqn:W2; [|discriminate]. injection E1 as <- _. rewrite (wr_len _ _ _ _ W2). exact (wr_len _ _ _ _ W1). }
    2: { destruct (rd l0 i) as [[|]|]; try discriminate. now injection E1 as <- _. }
    destruct (rd l0 i); [|discriminate].
    match type of E1 with (if ?c then _ else _) = _ => destruct c; [|discriminate] end.
    destruct (plain_step nodes l op) as [[l' x]|]; [|discriminate]. destruct (wr l0 i l') eqn:W; [|discriminate]. injection E1 as <- _.
    exact (wr_len _ _ _ _ W).
Qed.
