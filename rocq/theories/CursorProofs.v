From Verif Require Import Base BaseLemmas IntrusiveListModel IntrusiveListSpec IntrusiveListProofs CursorModel CursorSpec.
Open Scope N_scope.

Lemma after_nbrs l n : forall p, after n l = match nbrs p l n with Some nd => next nd | None => None end.
Proof. induction l as [|x r IH]; intros p; cbn; [reflexivity|]. destruct (x =? n); [reflexivity | apply IH]. Qed.
Lemma after_links l m n : PRep l m -> next (links m n) = after n l.
Proof.
  intros (E & Hn & Hl). rewrite (after_nbrs l n None). unfold links. rewrite E. destruct (nbrs None l n) as [nd|] eqn:X; [reflexivity|].
  rewrite Hl; [reflexivity|]. intros Hin. apply in_split in Hin as (l1 & l2 & El). rewrite El in *.
  rewrite nbrs_in in X; [discriminate|]. apply NoDup_remove in Hn. rewrite in_app_iff in Hn. tauto.
Qed.
Lemma after_in l n q : after n l = Some q -> In q l.
Proof.
  induction l as [|x r IH]; cbn; [discriminate|]. destruct (x =? n); [|intros H; right; auto].
  destruct r as [|y r]; [discriminate|]. intros [= ->]. right; left; reflexivity.
Qed.

Record CRep (nodes : N) (s : walker) (l : list N) (c : list (option N)) : Prop := {
  cr_rep : exists m, LRep nodes (lst s) m /\ PRep l m;
  cr_its : its s = c;
  cr_in : forall k n, rd c k = Some (Some n) -> n < nodes }.

Lemma on_list_ok hd nodes s l c op l' x : CRep nodes s l c -> plain_step nodes l op = Some (l', x) ->
  exists s', on_list Checked hd s op = Done s' (Out x) [] /\ CRep nodes s' l' c.
Proof.
  intros [(m & R & P) HI HN] H. destruct (plain_sim _ _ _ _ _ _ P H) as (m' & S & P').
  destruct (l_step_ok Checked hd _ _ _ _ _ _ R S) as (t & E & R'). unfold on_list. rewrite E.
  eexists. split; [reflexivity|]. split; cbn; eauto.
Qed.
Lemma set_it_ok nodes s l c k p o c' : CRep nodes s l c -> (forall n, p = Some n -> n < nodes) -> wr c k p = Some c' ->
  exists s', set_it s k p o = Done s' o [] /\ CRep nodes s' l c'.
Proof.
  intros [R HI HN] Hp W. unfold set_it. rewrite HI, W. eexists. split; [reflexivity|]. split; cbn; [exact R | reflexivity |].
  intros q n. rewrite (rd_wr _ _ _ _ q W). destruct (q =? k); [intros [= E]; auto | apply HN].
Qed.
Lemma cursor_ok hd nodes s l c op l' c' o : CRep nodes s l c -> cursor_step nodes (l, c) op = Some ((l', c'), o) ->
  exists s', c_step Checked hd s op = Done s' o [] /\ CRep nodes s' l' c'.
Proof.
  intros HR H. pose proof HR as [(m & R & P) HI HN]. pose proof R as (Rn & Rlt & Rh & Rt & RH). pose proof P as (PE & PN & PL).
  assert (Nx : forall n, n < nodes -> get (heap (lst s)) (Some n) = Some (links m n)) by (intros n Hn; exact (get_ok _ _ _ n RH Hn)).
  assert (Af : forall n q, after n l = Some q -> q < nodes) by (intros n q A; apply Rlt; rewrite PE; eapply after_in; eauto).
  destruct op as [op|k|k|k i|k|k|k|k i|k n]; cbn [cursor_step c_step] in *.
  - destruct (plain_step nodes l op) as [[l1 x]|] eqn:E; [|discriminate]. injection H as <- <- <-. eapply on_list_ok; eauto.
  - destruct (wr c k (hd_error l)) as [a|] eqn:W; [|discriminate]. injection H as <- <- <-. rewrite Rh, PE.
    eapply set_it_ok; eauto. intros n Hn. apply Rlt. rewrite PE. destruct l; [discriminate|]. injection Hn as ->. left; reflexivity.
  - destruct (wr c k None) as [a|] eqn:W; [|discriminate]. injection H as <- <- <-. eapply set_it_ok; eauto. discriminate.
  - rewrite HI. destruct (rd c i) as [p|] eqn:Ei; [|discriminate]. destruct (wr c k p) as [a|] eqn:W; [|discriminate]. injection H as <- <- <-.
    eapply set_it_ok; eauto. intros n ->. eapply HN; eauto.
  - rewrite HI. destruct (rd c k) as [[n|]|] eqn:Ei; try discriminate. injection H as <- <- <-.
    rewrite (Nx n) by (eapply HN; eauto). eauto.
  - rewrite HI. destruct (rd c k) as [[n|]|] eqn:Ei; try discriminate. destruct (wr c k (after n l)) as [a|] eqn:W; [|discriminate].
    injection H as <- <- <-. rewrite (Nx n) by (eapply HN; eauto). rewrite (after_links l m n P). eapply set_it_ok; eauto.
  - rewrite HI. destruct (rd c k) as [[n|]|] eqn:Ei; try discriminate. destruct (wr c k (after n l)) as [a|] eqn:W; [|discriminate].
    injection H as <- <- <-. rewrite (Nx n) by (eapply HN; eauto). rewrite (after_links l m n P). eapply set_it_ok; eauto.
  - rewrite HI. destruct (rd c k) as [a|] eqn:Ea; [|discriminate]. destruct (rd c i) as [b|] eqn:Eb; [|discriminate].
    injection H as <- <- <-. exists s. split; [reflexivity | exact HR].
  - rewrite HI. destruct (rd c k) as [p|] eqn:Ei; [|discriminate].
    destruct (plain_step nodes l (LInsert p n)) as [[l1 x]|] eqn:E; [|discriminate]. injection H as <- <- <-. eapply on_list_ok; eauto.
Qed.
Lemma cursor_run hd nodes ops : forall s l c l' c' os, CRep nodes s l c -> spec_run (cursor_step nodes) (l, c) ops = Some ((l', c'), os) ->
  exists s', run (c_step Checked hd) s ops = Done s' os [] /\ CRep nodes s' l' c'.
Proof.
  induction ops as [|op ops IH]; intros s l c l' c' os HR; cbn [spec_run run].
  - intros [= <- <- <-]. eauto.
  - destruct (cursor_step nodes (l, c) op) as [[[l1 c1] o]|] eqn:E1; [|discriminate].
    destruct (spec_run (cursor_step nodes) (l1, c1) ops) as [[[l2 c2] os']|] eqn:E2; [|discriminate]. intros [= <- <- <-].
    destruct (cursor_ok hd _ _ _ _ _ _ _ _ HR E1) as (s1 & E3 & HR1). rewrite E3.
    destruct (IH _ _ _ _ _ _ HR1 E2) as (s2 & E4 & HR2). rewrite E4. eauto.
Qed.
Lemma cursor_init k j : CRep (N.of_nat k) {| lst := l_init (repeat null_node k); its := repeat None j |} [] (repeat None j).
Proof.
  split; cbn; [|reflexivity|].
  - exists (l_spec_init (repeat null_node k)). split; [|apply plain_init].
    pose proof (l_init_rep (repeat null_node k)) as H. unfold len in H. rewrite repeat_length in H. exact H.
  - intros i n H. rewrite rd_nth_error in H. apply nth_error_In, repeat_spec in H. discriminate.
Qed.

(** ** Loops *)
Lemma without_app n A B : ~ In n A -> without n (A ++ n :: B) = A ++ B.
Proof. apply without_split. Qed.
Lemma items_ok pol hd nodes s m : LRep nodes s m -> l_step pol hd s LItems = Done s (LList (seq m)) [].
Proof.
  intros R. destruct (l_step_ok pol hd _ _ _ LItems _ _ R eq_refl) as (t & E & _). rewrite E.
  cbn [l_step] in E. destruct (walk next (length (heap s)) (heap s) (head s)) as [w|]; [|discriminate]. cbn [ret] in E. congruence.
Qed.
Lemma NoDup_mid {A} (l1 : list A) n l2 : NoDup (l1 ++ n :: l2) -> ~ In n l1 /\ ~ In n l2.
Proof. intros H. apply NoDup_remove in H. rewrite in_app_iff in H. tauto. Qed.

Lemma remove_step pol hd nodes s m A n B : LRep nodes s m -> seq m = A ++ n :: B ->
  exists s', l_step pol hd s (LRemove n) = Done s' LUnit [] /\
    LRep nodes s' {| seq := A ++ B; loose := release pol m (N.eqb n) |}.
Proof.
  intros R E. assert (F : ~ In n A) by (destruct R as (Hn & _); rewrite E in Hn; apply NoDup_mid in Hn; tauto).
  destruct (l_step_ok pol hd _ _ _ (LRemove n) {| seq := A ++ B; loose := release pol m (N.eqb n) |} LUnit R) as (t & S & R'); eauto.
  cbn [seq_step]. assert (M : mem n (seq m) = true) by (apply mem_In; rewrite E; apply in_or_app; right; left; reflexivity).
  rewrite M, E, without_app by exact F. reflexivity.
Qed.
Lemma next_ok nodes s m A n B : LRep nodes s m -> seq m = A ++ n :: B ->
  exists nd, get (heap s) (Some n) = Some nd /\ next nd = hd_error B.
Proof.
  intros (Hn & Hlt & _ & _ & HH) E. assert (L : n < nodes) by (apply Hlt; rewrite E; apply in_or_app; right; left; reflexivity).
  rewrite (get_ok _ _ _ n HH L). eexists. split; [reflexivity|]. rewrite E in Hn. apply NoDup_mid in Hn.
  rewrite (links_in m A n B E) by tauto. reflexivity.
Qed.

(** A removal, and what the removed node's next is afterwards. *)
Lemma removed_next pol hd nodes s m A n B s' : LRep nodes s m -> seq m = A ++ n :: B -> l_step pol hd s (LRemove n) = Done s' LUnit [] ->
  exists nd, get (heap s') (Some n) = Some nd /\ next nd = match pol with Checked => None | Unchecked => hd_error B end.
Proof.
  intros R E S. destruct (remove_step pol hd _ _ _ _ _ _ R E) as (t & S' & R'). rewrite S in S'. injection S' as <-.
  pose proof R as (Hn & Hlt & _ & _ & _). assert (L : n < nodes) by (apply Hlt; rewrite E; apply in_or_app; right; left; reflexivity).
  destruct R' as (_ & _ & _ & _ & HH). rewrite (get_ok _ _ _ n HH L). eexists. split; [reflexivity|].
  rewrite E in Hn. apply NoDup_mid in Hn. rewrite links_out by (cbn; rewrite in_app_iff; tauto). cbn [loose]. unfold release.
  rewrite N.eqb_refl. destruct pol; [reflexivity|]. rewrite (links_in m A n B E) by tauto. reflexivity.
Qed.

Lemma erase_loop t pol hd nodes p : t = Early \/ pol = Unchecked -> forall B s m A,
  LRep nodes s m -> seq m = A ++ B ->
  exists s' m', loop t pol hd (erase p) (length B) s (hd_error B) = Finished B s' /\
    LRep nodes s' m' /\ seq m' = A ++ filter (fun n => negb (p n)) B /\
    run (l_step pol hd) s (map LRemove (filter p B)) = Done s' (map (fun _ => LUnit) (filter p B)) [].
Proof.
  intros T. induction B as [|n B IH]; intros s m A R E.
  - exists s, m. cbn. repeat split; try reflexivity; try apply R. exact E.
  - destruct (next_ok _ _ _ _ _ _ R E) as (nd & G & Nx). cbn [length hd_error loop filter]. change (erase p n) with (if p n then [LRemove n] else []). destruct (p n) eqn:P; cbn [negb].
    + destruct (remove_step pol hd _ _ _ _ _ _ R E) as (s1 & S & R1). destruct (IH s1 _ A R1 eq_refl) as (s2 & m2 & L & R2 & E2 & Rn).
      exists s2, m2. cbn [map run]. rewrite S, G. cbn [app]. split; [|split; [exact R2|]; split; [exact E2|]; rewrite Rn; reflexivity].
      destruct t.
      * rewrite Nx, L. reflexivity.
      * destruct T as [T|T]; [discriminate|]. destruct (removed_next _ _ _ _ _ _ _ _ _ R E S) as (nd' & G' & N'). rewrite G', N', T in *. cbn in *. rewrite L. reflexivity.
    + destruct (IH s m (A ++ [n]) R) as (s2 & m2 & L & R2 & E2 & Rn); [rewrite <- app_assoc; exact E|].
      exists s2, m2. cbn [run]. rewrite G, Nx. split; [|split; [exact R2|]; split; [rewrite E2, <- app_assoc; reflexivity | exact Rn]].
      destruct t; rewrite L; reflexivity.
Qed.

Lemma erase_late hd nodes p n l2 s m : forall l1 A, LRep nodes s m -> seq m = A ++ l1 ++ n :: l2 ->
  (forall x, In x l1 -> p x = false) -> p n = true ->
  exists s' m', loop Late Checked hd (erase p) (length (l1 ++ n :: l2)) s (hd_error (l1 ++ n :: l2)) = Finished (l1 ++ [n]) s' /\
    LRep nodes s' m' /\ seq m' = A ++ l1 ++ l2.
Proof.
  induction l1 as [|x l1 IH]; intros A R E H P.
  - cbn [app length hd_error loop] in *. change (erase p n) with (if p n then [LRemove n] else []). rewrite P. cbn [run].
    destruct (remove_step Checked hd _ _ _ _ _ _ R E) as (s1 & S & R1). rewrite S. cbn [app].
    destruct (removed_next _ _ _ _ _ _ _ _ _ R E S) as (nd & G & Nx). rewrite G, Nx.
    exists s1. eexists. split; [destruct (length l2); reflexivity|]. split; [exact R1 | reflexivity].
  - cbn [app length hd_error loop]. change (erase p x) with (if p x then [LRemove x] else []). rewrite (H x (or_introl eq_refl)). cbn [run].
    destruct (next_ok nodes s m A x (l1 ++ n :: l2) R E) as (nd & G & Nx). rewrite G, Nx.
    destruct (IH (A ++ [x]) R) as (s' & m' & L & R' & E'); auto.
    { rewrite <- app_assoc. exact E. } { intros y Hy. apply H. right; exact Hy. }
    exists s', m'. rewrite L. split; [reflexivity|]. split; [exact R'|]. rewrite E', <- app_assoc. reflexivity.
Qed.

Lemma append_run pol hd nodes ks : forall s m, LRep nodes s m -> NoDup (seq m ++ ks) ->
  (forall k, In k ks -> k < nodes /\ unlinked (loose m k) = true) ->
  exists s', run (l_step pol hd) s (map LPushBack ks) = Done s' (map (fun _ => LUnit) ks) [] /\
    LRep nodes s' {| seq := seq m ++ ks; loose := loose m |}.
Proof.
  induction ks as [|k ks IH]; intros s m R Hn H.
  - exists s. split; [reflexivity|]. rewrite app_nil_r. destruct m. exact R.
  - destruct (l_step_ok pol hd _ _ _ (LPushBack k) {| seq := seq m ++ [k]; loose := loose m |} LUnit R) as (s1 & S & R1).
    { cbn [seq_step]. destruct (H k (or_introl eq_refl)) as (H1 & H2). assert (I : insertable pol nodes m k = true).
      { unfold insertable. apply N.ltb_lt in H1. rewrite H1, H2. assert (M : mem k (seq m) = false) by (apply mem_not; apply NoDup_mid in Hn; tauto).
        rewrite M. destruct pol; reflexivity. }
      rewrite I. reflexivity. }
    destruct (IH s1 _ R1) as (s2 & Rn & R2).
    { cbn. rewrite <- app_assoc. exact Hn. } { intros j Hj. apply H. right; exact Hj. }
    exists s2. cbn [map run]. rewrite S, Rn. split; [reflexivity|]. cbn [seq loose] in R2. rewrite <- app_assoc in R2. exact R2.
Qed.
Lemma append_loop pol hd nodes kids pending all : queue kids pending all -> forall s m A, LRep nodes s m ->
  seq m = A ++ pending -> NoDup (A ++ all) -> (forall k, In k all -> In k pending \/ (k < nodes /\ unlinked (loose m k) = true)) ->
  exists s' m', loop Late pol hd (append kids) (length all) s (hd_error pending) = Finished all s' /\ LRep nodes s' m' /\ seq m' = A ++ all.
Proof.
  induction 1 as [|x pending all Q IH]; intros s m A R E Hn H.
  - exists s, m. split; [reflexivity|]. split; [exact R | exact E].
  - assert (Inc : forall k, In k (kids x) -> In k all).
    { clear - Q. assert (G : forall l f, queue kids l f -> forall k, In k l -> In k f).
      { induction 1 as [|y pe al _ IH]; [intros k []|]. intros k [->|Hk]; [left; reflexivity | right; apply IH; apply in_or_app; auto]. }
      intros k Hk. eapply G; eauto. apply in_or_app; auto. }
    assert (Dis : NoDup (seq m ++ kids x)).
    { rewrite E. clear - Q Hn. assert (G : forall l f, queue kids l f -> exists g, f = l ++ g).
      { induction 1 as [|y pe al _ (g & ->)]; [exists []; reflexivity | exists (kids y ++ g); cbn; rewrite app_assoc; reflexivity]. }
      apply G in Q as (g & ->). rewrite <- !app_assoc. cbn [app]. rewrite <- app_assoc in Hn.
      replace (A ++ x :: pending ++ kids x ++ g) with ((A ++ x :: pending ++ kids x) ++ g) in Hn by (rewrite <- app_assoc; cbn; rewrite <- app_assoc; reflexivity).
      clear - Hn. revert Hn. generalize (A ++ x :: pending ++ kids x) as u. intros u. induction u as [|a u IH]; cbn; intros Hn; [constructor|].
      inversion Hn; subst. constructor; [|apply IH; assumption]. intros K. apply H1. apply in_or_app; auto. }
    destruct (append_run pol hd nodes (kids x) s m R Dis) as (s1 & Rn & R1).
    { intros k Hk. destruct (H k (or_intror (Inc k Hk))) as [F|F]; [|exact F]. exfalso.
      assert (In k (seq m)) by (rewrite E; apply in_or_app; right; exact F). apply in_split in Hk as (u & v & Ek). rewrite Ek in Dis.
      rewrite app_assoc in Dis. apply NoDup_mid in Dis. rewrite in_app_iff in Dis. tauto. }
    cbn [length hd_error loop]. change (append kids x) with (map LPushBack (kids x)). rewrite Rn.
    assert (E1 : seq m ++ kids x = A ++ x :: (pending ++ kids x)) by (rewrite E, <- app_assoc; reflexivity).
    destruct (next_ok nodes s1 _ A x (pending ++ kids x) R1 E1) as (nd & G & Nx). rewrite G, Nx.
    destruct (IH s1 _ (A ++ [x]) R1) as (s' & m' & L & R' & E').
    + cbn [seq]. rewrite E1, <- app_assoc. reflexivity.
    + rewrite <- app_assoc. exact Hn.
    + intros k Hk. cbn [loose]. destruct (H k (or_intror Hk)) as [[->|F]|F]; [|left; apply in_or_app; auto | right; exact F].
      exfalso. apply NoDup_mid in Hn. tauto.
    + exists s', m'. rewrite L. split; [reflexivity|]. split; [exact R'|]. rewrite E', <- app_assoc. reflexivity.
Qed.
