From Verif Require Import Base BaseLemmas IntrusiveListModel IntrusiveListSpec.
Open Scope N_scope.

(** ** Pointwise heaps *)
Definition upd_prev (v : ptr) (nd : node) := {| prev := v; next := next nd |}.
Definition upd_next (v : ptr) (nd : node) := {| prev := prev nd; next := v |}.

Definition hrep (h : list node) (nodes : N) (f : N -> node) : Prop :=
  len h = nodes /\ forall a, a < nodes -> rd h a = Some (f a).
Definition fupd (f : N -> node) (a : N) (nd : node) : N -> node :=
  fun b => if N.eqb b a then nd else f b.

Lemma get_ok h nodes f a : hrep h nodes f -> a < nodes -> get h (Some a) = Some (f a).
Proof. intros (H1 & H2) Ha. cbn. apply H2. exact Ha. Qed.

Lemma put_ok h nodes f a g : hrep h nodes f -> a < nodes ->
  exists h', put h (Some a) g = Some h' /\ hrep h' nodes (fupd f a (g (f a))).
Proof.
  intros (H1 & H2) Ha. cbn. rewrite (H2 a Ha).
  destruct (wr_lt_Some h a (g (f a))) as (h' & E); [lia|]. rewrite E. exists h'. split; [reflexivity|].
  split; [rewrite (wr_len _ _ _ _ E); exact H1|]. intros b Hb. rewrite (rd_wr _ _ _ _ b E).
  unfold fupd. destruct (N.eqb b a); [reflexivity|]. apply H2. exact Hb.
Qed.

Lemma set_prev_ok h nodes f a v : hrep h nodes f -> a < nodes ->
  exists h', set_prev h (Some a) v = Some h' /\ hrep h' nodes (fupd f a (upd_prev v (f a))).
Proof. intros H Ha. exact (put_ok h nodes f a _ H Ha). Qed.
Lemma set_next_ok h nodes f a v : hrep h nodes f -> a < nodes ->
  exists h', set_next h (Some a) v = Some h' /\ hrep h' nodes (fupd f a (upd_next v (f a))).
Proof. intros H Ha. exact (put_ok h nodes f a _ H Ha). Qed.

Lemma hrep_ext h nodes f g : (forall a, a < nodes -> f a = g a) -> hrep h nodes f -> hrep h nodes g.
Proof. intros E (H1 & H2). split; [exact H1|]. intros a Ha. rewrite <- E by exact Ha. apply H2. exact Ha. Qed.

Lemma nullb (p : ptr) : (p = None /\ is_null p = true) \/ (exists a, p = Some a /\ is_null p = false).
Proof. destruct p; [right; eauto|left; auto]. Qed.

(** ** Sequences *)
Definition peq (p : ptr) (a : N) : bool := match p with Some b => N.eqb a b | None => false end.

Lemma mem_In n l : mem n l = true <-> In n l.
Proof.
  unfold mem. rewrite existsb_exists. split.
  - intros (x & Hx & E). apply N.eqb_eq in E. subst. exact Hx.
  - intros H. exists n. split; [exact H|apply N.eqb_refl].
Qed.
Lemma mem_not n l : mem n l = false <-> ~ In n l.
Proof. rewrite <- mem_In. destruct (mem n l); split; congruence. Qed.

Lemma nbrs_out p l n : ~ In n l -> nbrs p l n = None.
Proof.
  revert p. induction l as [|x l IH]; intros p H; cbn; [reflexivity|].
  destruct (N.eqb_spec x n); [exfalso; apply H; left; assumption|].
  apply IH. intros Hn. apply H. right. exact Hn.
Qed.

Lemma nbrs_in p l1 n l2 : ~ In n l1 ->
  nbrs p (l1 ++ n :: l2) n = Some {| prev := last_or p l1; next := hd_error l2 |}.
Proof.
  revert p. induction l1 as [|x l1 IH]; intros p H; cbn [app nbrs last_or fold_left].
  - rewrite N.eqb_refl. reflexivity.
  - destruct (N.eqb_spec x n); [exfalso; apply H; left; assumption|].
    apply IH. intros Hn. apply H. right. exact Hn.
Qed.

Lemma hd_error_app_cons {A} (l1 : list A) x l2 :
  hd_error (l1 ++ x :: l2) = match l1 with [] => Some x | y :: _ => Some y end.
Proof. destruct l1; reflexivity. Qed.

Lemma last_or_snoc p l x : last_or p (l ++ [x]) = Some x.
Proof. unfold last_or. rewrite fold_left_app. reflexivity. Qed.
Lemma last_or_cons p x l : last_or p (x :: l) = last_or (Some x) l.
Proof. reflexivity. Qed.
Lemma last_or_ne p q x l : last_or p (x :: l) = last_or q (x :: l).
Proof. reflexivity. Qed.

Lemma last_or_in p l b : last_or p l = Some b -> l <> [] -> In b l.
Proof.
  destruct l as [|x l] using rev_ind; [congruence|]. rewrite last_or_snoc. intros E _.
  injection E as <-. apply in_or_app. right. left. reflexivity.
Qed.
Lemma last_or_notin p l c : ~ In c l -> l <> [] -> peq (last_or p l) c = false.
Proof.
  intros Hc Hl. destruct (last_or p l) as [b|] eqn:E; [|reflexivity]. cbn.
  apply last_or_in in E; [|exact Hl]. destruct (N.eqb_spec c b); [subst; tauto|reflexivity].
Qed.

(** Inserting [n] between [A] and [B] changes only the neighbours of the cut. *)
Lemma splice n A : forall p B c, NoDup (A ++ B) -> c <> n ->
  nbrs p (A ++ n :: B) c =
  match nbrs p (A ++ B) c with
  | None => None
  | Some nd => Some {| prev := if peq (hd_error B) c then Some n else prev nd;
                       next := if peq (last_or None A) c then Some n else next nd |}
  end.
Proof.
  induction A as [|x A IH]; intros p B c Hn Hc; cbn [app nbrs].
  - destruct (N.eqb_spec n c); [congruence|]. destruct B as [|b B]; [reflexivity|].
    cbn [app nbrs hd_error peq last_or fold_left]. rewrite (N.eqb_sym c b). cbn [app] in Hn.
    inversion Hn as [|b' B' Hb HB]; subst b' B'.
    destruct (N.eqb_spec b c) as [->|Hbc]; [reflexivity|].
    destruct (nbrs (Some b) B c) as [[pp nn]|]; reflexivity.
  - cbn [app] in Hn. inversion Hn as [|x' A' Hx HA]; subst x' A'.
    destruct (N.eqb_spec x c) as [->|Hxc].
    + (* c is the head *)
      assert (HB : peq (hd_error B) c = false).
      { destruct B as [|b B]; [reflexivity|]. cbn. destruct (N.eqb_spec c b); [|reflexivity].
        subst. exfalso. apply Hx. apply in_or_app. right. left. reflexivity. }
      cbn [prev next]. rewrite HB. f_equal. f_equal. destruct A as [|a A].
      * cbn. rewrite N.eqb_refl. reflexivity.
      * cbn [app hd_error]. rewrite last_or_cons.
        rewrite (last_or_notin (Some c) (a :: A) c); [reflexivity| |discriminate].
        intros H. apply Hx. apply in_or_app. left. exact H.
    + rewrite (IH (Some x) B c HA Hc).
      destruct (nbrs (Some x) (A ++ B) c) as [nd|] eqn:E; [|reflexivity].
      f_equal. f_equal. destruct A as [|a A].
      * cbn. destruct (N.eqb_spec c x); [congruence|reflexivity].
      * reflexivity.
Qed.

Lemma nbrs_last p A c : NoDup A -> peq (last_or None A) c = true ->
  exists pv, nbrs p A c = Some {| prev := pv; next := None |}.
Proof.
  intros Hn. destruct A as [|x A] using rev_ind; [discriminate|].
  rewrite last_or_snoc. cbn. intros E. apply N.eqb_eq in E. subst c.
  apply NoDup_remove in Hn. rewrite app_nil_r in Hn.
  rewrite nbrs_in by tauto. eexists. reflexivity.
Qed.

(** The converse: what the neighbours become when [n] is taken out. *)
Lemma unsplice n A : forall p B c, NoDup (A ++ n :: B) -> c <> n ->
  nbrs p (A ++ B) c =
  match nbrs p (A ++ n :: B) c with
  | None => None
  | Some nd => Some {| prev := if peq (hd_error B) c then last_or p A else prev nd;
                       next := if peq (last_or None A) c then hd_error B else next nd |}
  end.
Proof.
  induction A as [|x A IH]; intros p B c Hn Hc; cbn [app nbrs].
  - destruct (N.eqb_spec n c); [congruence|]. destruct B as [|b B]; [reflexivity|].
    cbn [app nbrs hd_error peq last_or fold_left]. rewrite (N.eqb_sym c b).
    destruct (N.eqb_spec b c) as [->|Hbc]; [reflexivity|].
    destruct (nbrs (Some b) B c) as [[pp nn]|]; reflexivity.
  - cbn [app] in Hn. inversion Hn as [|x' A' Hx HA]; subst x' A'.
    destruct (N.eqb_spec x c) as [->|Hxc].
    + assert (HB : peq (hd_error B) c = false).
      { destruct B as [|b B]; [reflexivity|]. cbn. destruct (N.eqb_spec c b); [|reflexivity].
        subst. exfalso. apply Hx. apply in_or_app. right. right. left. reflexivity. }
      cbn [prev next]. rewrite HB. f_equal. f_equal. destruct A as [|a A].
      * cbn. rewrite N.eqb_refl. reflexivity.
      * cbn [app hd_error]. rewrite last_or_cons.
        rewrite (last_or_notin (Some c) (a :: A) c); [reflexivity| |discriminate].
        intros H. apply Hx. apply in_or_app. left. exact H.
    + rewrite (IH (Some x) B c HA Hc).
      destruct (nbrs (Some x) (A ++ n :: B) c) as [nd|] eqn:E; [|reflexivity].
      f_equal. f_equal. destruct A as [|a A].
      * cbn. destruct (N.eqb_spec c x); [congruence|reflexivity].
      * reflexivity.
Qed.

(** ** Representation *)
Definition LRep (nodes : N) (s : ilist) (m : lspec) : Prop :=
  NoDup (seq m) /\ (forall n, In n (seq m) -> n < nodes) /\
  head s = hd_error (seq m) /\ tail s = last_or None (seq m) /\
  hrep (heap s) nodes (links m).

Lemma links_in m l1 n l2 : seq m = l1 ++ n :: l2 -> ~ In n l1 ->
  links m n = {| prev := last_or None l1; next := hd_error l2 |}.
Proof. intros E H. unfold links. rewrite E, nbrs_in by exact H. reflexivity. Qed.
Lemma links_out m n : ~ In n (seq m) -> links m n = loose m n.
Proof. intros H. unfold links. rewrite nbrs_out by exact H. reflexivity. Qed.

Lemma insertable_spec pol nodes m n : insertable pol nodes m n = true ->
  n < nodes /\ ~ In n (seq m) /\ (pol = Checked -> unlinked (loose m n) = true).
Proof.
  unfold insertable. rewrite !andb_true_iff, negb_true_iff, N.ltb_lt, mem_not.
  intros ((H1 & H2) & H3). repeat split; auto. intros ->. exact H3.
Qed.

Lemma last_or_None p l : last_or p l = None -> l = [].
Proof. destruct l as [|x l] using rev_ind; [reflexivity|]. rewrite last_or_snoc. discriminate. Qed.
Lemma hd_error_None {A} (l : list A) : hd_error l = None -> l = [].
Proof. destruct l; [reflexivity|discriminate]. Qed.

Lemma last_snoc (l : list N) : l = [] \/ exists r x, l = r ++ [x].
Proof. destruct l using rev_ind; [left; reflexivity|right; eauto]. Qed.

(** The new heap is right if it is right at each node. *)
Lemma insert_links m A n B f nodes :
  seq m = A ++ B -> NoDup (A ++ B) -> ~ In n (A ++ B) ->
  f n = {| prev := last_or None A; next := hd_error B |} ->
  (forall c, c < nodes -> c <> n ->
     f c = {| prev := if peq (hd_error B) c then Some n else prev (links m c);
              next := if peq (last_or None A) c then Some n else next (links m c) |}) ->
  forall c, c < nodes -> f c = links {| seq := A ++ n :: B; loose := loose m |} c.
Proof.
  intros E Hn Hin Hfn Hf c Hc. unfold links at 1. cbn [seq loose].
  destruct (N.eq_dec c n) as [->|Hcn].
  - rewrite nbrs_in; [exact Hfn|]. intros H. apply Hin. apply in_or_app. left. exact H.
  - rewrite (splice n A None B c Hn Hcn). rewrite (Hf c Hc Hcn). unfold links. rewrite E.
    destruct (nbrs None (A ++ B) c) as [nd|] eqn:En; [reflexivity|].
    assert (Hout : ~ In c (A ++ B)).
    { intros H. apply in_split in H as (l1 & l2 & El). rewrite El in Hn, En.
      apply NoDup_remove in Hn. rewrite nbrs_in in En; [discriminate|].
      intros H. apply (proj2 Hn). apply in_or_app. left. exact H. }
    assert (E1 : peq (hd_error B) c = false).
    { destruct B as [|b B]; [reflexivity|]. cbn. destruct (N.eqb_spec c b); [|reflexivity].
      subst. exfalso. apply Hout. apply in_or_app. right. left. reflexivity. }
    assert (E2 : peq (last_or None A) c = false).
    { destruct A as [|a A]; [reflexivity|]. apply last_or_notin; [|discriminate].
      intros H. apply Hout. apply in_or_app. left. exact H. }
    rewrite E1, E2. destruct (loose m c); reflexivity.
Qed.

Lemma remove_links pol m A n B f nodes :
  seq m = A ++ n :: B -> NoDup (A ++ n :: B) ->
  f n = (match pol with Checked => null_node | Unchecked => links m n end) ->
  (forall c, c < nodes -> c <> n ->
     f c = {| prev := if peq (hd_error B) c then last_or None A else prev (links m c);
              next := if peq (last_or None A) c then hd_error B else next (links m c) |}) ->
  forall c, c < nodes -> f c = links {| seq := A ++ B; loose := release pol m (N.eqb n) |} c.
Proof.
  intros E Hn Hfn Hf c Hc. unfold links at 1. cbn [seq loose].
  pose proof (NoDup_remove _ _ _ Hn) as (Hn2 & Hni).
  destruct (N.eq_dec c n) as [->|Hcn].
  - rewrite nbrs_out by exact Hni. unfold release. rewrite N.eqb_refl. exact Hfn.
  - rewrite (unsplice n A None B c Hn Hcn). rewrite (Hf c Hc Hcn). unfold links. rewrite E.
    destruct (nbrs None (A ++ n :: B) c) as [nd|] eqn:En; [reflexivity|].
    assert (Hout : ~ In c (A ++ n :: B)).
    { intros H. apply in_split in H as (l1 & l2 & El). rewrite El in Hn, En.
      apply NoDup_remove in Hn. rewrite nbrs_in in En; [discriminate|].
      intros H. apply (proj2 Hn). apply in_or_app. left. exact H. }
    assert (E1 : peq (hd_error B) c = false).
    { destruct B as [|b B]; [reflexivity|]. cbn. destruct (N.eqb_spec c b); [|reflexivity].
      subst. exfalso. apply Hout. apply in_or_app. right. right. left. reflexivity. }
    assert (E2 : peq (last_or None A) c = false).
    { destruct A as [|a A]; [reflexivity|]. apply last_or_notin; [|discriminate].
      intros H. apply Hout. apply in_or_app. left. exact H. }
    rewrite E1, E2. unfold release. destruct (N.eqb_spec n c); [congruence|].
    destruct (loose m c); reflexivity.
Qed.

Ltac fupds := unfold fupd, upd_prev, upd_next;
  repeat match goal with
  | |- context [N.eqb ?a ?b] => destruct (N.eqb_spec a b); try congruence; try subst; cbn [prev next]
  end.

Lemma push_front_ok nodes s m n :
  LRep nodes s m -> n < nodes -> ~ In n (seq m) ->
  exists s', unchecked_push_front s (Some n) = Some s' /\
    LRep nodes s' {| seq := n :: seq m; loose := loose m |}.
Proof.
  intros (Hn & Hlt & Hh & Ht & HH) Hb Hni. unfold unchecked_push_front.
  assert (Hnb : nbrs None (seq m) n = None) by (apply nbrs_out; exact Hni).
  destruct (seq m) as [|x r] eqn:El.
  - rewrite Hh. cbn [hd_error is_null].
    destruct (set_next_ok _ _ _ n None HH Hb) as (h1 & E1 & H1). rewrite E1.
    destruct (set_prev_ok _ _ _ n None H1 Hb) as (h2 & E2 & H2). rewrite E2.
    eexists. split; [reflexivity|]. rewrite Ht. cbn.
    split; [repeat constructor; auto|]. split; [intros k [<-|[]]; exact Hb|].
    split; [reflexivity|]. split; [reflexivity|]. cbn [heap].
    revert H2. apply hrep_ext. apply (insert_links m [] n [] _ nodes); auto.
    + fupds. reflexivity.
    + intros c Hc Hcn. fupds. destruct (links m c); reflexivity.
  - rewrite Hh. cbn [hd_error is_null].
    assert (Hx : x < nodes) by (apply Hlt; left; reflexivity).
    assert (Hxn : x <> n) by (intros ->; apply Hni; left; reflexivity).
    destruct (set_prev_ok _ _ _ x (Some n) HH Hx) as (h0 & E0 & H0). rewrite E0.
    destruct (set_next_ok _ _ _ n (Some x) H0 Hb) as (h1 & E1 & H1). rewrite E1.
    destruct (set_prev_ok _ _ _ n None H1 Hb) as (h2 & E2 & H2). rewrite E2.
    eexists. split; [reflexivity|].
    assert (Htn : is_null (tail s) = false).
    { rewrite Ht. destruct (nullb (last_or None (x :: r))) as [[E _]|(a & _ & E)]; [|exact E].
      apply last_or_None in E. discriminate. }
    rewrite Htn. split; [|split; [|split; [|split]]]; cbn [seq head tail heap].
    + constructor; assumption.
    + intros k [<-|Hk]; [exact Hb|apply Hlt; exact Hk].
    + reflexivity.
    + rewrite Ht. reflexivity.
    + revert H2. apply hrep_ext. apply (insert_links m [] n (x :: r) _ nodes); auto.
      * fupds. reflexivity.
      * intros c Hc Hcn. cbn [hd_error peq last_or fold_left]. rewrite (N.eqb_sym c x) .
        fupds; destruct (links m c); reflexivity.
Qed.

Lemma push_back_ok nodes s m n :
  LRep nodes s m -> n < nodes -> ~ In n (seq m) ->
  exists s', unchecked_push_back s (Some n) = Some s' /\
    LRep nodes s' {| seq := seq m ++ [n]; loose := loose m |}.
Proof.
  intros (Hn & Hlt & Hh & Ht & HH) Hb Hni. unfold unchecked_push_back.
  destruct (last_snoc (seq m)) as [El|(r & x & El)].
  - rewrite Ht, El. cbn [last_or fold_left is_null].
    destruct (set_prev_ok _ _ _ n None HH Hb) as (h1 & E1 & H1). rewrite E1.
    destruct (set_next_ok _ _ _ n None H1 Hb) as (h2 & E2 & H2). rewrite E2.
    eexists. split; [reflexivity|]. rewrite Hh, El. cbn.
    split; [repeat constructor; auto|]. split; [intros k [<-|[]]; exact Hb|].
    split; [reflexivity|]. split; [reflexivity|]. cbn [heap].
    revert H2. apply hrep_ext. apply (insert_links m [] n [] _ nodes); auto.
    + constructor.
    + fupds. reflexivity.
    + intros c Hc Hcn. fupds. destruct (links m c); reflexivity.
  - rewrite Ht, El, last_or_snoc. cbn [is_null].
    assert (Hx : x < nodes) by (apply Hlt; rewrite El; apply in_or_app; right; left; reflexivity).
    assert (Hxn : x <> n) by (intros ->; apply Hni; rewrite El; apply in_or_app; right; left; reflexivity).
    destruct (set_next_ok _ _ _ x (Some n) HH Hx) as (h0 & E0 & H0). rewrite E0.
    destruct (set_prev_ok _ _ _ n (Some x) H0 Hb) as (h1 & E1 & H1). rewrite E1.
    destruct (set_next_ok _ _ _ n None H1 Hb) as (h2 & E2 & H2). rewrite E2.
    eexists. split; [reflexivity|].
    assert (Hhn : is_null (head s) = false).
    { rewrite Hh, El, hd_error_app_cons. destruct r; reflexivity. }
    rewrite Hhn. rewrite <- El. split; [|split; [|split; [|split]]]; cbn [seq head tail heap].
    + apply NoDup_rev in Hn. rewrite <- (rev_involutive (seq m ++ [n])). apply NoDup_rev.
      rewrite rev_unit. constructor; [|exact Hn]. rewrite <- in_rev. exact Hni.
    + intros k Hk. apply in_app_or in Hk. destruct Hk as [Hk|[<-|[]]]; [apply Hlt; exact Hk|exact Hb].
    + rewrite Hh, El. destruct r; reflexivity.
    + rewrite last_or_snoc. reflexivity.
    + revert H2. apply hrep_ext. apply (insert_links m (seq m) n [] _ nodes); rewrite ?app_nil_r; auto.
      * rewrite El, last_or_snoc. fupds. reflexivity.
      * intros c Hc Hcn. rewrite El, last_or_snoc. cbn [hd_error peq]. 
        fupds; destruct (links m c); reflexivity.
Qed.

Lemma insert_before_split p n A B : ~ In p A -> insert_before p n (A ++ p :: B) = A ++ n :: p :: B.
Proof.
  induction A as [|x A IH]; intros H; cbn.
  - rewrite N.eqb_refl. reflexivity.
  - destruct (N.eqb_spec x p); [exfalso; apply H; left; assumption|].
    f_equal. apply IH. intros Hp. apply H. right. exact Hp.
Qed.
Lemma without_split n A B : ~ In n A -> without n (A ++ n :: B) = A ++ B.
Proof.
  induction A as [|x A IH]; intros H; cbn.
  - rewrite N.eqb_refl. reflexivity.
  - destruct (N.eqb_spec x n); [exfalso; apply H; left; assumption|].
    f_equal. apply IH. intros Hp. apply H. right. exact Hp.
Qed.

Lemma NoDup_insert (A B : list N) n : NoDup (A ++ B) -> ~ In n (A ++ B) -> NoDup (A ++ n :: B).
Proof. intros H1 H2. apply NoDup_Add with (a := n) (l := A ++ B); [apply Add_app|]. split; assumption. Qed.

Lemma last_or_mid p q A n B x : last_or p (A ++ n :: x :: B) = last_or q (A ++ x :: B).
Proof.
  destruct (last_snoc B) as [->|(r & y & ->)].
  - change (A ++ [n; x]) with (A ++ [n] ++ [x]). rewrite app_assoc, !last_or_snoc. reflexivity.
  - replace (A ++ n :: x :: r ++ [y]) with ((A ++ n :: x :: r) ++ [y]) by (rewrite <- app_assoc; reflexivity).
    replace (A ++ x :: r ++ [y]) with ((A ++ x :: r) ++ [y]) by (rewrite <- app_assoc; reflexivity).
    rewrite !last_or_snoc. reflexivity.
Qed.

Lemma insert_at_ok nodes s m p n :
  LRep nodes s m -> n < nodes -> ~ In n (seq m) -> In p (seq m) ->
  exists s', unchecked_insert s (Some p) (Some n) = Some s' /\
    LRep nodes s' {| seq := insert_before p n (seq m); loose := loose m |}.
Proof.
  intros (Hn & Hlt & Hh & Ht & HH) Hb Hni Hp. unfold unchecked_insert. cbn [is_null].
  assert (Hpb : p < nodes) by (apply Hlt; exact Hp).
  assert (Hpn : p <> n) by (intros ->; tauto).
  apply in_split in Hp as (A & B & El). rewrite El in Hn, Hni.
  assert (HpA : ~ In p A /\ ~ In p B).
  { apply NoDup_remove in Hn as (_ & H). rewrite in_app_iff in H. tauto. }
  rewrite El, (insert_before_split p n A B) by tauto.
  assert (Hlp : links m p = {| prev := last_or None A; next := hd_error B |})
    by (apply (links_in m A p B El); tauto).
  destruct (set_next_ok _ _ _ n (Some p) HH Hb) as (h1 & E1 & H1). rewrite E1.
  rewrite (get_ok _ _ _ p H1 Hpb).
  set (f1 := fupd (links m) n (upd_next (Some p) (links m n))) in *.
  assert (F1 : f1 p = links m p) by (unfold f1; fupds; reflexivity).
  rewrite F1, Hlp. cbn [prev].
  destruct (set_prev_ok _ _ _ n (last_or None A) H1 Hb) as (h2 & E2 & H2). rewrite E2.
  destruct (set_prev_ok _ _ _ p (Some n) H2 Hpb) as (h3 & E3 & H3). rewrite E3.
  rewrite (get_ok _ _ _ n H3 Hb).
  match type of H3 with hrep _ _ ?g => set (f3 := g) in * end.
  assert (F3 : f3 n = {| prev := last_or None A; next := Some p |})
    by (unfold f3, f1; fupds; reflexivity).
  rewrite F3. cbn [prev].
  assert (Hnd : NoDup (A ++ n :: p :: B)) by (apply NoDup_insert; assumption).
  assert (Hbound : forall k, In k (A ++ n :: p :: B) -> k < nodes).
  { intros k Hk. apply in_app_or in Hk. destruct Hk as [Hk|[<-|Hk]]; [|exact Hb|];
    apply Hlt; rewrite El; apply in_or_app; [left|right]; exact Hk. }
  assert (Htail : tail s = last_or None (A ++ n :: p :: B))
    by (rewrite Ht, El; symmetry; apply last_or_mid).
  destruct (last_snoc A) as [->|(A' & a & EA)].
  - cbn [last_or fold_left is_null app] in *. eexists. split; [reflexivity|].
    split; [|split; [|split; [|split]]]; cbn [seq head tail heap]; auto.
    revert H3. apply hrep_ext. apply (insert_links m [] n (p :: B) _ nodes); auto.
    intros c Hc Hcn. cbn [hd_error peq last_or fold_left]. rewrite (N.eqb_sym c p). unfold f3, f1.
    fupds; destruct (links m c); reflexivity.
  - rewrite EA, last_or_snoc in F3 |- *. cbn [is_null].
    assert (Hab : a < nodes).
    { apply Hlt. rewrite El, EA. apply in_or_app. left. apply in_or_app. right. left. reflexivity. }
    assert (Han : a <> n).
    { intros ->. apply Hni. rewrite EA. apply in_or_app. left. apply in_or_app. right. left. reflexivity. }
    assert (Hap : a <> p).
    { intros ->. apply (proj1 HpA). rewrite EA. apply in_or_app. right. left. reflexivity. }
    destruct (set_next_ok _ _ _ a (Some n) H3 Hab) as (h4 & E4 & H4). rewrite E4.
    eexists. split; [reflexivity|]. rewrite <- EA.
    split; [|split; [|split; [|split]]]; cbn [seq head tail heap]; auto.
    + rewrite Hh, El, EA, !hd_error_app_cons. destruct A'; reflexivity.
    + revert H4. apply hrep_ext. apply (insert_links m A n (p :: B) _ nodes); auto.
      * rewrite EA, last_or_snoc. unfold fupd at 1. destruct (N.eqb_spec n a); [congruence|]. exact F3.
      * intros c Hc Hcn. rewrite EA, last_or_snoc. cbn [hd_error peq]. unfold f3, f1.
        fupds; destruct (links m c); reflexivity.
Qed.

Lemma insert_end_ok nodes s m n :
  LRep nodes s m -> n < nodes -> ~ In n (seq m) -> seq m <> [] -> next (loose m n) = None ->
  exists s', unchecked_insert s None (Some n) = Some s' /\
    LRep nodes s' {| seq := seq m ++ [n]; loose := loose m |}.
Proof.
  intros (Hn & Hlt & Hh & Ht & HH) Hb Hni Hne Hnx. unfold unchecked_insert. cbn [is_null].
  destruct (set_prev_ok _ _ _ n (tail s) HH Hb) as (h1 & E1 & H1). rewrite E1.
  rewrite (get_ok _ _ _ n H1 Hb).
  destruct (last_snoc (seq m)) as [El|(r & x & El)]; [tauto|].
  assert (Et : tail s = Some x) by (rewrite Ht, El, last_or_snoc; reflexivity).
  assert (Hx : x < nodes) by (apply Hlt; rewrite El; apply in_or_app; right; left; reflexivity).
  assert (Hxn : x <> n) by (intros ->; apply Hni; rewrite El; apply in_or_app; right; left; reflexivity).
  rewrite Et in *. unfold fupd at 1 2. rewrite N.eqb_refl. cbn [upd_prev prev is_null].
  destruct (set_next_ok _ _ _ x (Some n) H1 Hx) as (h2 & E2 & H2). rewrite E2.
  eexists. split; [reflexivity|].
  split; [|split; [|split; [|split]]]; cbn [seq head tail heap].
  - apply NoDup_insert; rewrite app_nil_r; assumption.
  - intros k Hk. apply in_app_or in Hk. destruct Hk as [Hk|[<-|[]]]; [apply Hlt; exact Hk|exact Hb].
  - rewrite Hh, El. destruct r; reflexivity.
  - rewrite last_or_snoc. reflexivity.
  - revert H2. apply hrep_ext. apply (insert_links m (seq m) n [] _ nodes); rewrite ?app_nil_r; auto.
    + rewrite El, last_or_snoc. fupds. rewrite (links_out m n) by exact Hni. rewrite Hnx. reflexivity.
    + intros c Hc Hcn. rewrite El, last_or_snoc. cbn [hd_error peq].
      fupds; destruct (links m c); reflexivity.
Qed.

Lemma on_pop_ok pol h nodes f n : hrep h nodes f -> n < nodes ->
  exists h', on_pop pol h (Some n) = Some h' /\
    hrep h' nodes (fupd f n (match pol with Checked => null_node | Unchecked => f n end)).
Proof.
  intros H Hn. destruct pol; cbn [on_pop].
  - destruct (set_prev_ok _ _ _ n None H Hn) as (h1 & E1 & H1). rewrite E1.
    destruct (set_next_ok _ _ _ n None H1 Hn) as (h2 & E2 & H2). rewrite E2.
    exists h2. split; [reflexivity|]. revert H2. apply hrep_ext. intros a _. fupds; reflexivity.
  - exists h. split; [reflexivity|]. revert H. apply hrep_ext. intros a _. fupds; reflexivity.
Qed.

Lemma release_list_frame pol nodes s m A n B :
  LRep nodes s m -> seq m = A ++ n :: B ->
  exists s', remove pol s (Some n) = Some s' /\
    LRep nodes s' {| seq := A ++ B; loose := release pol m (N.eqb n) |}.
Proof.
  intros (Hn & Hlt & Hh & Ht & HH) El. unfold remove.
  assert (Hb : n < nodes) by (apply Hlt; rewrite El; apply in_or_app; right; left; reflexivity).
  rewrite El in Hn. pose proof (NoDup_remove _ _ _ Hn) as (Hn2 & Hni).
  assert (HnAB : ~ In n A /\ ~ In n B) by (rewrite in_app_iff in Hni; tauto).
  rewrite (get_ok _ _ _ n HH Hb). rewrite (links_in m A n B El) by tauto. cbn [prev next].
  assert (Hbound : forall k, In k (A ++ B) -> k < nodes).
  { intros k Hk. apply Hlt. rewrite El. apply in_app_or in Hk. apply in_or_app.
    destruct Hk; [left|right; right]; assumption. }
  assert (HA : exists h1 f1, (if is_null (last_or None A) then Some (heap s)
                 else set_next (heap s) (last_or None A) (hd_error B)) = Some h1 /\
               hrep h1 nodes f1 /\
               (forall c, f1 c = if peq (last_or None A) c then upd_next (hd_error B) (links m c) else links m c)).
  { destruct (last_snoc A) as [->|(A' & a & ->)].
    - exists (heap s), (links m). cbn. split; [reflexivity|]. split; [exact HH|reflexivity].
    - rewrite last_or_snoc. cbn [is_null peq].
      assert (Ha : a < nodes) by (apply Hbound; apply in_or_app; left; apply in_or_app; right; left; reflexivity).
      destruct (set_next_ok _ _ _ a (hd_error B) HH Ha) as (h1 & E1 & H1).
      exists h1. eexists. split; [exact E1|]. split; [exact H1|]. intros c. fupds; reflexivity. }
  destruct HA as (h1 & f1 & E1 & H1 & F1). rewrite E1.
  assert (HB : exists h2 f2, (if is_null (hd_error B) then Some h1
                 else set_prev h1 (hd_error B) (last_or None A)) = Some h2 /\
               hrep h2 nodes f2 /\
               (forall c, f2 c = if peq (hd_error B) c then upd_prev (last_or None A) (f1 c) else f1 c)).
  { destruct B as [|b B].
    - exists h1, f1. cbn. split; [reflexivity|]. split; [exact H1|reflexivity].
    - cbn [is_null peq hd_error].
      assert (Hbb : b < nodes) by (apply Hbound; apply in_or_app; right; left; reflexivity).
      destruct (set_prev_ok _ _ _ b (last_or None A) H1 Hbb) as (h2 & E2 & H2).
      exists h2. eexists. split; [exact E2|]. split; [exact H2|]. intros c. fupds; reflexivity. }
  destruct HB as (h2 & f2 & E2 & H2 & F2). rewrite E2.
  destruct (on_pop_ok pol h2 nodes f2 n H2 Hb) as (h3 & E3 & H3). rewrite E3.
  eexists. split; [reflexivity|].
  split; [|split; [|split; [|split]]]; cbn [seq head tail heap].
  - exact Hn2.
  - exact Hbound.
  - rewrite Hh, El. destruct (last_snoc A) as [->|(A' & a & ->)]; [reflexivity|].
    rewrite last_or_snoc. cbn [is_null]. destruct A'; reflexivity.
  - rewrite Ht, El. destruct B as [|b B].
    + rewrite app_nil_r. reflexivity.
    + cbn [hd_error is_null]. apply last_or_mid.
  - revert H3. apply hrep_ext. apply (remove_links pol m A n B _ nodes El Hn).
    + unfold fupd. rewrite N.eqb_refl. destruct pol; [reflexivity|]. rewrite F2, F1.
      assert (E5 : peq (hd_error B) n = false).
      { destruct B as [|b B]; [reflexivity|]. cbn. destruct (N.eqb_spec n b); [|reflexivity].
        subst. exfalso. apply (proj2 HnAB). left. reflexivity. }
      assert (E6 : peq (last_or None A) n = false).
      { destruct A as [|a A]; [reflexivity|]. apply last_or_notin; [tauto|discriminate]. }
      rewrite E5, E6. reflexivity.
    + intros c Hc Hcn. unfold fupd. destruct (N.eqb_spec c n); [congruence|]. rewrite F2, F1.
      destruct (peq (hd_error B) c), (peq (last_or None A) c); cbn; destruct (links m c); reflexivity.
Qed.

(** pop_front and pop_back are remove of the first/last node. *)
Lemma pop_front_remove pol nodes s m n r : LRep nodes s m -> seq m = n :: r ->
  pop_front pol s = option_map (fun s' => (s', Some n)) (remove pol s (Some n)).
Proof.
  intros (Hn & Hlt & Hh & Ht & HH) El. unfold pop_front, remove.
  assert (Hb : n < nodes) by (apply Hlt; rewrite El; left; reflexivity).
  rewrite Hh, El. cbn [hd_error]. rewrite (get_ok _ _ _ n HH Hb).
  rewrite (links_in m [] n r El) by (intros []). cbn [prev next last_or fold_left is_null].
  destruct r as [|b r]; cbn [hd_error is_null].
  - destruct (on_pop pol (heap s) (Some n)); reflexivity.
  - destruct (set_prev (heap s) (Some b) None) as [h|]; [|reflexivity].
    destruct (on_pop pol h (Some n)); reflexivity.
Qed.

Lemma pop_back_remove pol nodes s m n r : LRep nodes s m -> seq m = r ++ [n] ->
  pop_back pol s = option_map (fun s' => (s', Some n)) (remove pol s (Some n)).
Proof.
  intros (Hn & Hlt & Hh & Ht & HH) El. unfold pop_back, remove.
  assert (Hb : n < nodes) by (apply Hlt; rewrite El; apply in_or_app; right; left; reflexivity).
  assert (Hni : ~ In n r).
  { rewrite El in Hn. apply NoDup_remove in Hn. rewrite app_nil_r in Hn. tauto. }
  rewrite Ht, El, last_or_snoc. rewrite (get_ok _ _ _ n HH Hb).
  rewrite (links_in m r n [] El) by exact Hni. cbn [prev next hd_error is_null].
  destruct (last_snoc r) as [->|(r' & a & ->)].
  - cbn [last_or fold_left is_null]. destruct (on_pop pol (heap s) (Some n)); reflexivity.
  - rewrite last_or_snoc. cbn [is_null].
    destruct (set_next (heap s) (Some a) None) as [h|]; [|reflexivity].
    destruct (on_pop pol h (Some n)); reflexivity.
Qed.

Lemma clear_loop_ok nodes l : forall fuel h f p,
  hrep h nodes f -> NoDup l -> (forall n, In n l -> n < nodes) -> (length l <= fuel)%nat ->
  (forall n, In n l -> f n = links {| seq := l; loose := f |} n \/
     exists nd, nbrs p l n = Some nd /\ next (f n) = next nd) ->
  exists h', clear_loop fuel h (hd_error l) = Some h' /\
    hrep h' nodes (fun n => if mem n l then null_node else f n).
Proof.
  induction l as [|x l IH]; intros fuel h f p H Hn Hlt Hf Hc.
  - exists h. destruct fuel; (split; [reflexivity|]); exact H.
  - destruct fuel as [|fuel]; [cbn in Hf; lia|]. cbn [hd_error clear_loop].
    assert (Hx : x < nodes) by (apply Hlt; left; reflexivity).
    destruct (set_prev_ok _ _ _ x None H Hx) as (h1 & E1 & H1). rewrite E1.
    rewrite (get_ok _ _ _ x H1 Hx).
    destruct (set_next_ok _ _ _ x None H1 Hx) as (h2 & E2 & H2). rewrite E2.
    assert (Hnx : next (f x) = hd_error l).
    { destruct (Hc x (or_introl eq_refl)) as [E|(nd & E & E')].
      - rewrite E. unfold links. cbn [seq nbrs]. rewrite N.eqb_refl. reflexivity.
      - cbn [nbrs] in E. rewrite N.eqb_refl in E. injection E as <-. exact E'. }
    assert (Enx : next (fupd f x (upd_prev None (f x)) x) = hd_error l).
    { unfold fupd. rewrite N.eqb_refl. exact Hnx. }
    rewrite Enx. inversion Hn as [|x' l' Hxl Hl]; subst x' l'.
    destruct (IH fuel h2 _ (Some x) H2 Hl) as (h3 & E3 & H3).
    + intros k Hk. apply Hlt. right. exact Hk.
    + cbn in Hf. lia.
    + intros k Hk. right. assert (Hkx : k <> x) by (intros ->; tauto).
      destruct (Hc k (or_intror Hk)) as [E|(nd & E & E')].
      * unfold links in E. cbn [seq nbrs] in E. destruct (N.eqb_spec x k); [congruence|].
        destruct (in_split _ _ Hk) as (l1 & l2 & El).
        assert (~ In k l1). { rewrite El in Hl. apply NoDup_remove in Hl. rewrite in_app_iff in Hl. tauto. }
        rewrite El in E |- *. rewrite nbrs_in in E by assumption. rewrite nbrs_in by assumption.
        eexists. split; [reflexivity|]. fupds; rewrite E; reflexivity.
      * cbn [nbrs] in E. destruct (N.eqb_spec x k); [congruence|].
        exists nd. split; [exact E|]. fupds; exact E'.
    + exists h3. split; [exact E3|]. revert H3. apply hrep_ext. intros a _.
      unfold mem. cbn [existsb]. destruct (existsb (N.eqb a) l) eqn:Ea.
      * rewrite orb_true_r. reflexivity.
      * rewrite orb_false_r. fupds; reflexivity.
Qed.

Lemma NoDup_bound (l : list N) nodes : NoDup l -> (forall n, In n l -> n < nodes) -> len l <= nodes.
Proof.
  intros Hn Hlt.
  assert (Hm : NoDup (map N.to_nat l)).
  { clear Hlt. induction Hn as [|x l Hx Hn IH]; cbn; constructor; auto.
    intros H. apply in_map_iff in H as (y & E & Hy). apply Hx.
    assert (y = x) by lia. subst. exact Hy. }
  assert (Hi : incl (map N.to_nat l) (List.seq 0 (N.to_nat nodes))).
  { intros k Hk. apply in_map_iff in Hk as (y & <- & Hy). apply in_seq. specialize (Hlt y Hy). lia. }
  pose proof (NoDup_incl_length Hm Hi) as Hle. rewrite map_length, seq_length in Hle. unfold len. lia.
Qed.

Lemma clear_ok pol nodes s m : LRep nodes s m ->
  exists s', clear pol s = Some s' /\
    LRep nodes s' {| seq := []; loose := release pol m (fun n => mem n (seq m)) |}.
Proof.
  intros (Hn & Hlt & Hh & Ht & HH). unfold clear.
  assert (HC : exists h', on_clear pol (heap s) (head s) = Some h' /\
            hrep h' nodes (fun n => if mem n (seq m) then match pol with Checked => null_node | Unchecked => links m n end else loose m n)).
  { destruct pol; cbn [on_clear].
    - rewrite Hh. destruct (clear_loop_ok nodes (seq m) (length (heap s)) (heap s) (links m) None HH Hn Hlt) as (h' & E & H').
      + pose proof (NoDup_bound _ _ Hn Hlt). destruct HH as (HL & _). unfold len in *. lia.
      + intros n Hin. left. unfold links at 2. cbn [seq loose].
        apply in_split in Hin as (l1 & l2 & El). assert (~ In n l1).
        { rewrite El in Hn. apply NoDup_remove in Hn. rewrite in_app_iff in Hn. tauto. }
        rewrite (links_in m l1 n l2 El) by assumption. rewrite El, nbrs_in by assumption. reflexivity.
      + exists h'. split; [exact E|]. revert H'. apply hrep_ext. intros a _.
        destruct (mem a (seq m)) eqn:Ea; [reflexivity|]. apply links_out. apply mem_not. exact Ea.
    - exists (heap s). split; [reflexivity|]. revert HH. apply hrep_ext. intros a _.
      destruct (mem a (seq m)) eqn:Ea; [reflexivity|]. apply links_out. apply mem_not. exact Ea. }
  destruct HC as (h' & E & H'). rewrite E. eexists. split; [reflexivity|].
  split; [constructor|]. split; [intros k []|]. split; [reflexivity|]. split; [reflexivity|].
  cbn [heap]. exact H'.
Qed.

Lemma walk_next_ok h nodes m : hrep h nodes (links m) -> NoDup (seq m) ->
  (forall n, In n (seq m) -> n < nodes) ->
  forall l2 l1 fuel, seq m = l1 ++ l2 -> (length l2 <= fuel)%nat ->
  walk next fuel h (hd_error l2) = Some l2.
Proof.
  intros HH Hn Hlt. induction l2 as [|x l2 IH]; intros l1 fuel El Hf.
  - destruct fuel; reflexivity.
  - destruct fuel as [|fuel]; [cbn in Hf; lia|]. cbn [hd_error walk].
    rewrite (get_ok _ _ _ x HH) by (apply Hlt; rewrite El; apply in_or_app; right; left; reflexivity).
    rewrite (links_in m l1 x l2 El).
    + cbn [next]. rewrite (IH (l1 ++ [x]) fuel); [reflexivity| |cbn in Hf; lia].
      rewrite <- app_assoc. exact El.
    + rewrite El in Hn. apply NoDup_remove in Hn. rewrite in_app_iff in Hn. tauto.
Qed.

Lemma walk_prev_ok h nodes m : hrep h nodes (links m) -> NoDup (seq m) ->
  (forall n, In n (seq m) -> n < nodes) ->
  forall r l2 fuel, seq m = rev r ++ l2 -> (length r <= fuel)%nat ->
  walk prev fuel h (last_or None (rev r)) = Some r.
Proof.
  intros HH Hn Hlt. induction r as [|x r IH]; intros l2 fuel El Hf.
  - destruct fuel; reflexivity.
  - destruct fuel as [|fuel]; [cbn in Hf; lia|]. cbn [rev]. rewrite last_or_snoc. cbn [walk].
    cbn [rev] in El. rewrite <- app_assoc in El. cbn [app] in El.
    rewrite (get_ok _ _ _ x HH) by (apply Hlt; rewrite El; apply in_or_app; right; left; reflexivity).
    rewrite (links_in m (rev r) x l2 El).
    + cbn [prev]. rewrite (IH (x :: l2) fuel El); [reflexivity|cbn in Hf; lia].
    + rewrite El in Hn. apply NoDup_remove in Hn. rewrite in_app_iff in Hn. tauto.
Qed.

Lemma with_check_ok pol hd nodes s m n body s' :
  LRep nodes s m -> insertable pol nodes m n = true -> body = Some s' ->
  with_check pol hd s n body = Done s' LUnit [].
Proof.
  intros (Hn & Hlt & Hh & Ht & HH) Hi ->. apply insertable_spec in Hi as (Hb & Hni & Hc).
  unfold with_check. destruct pol; [|reflexivity].
  unfold valid_for_push. rewrite (get_ok _ _ _ n HH Hb). rewrite links_out by exact Hni.
  specialize (Hc eq_refl). unfold unlinked in Hc. rewrite Hc. reflexivity.
Qed.

Lemma l_step_ok pol hd nodes s m op m' o :
  LRep nodes s m -> seq_step pol nodes m op = Some (m', o) ->
  exists s', l_step pol hd s op = Done s' o [] /\ LRep nodes s' m'.
Proof.
  intros HR Hs. pose proof HR as (Hn & Hlt & Hh & Ht & HH).
  destruct op as [n|n|it n| | |n| | | | | | |n]; cbn [seq_step] in Hs; unfold l_step.
  - destruct (insertable pol nodes m n) eqn:Ei; [|discriminate]. injection Hs as <- <-.
    pose proof (insertable_spec _ _ _ _ Ei) as (Hb & Hni & _).
    destruct (push_front_ok nodes s m n HR Hb Hni) as (s' & E & HR').
    exists s'. split; [|exact HR']. exact (with_check_ok pol hd nodes s m n _ s' HR Ei E).
  - destruct (insertable pol nodes m n) eqn:Ei; [|discriminate]. injection Hs as <- <-.
    pose proof (insertable_spec _ _ _ _ Ei) as (Hb & Hni & _).
    destruct (push_back_ok nodes s m n HR Hb Hni) as (s' & E & HR').
    exists s'. split; [|exact HR']. exact (with_check_ok pol hd nodes s m n _ s' HR Ei E).
  - destruct it as [p|].
    + destruct (insertable pol nodes m n) eqn:Ei; [|discriminate].
      destruct (mem p (seq m)) eqn:Ep; [|discriminate]. cbn [andb] in Hs. injection Hs as <- <-.
      pose proof (insertable_spec _ _ _ _ Ei) as (Hb & Hni & _). apply mem_In in Ep.
      destruct (insert_at_ok nodes s m p n HR Hb Hni Ep) as (s' & E & HR').
      exists s'. split; [|exact HR']. refine (with_check_ok pol hd nodes s m n _ s' HR Ei _).
      rewrite Hh. destruct (seq m); [destruct Ep|]. exact E.
    + destruct (insertable pol nodes m n) eqn:Ei; [|discriminate]. cbn [andb] in Hs.
      pose proof (insertable_spec _ _ _ _ Ei) as (Hb & Hni & _).
      destruct (seq m) as [|x l] eqn:El.
      * injection Hs as <- <-. rewrite <- El in Hni.
        destruct (push_back_ok nodes s m n HR Hb Hni) as (s' & E & HR'). rewrite El in HR'.
        exists s'. split; [|exact HR']. refine (with_check_ok pol hd nodes s m n _ s' HR Ei _).
        rewrite Hh. exact E.
      * destruct (is_null (next (loose m n))) eqn:Enx; [|discriminate]. injection Hs as <- <-.
        rewrite <- El in Hni.
        destruct (insert_end_ok nodes s m n HR Hb Hni) as (s' & E & HR').
        { rewrite El. discriminate. } { destruct (next (loose m n)); [discriminate|reflexivity]. }
        rewrite El in HR'. exists s'. split; [|exact HR'].
        refine (with_check_ok pol hd nodes s m n _ s' HR Ei _). rewrite Hh. exact E.
  - destruct (seq m) as [|n r] eqn:El; [discriminate|]. injection Hs as <- <-.
    rewrite (pop_front_remove pol nodes s m n r HR El).
    destruct (release_list_frame pol nodes s m [] n r HR El) as (s' & E & HR'). rewrite E.
    exists s'. split; [reflexivity|exact HR'].
  - destruct (last_snoc (seq m)) as [El|(r & n & El)]; rewrite El in Hs; [discriminate|].
    rewrite rev_unit in Hs. injection Hs as <- <-. rewrite rev_involutive.
    rewrite (pop_back_remove pol nodes s m n r HR El).
    destruct (release_list_frame pol nodes s m r n [] HR El) as (s' & E & HR'). rewrite E.
    rewrite app_nil_r in HR'. exists s'. split; [reflexivity|exact HR'].
  - destruct (mem n (seq m)) eqn:En; [|discriminate]. injection Hs as <- <-.
    apply mem_In in En. apply in_split in En as (A & B & El).
    destruct (release_list_frame pol nodes s m A n B HR El) as (s' & E & HR'). rewrite E.
    exists s'. split; [reflexivity|]. rewrite El, without_split; [exact HR'|].
    rewrite El in Hn. apply NoDup_remove in Hn. rewrite in_app_iff in Hn. tauto.
  - injection Hs as <- <-. destruct (clear_ok pol nodes s m HR) as (s' & E & HR'). rewrite E.
    exists s'. split; [reflexivity|exact HR'].
  - injection Hs as <- <-. exists s. split; [|exact HR]. rewrite Hh. destruct (seq m); reflexivity.
  - destruct (seq m) as [|n r] eqn:El; [discriminate|]. injection Hs as <- <-.
    exists s. split; [|exact HR]. rewrite Hh. cbn [hd_error].
    rewrite (get_ok _ _ _ n HH); [reflexivity|]. apply Hlt. left. reflexivity.
  - destruct (last_snoc (seq m)) as [El|(r & n & El)]; rewrite El in Hs; [discriminate|].
    rewrite rev_unit in Hs. injection Hs as <- <-. exists s. split; [|exact HR].
    rewrite Ht, El, last_or_snoc. rewrite (get_ok _ _ _ n HH); [reflexivity|].
    apply Hlt. rewrite El. apply in_or_app. right. left. reflexivity.
  - injection Hs as <- <-. exists s. split; [|exact HR]. rewrite Hh.
    rewrite (walk_next_ok (heap s) nodes m HH Hn Hlt (seq m) []); [reflexivity|reflexivity|].
    pose proof (NoDup_bound _ _ Hn Hlt). destruct HH as (HL & _). unfold len in *. lia.
  - injection Hs as <- <-. exists s. split; [|exact HR]. rewrite Ht.
    rewrite <- (rev_involutive (seq m)) at 1.
    rewrite (walk_prev_ok (heap s) nodes m HH Hn Hlt (rev (seq m)) []); [reflexivity| |].
    + rewrite rev_involutive, app_nil_r. reflexivity.
    + pose proof (NoDup_bound _ _ Hn Hlt). destruct HH as (HL & _). rewrite rev_length. unfold len in *. lia.
  - destruct (N.ltb_spec n nodes); [|discriminate]. injection Hs as <- <-.
    exists s. split; [|exact HR]. rewrite (get_ok _ _ _ n HH) by assumption. reflexivity.
Qed.

Lemma l_run_ok pol hd nodes ops : forall s m m' os,
  LRep nodes s m -> spec_run (seq_step pol nodes) m ops = Some (m', os) ->
  exists s', run (l_step pol hd) s ops = Done s' os [] /\ LRep nodes s' m'.
Proof.
  induction ops as [|op ops IH]; intros s m m' os HR; cbn [spec_run run].
  - intros E; injection E as <- <-. exists s. split; [reflexivity|exact HR].
  - destruct (seq_step pol nodes m op) as [[m1 o]|] eqn:E1; [|discriminate].
    destruct (spec_run (seq_step pol nodes) m1 ops) as [[m2 os']|] eqn:E2; [|discriminate].
    intros E; injection E as <- <-.
    destruct (l_step_ok pol hd nodes _ _ _ _ _ HR E1) as (s1 & E3 & HR1). rewrite E3.
    destruct (IH _ _ _ _ HR1 E2) as (s2 & E4 & HR2). rewrite E4. exists s2. split; [reflexivity|exact HR2].
Qed.

Lemma l_init_rep h : LRep (len h) (l_init h) (l_spec_init h).
Proof.
  split; [constructor|]. split; [intros n []|]. split; [reflexivity|]. split; [reflexivity|].
  split; [reflexivity|]. intros a Ha. cbn. destruct (rd_lt_Some h a Ha) as (nd & E). rewrite E. reflexivity.
Qed.

Lemma intrusive_list_seq pol hd h ops m os :
  spec_run (seq_step pol (len h)) (l_spec_init h) ops = Some (m, os) ->
  exists s, run (l_step pol hd) (l_init h) ops = Done s os [].
Proof.
  intros H. destruct (l_run_ok pol hd (len h) ops _ _ _ _ (l_init_rep h) H) as (s & E & _). eauto.
Qed.

Definition is_insertion (op : l_op) (n : N) : Prop :=
  op = LPushFront n \/ op = LPushBack n \/ exists it, op = LInsert it n.

Lemma nbrs_two l n : In n l -> NoDup l -> 2 <= len l ->
  exists nd, nbrs None l n = Some nd /\ unlinked nd = false.
Proof.
  intros Hin Hn Hl. apply in_split in Hin as (A & B & ->).
  assert (~ In n A). { apply NoDup_remove in Hn. rewrite in_app_iff in Hn. tauto. }
  rewrite nbrs_in by assumption. eexists. split; [reflexivity|]. unfold unlinked. cbn [prev next].
  destruct B as [|b B]; [|apply andb_false_r].
  destruct (last_snoc A) as [->|(A' & a & ->)]; [rewrite len_app, len_cons in Hl; unfold len in Hl; cbn in Hl; lia|].
  rewrite last_or_snoc. reflexivity.
Qed.

(** After any accepted history the checked policy panics exactly on nodes with a non-null
    link; in particular on every node of a list of two or more. *)
Lemma checked_panics h ops m os n op :
  spec_run (seq_step Checked (len h)) (l_spec_init h) ops = Some (m, os) ->
  n < len h -> is_insertion op n ->
  exists s, run (l_step Checked DoesNotReturn) (l_init h) ops = Done s os [] /\
   (l_step Checked DoesNotReturn s op = Stopped s BadListNode <-> unlinked (links m n) = false) /\
   (In n (seq m) -> 2 <= len (seq m) -> unlinked (links m n) = false).
Proof.
  intros H Hb Hi.
  destruct (l_run_ok Checked DoesNotReturn (len h) ops _ _ _ _ (l_init_rep h) H) as (s & E & HR).
  exists s. split; [exact E|]. destruct HR as (Hn & Hlt & Hh & Ht & HH). split.
  - assert (Hv : valid_for_push (heap s) (Some n) = Some (unlinked (links m n))).
    { unfold valid_for_push. rewrite (get_ok _ _ _ n HH Hb). reflexivity. }
    destruct Hi as [->|[->|(it & ->)]]; cbn [l_step]; unfold with_check; rewrite Hv;
    (destruct (unlinked (links m n)); (split; [|congruence]);
     [destruct_with_eqn (unchecked_push_front s (Some n)) || idtac|reflexivity || auto]).
    all: try discriminate; try reflexivity; auto.
    all: intros Hx; exfalso; revert Hx;
      match goal with |- context [match ?b with _ => _ end] => destruct b; discriminate end.
  - intros Hin Hl. unfold links. destruct (nbrs_two _ _ Hin Hn Hl) as (nd & E1 & E2). rewrite E1. exact E2.
Qed.

(** Re-pushing the only node of a list is not detected, and leaves a cycle. *)
Lemma checked_sole_undetected h ops m os n hd :
  spec_run (seq_step Checked (len h)) (l_spec_init h) ops = Some (m, os) ->
  seq m = [n] ->
  exists s s1, run (l_step Checked hd) (l_init h) ops = Done s os [] /\
    l_step Checked hd s (LPushFront n) = Done s1 LUnit [] /\
    l_step Checked hd s1 LItems = Undef.
Proof.
  intros H El.
  destruct (l_run_ok Checked hd (len h) ops _ _ _ _ (l_init_rep h) H) as (s & E & HR).
  destruct HR as (Hn & Hlt & Hh & Ht & HH). rewrite El in *.
  assert (Hb : n < len h) by (apply Hlt; left; reflexivity).
  assert (Hl : links m n = null_node) by (apply (links_in m [] n [] El); intros []).
  cbn [l_step]. unfold with_check, valid_for_push. 
  assert (Eg : get (heap s) (Some n) = Some null_node) by (rewrite (get_ok _ _ _ n HH Hb), Hl; reflexivity).
  exists s. unfold unchecked_push_front. rewrite Hh, Ht. cbn [hd_error is_null last_or fold_left].
  destruct (set_prev_ok _ _ _ n (Some n) HH Hb) as (h0 & E0 & H0).
  destruct (set_next_ok _ _ _ n (Some n) H0 Hb) as (h1 & E1 & H1).
  destruct (set_prev_ok _ _ _ n None H1 Hb) as (h2 & E2 & H2).
  rewrite E0, E1, E2, Eg. cbn [null_node prev next is_null andb]. eexists. split; [exact E|].
  split; [reflexivity|]. cbn [l_step heap head].
  assert (Hcyc : get h2 (Some n) = Some {| prev := None; next := Some n |}).
  { rewrite (get_ok _ _ _ n H2 Hb). fupds. reflexivity. }
  assert (Hw : forall fuel, walk next fuel h2 (Some n) = None).
  { induction fuel as [|fuel IH]; [reflexivity|]. cbn [walk]. rewrite Hcyc. cbn [next]. rewrite IH. reflexivity. }
  rewrite Hw. reflexivity.
Qed.

(** With the unchecked policy, inserting at end() a node whose stale next is not null
    leaves that stale link at the end of the list. *)
Lemma unchecked_insert_end_stale h ops m os n x hd :
  spec_run (seq_step Unchecked (len h)) (l_spec_init h) ops = Some (m, os) ->
  n < len h -> ~ In n (seq m) -> seq m <> [] -> next (loose m n) = Some x ->
  exists s s1 p, run (l_step Unchecked hd) (l_init h) ops = Done s os [] /\
    l_step Unchecked hd s (LInsert None n) = Done s1 LUnit [] /\
    l_step Unchecked hd s1 LBack = Done s1 (LNode n) [] /\
    l_step Unchecked hd s1 (LLinks n) = Done s1 (LPair p (Some x)) [].
Proof.
  intros H Hb Hni Hne Hx.
  destruct (l_run_ok Unchecked hd (len h) ops _ _ _ _ (l_init_rep h) H) as (s & E & HR).
  destruct HR as (Hn & Hlt & Hh & Ht & HH). exists s.
  destruct (last_snoc (seq m)) as [El|(r & y & El)]; [tauto|].
  assert (Hy : y < len h) by (apply Hlt; rewrite El; apply in_or_app; right; left; reflexivity).
  assert (Hyn : y <> n) by (intros ->; apply Hni; rewrite El; apply in_or_app; right; left; reflexivity).
  cbn [l_step with_check]. rewrite Hh.
  assert (is_null (hd_error (seq m)) = false) as -> by (destruct (seq m); [tauto|reflexivity]).
  unfold unchecked_insert. cbn [is_null].
  destruct (set_prev_ok _ _ _ n (tail s) HH Hb) as (h1 & E1 & H1). rewrite E1.
  rewrite (get_ok _ _ _ n H1 Hb). unfold fupd at 1 2. rewrite N.eqb_refl. cbn [upd_prev prev].
  rewrite Ht, El, last_or_snoc. cbn [is_null].
  destruct (set_next_ok _ _ _ y (Some n) H1 Hy) as (h2 & E2 & H2). rewrite E2.
  assert (Hg : exists p, get h2 (Some n) = Some {| prev := p; next := Some x |}).
  { rewrite (get_ok _ _ _ n H2 Hb). fupds. rewrite (links_out m n) by exact Hni. rewrite Hx. eauto. }
  destruct Hg as (p & Hg). do 2 eexists. split; [exact E|]. split; [reflexivity|].
  cbn [l_step tail heap]. rewrite Hg. split; reflexivity.
Qed.

(** ** Plain lists *)
Definition PRep (l : list N) (m : lspec) : Prop :=
  seq m = l /\ NoDup l /\ forall n, ~ In n l -> loose m n = null_node.

Lemma insertable_plain nodes l m n : PRep l m ->
  (n <? nodes) && negb (mem n l) = true -> insertable Checked nodes m n = true /\ ~ In n l.
Proof.
  intros (E & Hn & Hl) H. apply andb_true_iff in H as (H1 & H2).
  assert (~ In n l) by (apply mem_not; apply negb_true_iff; exact H2). split; [|assumption].
  unfold insertable. rewrite E, H1, H2, Hl by assumption. reflexivity.
Qed.

Lemma release_plain l m l' out : PRep l m -> NoDup l' ->
  (forall n, ~ In n l' -> out n = true \/ ~ In n l) ->
  PRep l' {| seq := l'; loose := release Checked m out |}.
Proof.
  intros (E & Hn & Hl) Hn' Ho. split; [reflexivity|]. split; [exact Hn'|].
  intros n H. cbn [loose]. unfold release. destruct (out n) eqn:Eo; [reflexivity|].
  apply Hl. destruct (Ho n H); [congruence|assumption].
Qed.

Lemma with_seq_plain l m l' : PRep l m -> NoDup l' -> (forall n, In n l -> In n l') ->
  PRep l' {| seq := l'; loose := loose m |}.
Proof.
  intros (E & Hn & Hl) Hn' Hi. split; [reflexivity|]. split; [exact Hn'|].
  intros n H. apply Hl. intros Hin. apply H, Hi, Hin.
Qed.

Lemma plain_sim nodes l m op l' o : PRep l m -> plain_step nodes l op = Some (l', o) ->
  exists m', seq_step Checked nodes m op = Some (m', o) /\ PRep l' m'.
Proof.
  intros HR Hs. pose proof HR as (E & Hn & Hl).
  destruct op as [n|n|it n| | |n| | | | | | |n]; cbn [plain_step seq_step] in *.
  - destruct ((n <? nodes) && negb (mem n l)) eqn:Eo; [|discriminate]. injection Hs as <- <-.
    destruct (insertable_plain _ _ _ _ HR Eo) as (Ei & Hni). rewrite Ei, E. eexists. split; [reflexivity|].
    apply (with_seq_plain l); auto. { constructor; assumption. } intros k Hk. right. exact Hk.
  - destruct ((n <? nodes) && negb (mem n l)) eqn:Eo; [|discriminate]. injection Hs as <- <-.
    destruct (insertable_plain _ _ _ _ HR Eo) as (Ei & Hni). rewrite Ei, E. eexists. split; [reflexivity|].
    apply (with_seq_plain l); auto. { apply NoDup_insert; rewrite app_nil_r; assumption. }
    intros k Hk. apply in_or_app. left. exact Hk.
  - destruct it as [p|].
    + destruct ((n <? nodes) && negb (mem n l)) eqn:Eo; [|discriminate].
      destruct (mem p l) eqn:Ep; [|discriminate]. cbn [andb] in Hs. injection Hs as <- <-.
      destruct (insertable_plain _ _ _ _ HR Eo) as (Ei & Hni). rewrite Ei, E, Ep. cbn [andb].
      eexists. split; [reflexivity|].
      apply mem_In in Ep. apply in_split in Ep as (A & B & El). clear E. subst l.
      rewrite insert_before_split.
      2:{ apply NoDup_remove in Hn. rewrite in_app_iff in Hn. tauto. }
      apply (with_seq_plain (A ++ p :: B)); auto. { apply NoDup_insert; assumption. }
      intros k Hk. rewrite in_app_iff in *. cbn in *. tauto.
    + destruct ((n <? nodes) && negb (mem n l)) eqn:Eo; [|discriminate]. injection Hs as <- <-.
      destruct (insertable_plain _ _ _ _ HR Eo) as (Ei & Hni). rewrite Ei, E, (Hl n Hni). cbn [andb null_node next is_null].
      assert (match l with [] => true | _ :: _ => true end = true) as -> by (destruct l; reflexivity).
      eexists. split; [reflexivity|].
      apply (with_seq_plain l); auto. { apply NoDup_insert; rewrite app_nil_r; assumption. }
      intros k Hk. apply in_or_app. left. exact Hk.
  - rewrite E. destruct l as [|n r]; [discriminate|]. injection Hs as <- <-. eexists. split; [reflexivity|].
    inversion Hn; subst. apply (release_plain (n :: r)); auto.
    intros k Hk. cbn. destruct (N.eqb_spec n k); [left; reflexivity|right]. intros [?|?]; tauto.
  - rewrite E. destruct (last_snoc l) as [->|(r & n & ->)]; [discriminate|]. rewrite rev_unit in *.
    injection Hs as <- <-. eexists. split; [reflexivity|]. rewrite rev_involutive.
    assert (HR' : NoDup r). { apply NoDup_remove in Hn. rewrite app_nil_r in Hn. tauto. }
    apply (release_plain (r ++ [n])); auto. intros k Hk. destruct (N.eqb_spec n k); [left; reflexivity|right].
    rewrite in_app_iff. cbn. tauto.
  - rewrite E. destruct (mem n l) eqn:En; [|discriminate]. injection Hs as <- <-. eexists. split; [reflexivity|].
    apply mem_In in En. apply in_split in En as (A & B & El). clear E. subst l.
    pose proof (NoDup_remove _ _ _ Hn) as (Hn2 & Hni). rewrite without_split by (rewrite in_app_iff in Hni; tauto).
    apply (release_plain (A ++ n :: B)); auto. intros k Hk. destruct (N.eqb_spec n k); [left; reflexivity|right].
    rewrite in_app_iff in *. cbn. tauto.
  - injection Hs as <- <-. eexists. split; [reflexivity|]. rewrite E. apply (release_plain l); auto; [constructor|].
    intros k _. destruct (mem k l) eqn:Ek; [left; reflexivity|right]. apply mem_not. exact Ek.
  - injection Hs as <- <-. exists m. rewrite E. split; [reflexivity|exact HR].
  - rewrite E. destruct l as [|n r]; [discriminate|]. injection Hs as <- <-. exists m. split; [reflexivity|exact HR].
  - rewrite E. destruct (rev l) as [|n r]; [discriminate|]. injection Hs as <- <-. exists m. split; [reflexivity|exact HR].
  - injection Hs as <- <-. exists m. rewrite E. split; [reflexivity|exact HR].
  - injection Hs as <- <-. exists m. rewrite E. split; [reflexivity|exact HR].
  - destruct (n <? nodes) eqn:En; [|discriminate]. injection Hs as <- <-. exists m. split; [|exact HR].
    unfold links. rewrite E. destruct (nbrs None l n) as [nd|] eqn:Enb; [reflexivity|].
    rewrite (Hl n); [reflexivity|]. intros Hin. apply in_split in Hin as (l1 & l2 & El). rewrite El in *.
    rewrite nbrs_in in Enb; [discriminate|]. apply NoDup_remove in Hn. rewrite in_app_iff in Hn. tauto.
Qed.

Lemma plain_run_sim nodes ops : forall l m l' os, PRep l m ->
  spec_run (plain_step nodes) l ops = Some (l', os) ->
  exists m', spec_run (seq_step Checked nodes) m ops = Some (m', os) /\ PRep l' m'.
Proof.
  induction ops as [|op ops IH]; intros l m l' os HR; cbn [spec_run].
  - intros E; injection E as <- <-. exists m. split; [reflexivity|exact HR].
  - destruct (plain_step nodes l op) as [[l1 o]|] eqn:E1; [|discriminate].
    destruct (spec_run (plain_step nodes) l1 ops) as [[l2 os']|] eqn:E2; [|discriminate].
    intros E; injection E as <- <-.
    destruct (plain_sim _ _ _ _ _ _ HR E1) as (m1 & E3 & HR1). rewrite E3.
    destruct (IH _ _ _ _ HR1 E2) as (m2 & E4 & HR2). rewrite E4. exists m2. split; [reflexivity|exact HR2].
Qed.

Lemma plain_init k : PRep [] (l_spec_init (repeat null_node k)).
Proof.
  split; [reflexivity|]. split; [constructor|]. intros n _. cbn.
  destruct (rd (repeat null_node k) n) as [nd|] eqn:E; [|reflexivity].
  unfold rd in E. destruct (n <? len _); [|discriminate]. apply nth_error_In, repeat_spec in E. exact E.
Qed.

Lemma checked_plain hd k ops l os :
  spec_run (plain_step (N.of_nat k)) [] ops = Some (l, os) ->
  exists s, run (l_step Checked hd) (l_init (repeat null_node k)) ops = Done s os [].
Proof.
  intros H. destruct (plain_run_sim _ _ _ _ _ _ (plain_init k) H) as (m & E & _).
  replace (N.of_nat k) with (len (repeat null_node k)) in E by (unfold len; rewrite repeat_length; reflexivity).
  exact (intrusive_list_seq Checked hd _ _ _ _ E).
Qed.

Lemma checked_plain_panics k ops l os n op :
  spec_run (plain_step (N.of_nat k)) [] ops = Some (l, os) ->
  n < N.of_nat k -> is_insertion op n ->
  exists s, run (l_step Checked DoesNotReturn) (l_init (repeat null_node k)) ops = Done s os [] /\
   (l_step Checked DoesNotReturn s op = Stopped s BadListNode <-> In n l /\ l <> [n]).
Proof.
  intros H Hb Hi. destruct (plain_run_sim _ _ _ _ _ _ (plain_init k) H) as (m & E & HR).
  assert (Ek : N.of_nat k = len (repeat null_node k)) by (unfold len; rewrite repeat_length; reflexivity).
  rewrite Ek in E, Hb. destruct (checked_panics _ _ _ _ n op E Hb Hi) as (s & E1 & E2 & E3).
  exists s. split; [exact E1|]. destruct HR as (Es & Hn & Hl). subst l. rewrite E2. split.
  - intros Hu. destruct (mem n (seq m)) eqn:Em.
    + apply mem_In in Em. split; [exact Em|]. intros El. 
      rewrite (links_in m [] n [] El) in Hu by (intros []). discriminate.
    + apply mem_not in Em. rewrite links_out, Hl in Hu by exact Em. discriminate.
  - intros (Hin & Hne). apply E3; [exact Hin|].
    destruct (seq m) as [|a [|b r]]; [destruct Hin| |rewrite !len_cons; lia].
    destruct Hin as [->|[]]. congruence.
Qed.

Lemma checked_plain_sole hd k ops n os :
  spec_run (plain_step (N.of_nat k)) [] ops = Some ([n], os) ->
  exists s s1, run (l_step Checked hd) (l_init (repeat null_node k)) ops = Done s os [] /\
    l_step Checked hd s (LPushFront n) = Done s1 LUnit [] /\
    l_step Checked hd s1 LItems = Undef.
Proof.
  intros H. destruct (plain_run_sim _ _ _ _ _ _ (plain_init k) H) as (m & E & HR).
  assert (Ek : N.of_nat k = len (repeat null_node k)) by (unfold len; rewrite repeat_length; reflexivity).
  rewrite Ek in E. destruct HR as (Es & _ & _). exact (checked_sole_undetected _ _ _ _ n hd E Es).
Qed.
