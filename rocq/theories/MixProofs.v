From Verif Require Import Base BaseLemmas IntrusiveListModel IntrusiveListSpec IntrusiveListProofs ForwardListModel ForwardListSpec ForwardListProofs PoolModel PoolSpec PoolProofs MixModel MixSpec.
Open Scope N_scope.

Definition succ (l : list N) (n : N) : ptr := match after l n with Some p => p | None => None end.
Definition link (k : kind) (l : list N) (n : N) : node :=
  match k with
  | Double => match nbrs None l n with Some nd => nd | None => null_node end
  | Single => {| prev := None; next := succ l n |}
  end.
Definition Rep (k : kind) (nodes : N) (e : ptr * ptr) (h : list node) (l : list N) : Prop :=
  len h = nodes /\ NoDup l /\ (forall n, In n l -> n < nodes) /\ fst e = hd_error l /\ snd e = last_or None l /\
  (forall n, In n l -> at_ h n = link k l n).

Lemma hrep_self h : hrep h (len h) (at_ h).
Proof. split; [reflexivity|]. intros n L. unfold at_. destruct (rd_lt_Some h n L) as (y & Y). rewrite Y. reflexivity. Qed.
Lemma at_over h n : len h <= n -> at_ h n = null_node.
Proof. intros H. unfold at_. rewrite rd_ge_None by exact H. reflexivity. Qed.

Lemma rep_double nodes e h l : Rep Double nodes e h l <-> LRep nodes (as_list e h) (canon l h) /\ len h = nodes.
Proof.
  split.
  - intros (A & B & C & D & E & F). split; [|exact A]. split; [exact B|]. split; [exact C|]. split; [exact D|]. split; [exact E|].
    cbn [as_list heap]. split; [exact A|]. intros n L. unfold links, canon. cbn [seq loose]. rewrite <- A in L.
    destruct (hrep_self h) as (_ & Q). rewrite (Q n L). f_equal.
    destruct (in_dec N.eq_dec n l) as [I|I]; [|rewrite nbrs_out by exact I; reflexivity].
    rewrite (F n I). cbn [link]. destruct (nbrs None l n) eqn:X; [reflexivity|].
    exfalso. apply in_split in I as (l1 & l2 & ->). rewrite nbrs_in in X; [discriminate|]. apply NoDup_remove in B. rewrite in_app_iff in B. tauto.
  - intros ((B & C & D & E & F) & A). split; [exact A|]. split; [exact B|]. split; [exact C|]. split; [exact D|]. split; [exact E|].
    intros n I. rewrite (hrep_at h _ _ n F) by (apply C; exact I). unfold links, canon. cbn [seq loose link].
    destruct (nbrs None l n) eqn:X; [reflexivity|].
    exfalso. apply in_split in I as (l1 & l2 & ->). rewrite nbrs_in in X; [discriminate|]. cbn [canon seq] in B. apply NoDup_remove in B. rewrite in_app_iff in B. tauto.
Qed.

Definition inserts (h : list node) (l : list N) (op : l_op) : Prop :=
  match op with
  | LPushFront n | LPushBack n | LInsert _ n => at_ h n = null_node
  | LLinks n => In n l \/ at_ h n = null_node
  | _ => True
  end.
(** What a step does to the memory and the list. *)
Definition good (k : kind) (nodes : N) (h : list node) (l : list N) (op : l_op) (t : ilist) (l' : list N) : Prop :=
  Rep k nodes (head t, tail t) (heap t) l' /\
  (forall n, ~ In n l -> ~ In n l' -> at_ (heap t) n = at_ h n) /\
  (forall n, In n l -> ~ In n l' -> at_ (heap t) n = null_node) /\
  (forall n, In n l' -> In n l \/ is_insertion op n).

Lemma double_ok hd nodes e h l op l' x : Rep Double nodes e h l -> inserts h l op -> plain_step nodes l op = Some (l', x) ->
  exists t, l_step Checked hd (as_list e h) op = Done t x [] /\ good Double nodes h l op t l'.
Proof.
  intros R0 K P. apply rep_double in R0 as (R & HM). set (m := canon l h) in *.
  assert (OK : node_ok m op) by (destruct op; exact K).
  destruct (pool_sim nodes m op l' x (proj1 R) OK P) as (m' & Sm & Em & Ho & Hg & Hi).
  destruct (l_step_ok Checked hd nodes _ _ _ _ _ R Sm) as (t & St & Rt).
  exists t. split; [exact St|].
  assert (Hm : forall n, n < nodes -> at_ (heap t) n = links m' n) by (intros n L; apply (hrep_at _ nodes); [apply Rt | exact L]).
  assert (LT : len (heap t) = nodes) by apply Rt.
  split; [|split; [|split]].
  - apply rep_double. split; [|exact LT]. apply canon_rep in Rt. rewrite Em in Rt. destruct t as [th tt hh]. exact Rt.
  - intros n A B. destruct (N.lt_ge_cases n nodes) as [L|L].
    + rewrite Hm by exact L. rewrite (links_out m') by (rewrite Em; exact B). rewrite Ho by exact A. reflexivity.
    + rewrite !at_over by lia. reflexivity.
  - intros n A B. rewrite Hm by (apply R; exact A). rewrite (links_out m') by (rewrite Em; exact B). apply Hg; assumption.
  - exact Hi.
Qed.

(** The forward list. *)
Lemma succ_cons n l x : x <> n -> succ (n :: l) x = succ l x.
Proof. intros H. unfold succ. cbn [after]. destruct (N.eqb_spec n x); [congruence|reflexivity]. Qed.
Lemma succ_head n l : succ (n :: l) n = hd_error l.
Proof. unfold succ. cbn [after]. rewrite N.eqb_refl. reflexivity. Qed.
Lemma chain_walk h w : NoDup w -> (forall n, In n w -> n < len h) -> (forall n, In n w -> next (at_ h n) = succ w n) ->
  forall fuel, (length w <= fuel)%nat -> walk next fuel h (hd_error w) = Some w.
Proof.
  induction w as [|x w IH]; intros Hn Hb Hs fuel Hf; [destruct fuel; reflexivity|].
  destruct fuel as [|fuel]; [cbn in Hf; lia|]. cbn [hd_error walk].
  rewrite (get_ok h (len h) (at_ h) x (hrep_self h)) by (apply Hb; left; reflexivity).
  rewrite (Hs x) by (left; reflexivity). rewrite succ_head. inversion Hn; subst.
  rewrite IH; [reflexivity | assumption | intros n I; apply Hb; right; exact I | | cbn in Hf; lia].
  intros n I. rewrite Hs by (right; exact I). apply succ_cons. intros ->. contradiction.
Qed.
Lemma rep_walk k nodes e h l : Rep k nodes e h l -> walk next (length h) h (fst e) = Some l.
Proof.
  intros (A & B & C & D & E & F). rewrite D. apply chain_walk; [exact B | rewrite A; exact C | |].
  - intros n I. rewrite (F n I). destruct k; [|reflexivity]. cbn [link].
    apply in_split in I as (l1 & l2 & ->). assert (~ In n l1) by (apply NoDup_remove in B; rewrite in_app_iff in B; tauto).
    rewrite nbrs_in by assumption. unfold succ. rewrite after_in by assumption. reflexivity.
  - pose proof (NoDup_bound l nodes B C) as Q. unfold len in *. lia.
Qed.
Lemma fwd_clear_loop nodes l : forall fuel h f, hrep h nodes f -> NoDup l -> (forall n, In n l -> n < nodes) -> (length l <= fuel)%nat ->
  (forall n, In n l -> next (f n) = succ l n) ->
  exists h', clear_loop fuel h (hd_error l) = Some h' /\ hrep h' nodes (fun n => if mem n l then null_node else f n).
Proof.
  induction l as [|x l IH]; intros fuel h f H Hn Hlt Hf Hc.
  - exists h. destruct fuel; (split; [reflexivity|]); exact H.
  - destruct fuel as [|fuel]; [cbn in Hf; lia|]. cbn [hd_error clear_loop].
    assert (Hx : x < nodes) by (apply Hlt; left; reflexivity).
    destruct (set_prev_ok _ _ _ x None H Hx) as (h1 & E1 & H1). rewrite E1.
    rewrite (get_ok _ _ _ x H1 Hx).
    destruct (set_next_ok _ _ _ x None H1 Hx) as (h2 & E2 & H2). rewrite E2.
    assert (Enx : next (fupd f x (upd_prev None (f x)) x) = hd_error l).
    { unfold fupd. rewrite N.eqb_refl. cbn [upd_prev next]. rewrite Hc by (left; reflexivity). apply succ_head. }
    rewrite Enx. inversion Hn as [|x' l' Hxl Hl]; subst x' l'.
    destruct (IH fuel h2 _ H2 Hl) as (h3 & E3 & H3).
    + intros k Hk. apply Hlt. right. exact Hk.
    + cbn in Hf. lia.
    + intros k Hk. assert (Hkx : k <> x) by (intros ->; tauto). fupds; rewrite Hc by (right; exact Hk); apply succ_cons; exact Hkx.
    + exists h3. split; [exact E3|]. revert H3. apply hrep_ext. intros a _.
      unfold mem. cbn [existsb]. destruct (existsb (N.eqb a) l) eqn:Ea.
      * rewrite orb_true_r. reflexivity.
      * rewrite orb_false_r. fupds; reflexivity.
Qed.

Lemma check_null hd h e n body : n < len h -> at_ h n = null_node ->
  with_check Checked hd (as_list e h) n body = match body with Some s' => Done s' LUnit [] | None => Undef end.
Proof. intros L A. unfold with_check, valid_for_push. cbn [as_list heap]. rewrite (get_ok h _ _ n (hrep_self h) L), A. reflexivity. Qed.

Lemma single_ok hd nodes e h l op l' x : Rep Single nodes e h l -> inserts h l op -> plain_forward nodes l op = Some (l', x) ->
  exists t, fwd_step Checked hd (as_list e h) op = Done t x [] /\ good Single nodes h l op t l'.
Proof.
  intros R K P. pose proof R as (HM & ND & HB & H1 & H2 & HN). destruct e as [e1 e2]. cbn [fst snd] in H1, H2.
  pose proof (hrep_self h) as HS. rewrite HM in HS.
  assert (Same : forall op', good Single nodes h l op' (as_list (e1, e2) h) l).
  { intros op'. split; [exact R|]. split; [reflexivity|]. split; [intros; contradiction | auto]. }
  destruct op as [n|n|it n| | |n| | | | | | |n]; cbn [plain_forward plain_step inserts] in *; try discriminate; cbn [fwd_step].
  - destruct ((n <? nodes) && negb (mem n l)) eqn:Eo; [|discriminate]. injection P as <- <-.
    apply andb_true_iff in Eo as (L & M). apply N.ltb_lt in L. apply negb_true_iff, mem_not in M.
    rewrite check_null by (assumption || lia). unfold fwd_push_front. cbn [as_list heap head tail fst snd].
    destruct (set_next_ok _ _ _ n e1 HS L) as (h1 & E1 & Q). rewrite E1. eexists. split; [reflexivity|].
    assert (At : forall k, k <> n -> at_ h1 k = at_ h k).
    { intros k kn. destruct (N.lt_ge_cases k nodes) as [Lk|Lk]; [|rewrite !at_over by (destruct Q; lia); reflexivity].
      rewrite (hrep_at _ _ _ k Q Lk). fupds; reflexivity. }
    assert (An : at_ h1 n = {| prev := None; next := e1 |}) by (rewrite (hrep_at _ _ _ n Q L); fupds; rewrite K; reflexivity).
    split; [|split; [|split]]; cbn [head tail heap].
    + split; [apply Q|]. split; [constructor; assumption|]. split; [intros k [->|I]; auto|]. split; [reflexivity|]. split.
      * cbn [snd]. rewrite H2. destruct (last_snoc l) as [->|(r & y & ->)]; [reflexivity|]. rewrite last_or_snoc. cbn [is_null].
        change (n :: r ++ [y]) with ((n :: r) ++ [y]). rewrite last_or_snoc. reflexivity.
      * intros k [<-|I]; cbn [link]; [rewrite An, succ_head, H1; reflexivity|].
        assert (k <> n) by (intros ->; contradiction). rewrite At by assumption. rewrite succ_cons by assumption. apply HN. exact I.
    + intros k A B. apply At. intros ->. apply B. left. reflexivity.
    + intros k A B. exfalso. apply B. right. exact A.
    + intros k [->|I]; [right; left; reflexivity | left; exact I].
  - destruct ((n <? nodes) && negb (mem n l)) eqn:Eo; [|discriminate]. injection P as <- <-.
    apply andb_true_iff in Eo as (L & M). apply N.ltb_lt in L. apply negb_true_iff, mem_not in M.
    rewrite check_null by (assumption || lia). unfold fwd_push_back. cbn [as_list heap head tail fst snd].
    assert (X : exists h1, (if is_null e2 then Some h else set_next h e2 (Some n)) = Some h1 /\
      hrep h1 nodes (fun k => if peq (last_or None l) k then {| prev := prev (at_ h k); next := Some n |} else at_ h k)).
    { rewrite H2. destruct (last_snoc l) as [->|(r & y & El)]; [exists h; split; [reflexivity | exact HS]|]. rewrite El, last_or_snoc. cbn [is_null peq].
      assert (Ly : y < nodes) by (apply HB; rewrite El; apply in_or_app; right; left; reflexivity).
      destruct (set_next_ok _ _ _ y (Some n) HS Ly) as (h1 & E1 & Q). exists h1. split; [exact E1|]. revert Q. apply hrep_ext. intros a _. fupds; reflexivity. }
    destruct X as (h1 & E1 & Q1). rewrite E1. destruct (set_next_ok _ _ _ n None Q1 L) as (h2 & E2 & Q2). rewrite E2. eexists. split; [reflexivity|].
    assert (Pn : peq (last_or None l) n = false).
    { destruct l as [|y l0]; [reflexivity|]. apply last_or_notin; [exact M | discriminate]. }
    assert (At : forall k, k < nodes -> k <> n -> at_ h2 k = if peq (last_or None l) k then {| prev := prev (at_ h k); next := Some n |} else at_ h k).
    { intros k Lk kn. rewrite (hrep_at _ _ _ k Q2 Lk). unfold fupd. destruct (N.eqb_spec k n); [congruence|]. destruct (N.eqb_spec n k); [congruence|]. reflexivity. }
    assert (An : at_ h2 n = null_node).
    { rewrite (hrep_at _ _ _ n Q2 L). unfold fupd. rewrite N.eqb_refl, Pn, K. reflexivity. }
    split; [|split; [|split]]; cbn [head tail heap].
    + split; [apply Q2|]. split; [apply NoDup_insert; rewrite app_nil_r; assumption|]. split; [intros k I; apply in_app_or in I as [I|[<-|[]]]; auto|].
      split; [cbn [fst]; rewrite H1; destruct l; reflexivity|]. split; [cbn [snd]; rewrite last_or_snoc; reflexivity|].
      intros k I. cbn [link]. destruct (N.eq_dec k n) as [->|kn].
      * rewrite An. unfold succ. rewrite after_in by exact M. reflexivity.
      * apply in_app_or in I as [I|[->|[]]]; [|congruence]. rewrite At by auto. unfold succ. rewrite after_snoc by assumption.
        rewrite (HN k I). cbn [link]. destruct (peq (last_or None l) k); reflexivity.
    + intros k A B. destruct (N.lt_ge_cases k nodes) as [Lk|Lk]; [|rewrite !at_over by (destruct Q2; lia); reflexivity].
      assert (k <> n) by (intros ->; apply B; apply in_or_app; right; left; reflexivity). rewrite At by assumption.
      destruct l as [|y l0]; [reflexivity|]. rewrite last_or_notin by (assumption || discriminate). reflexivity.
    + intros k A B. exfalso. apply B. apply in_or_app. left. exact A.
    + intros k I. apply in_app_or in I as [I|[<-|[]]]; [left; exact I | right; right; left; reflexivity].
  - destruct l as [|n r]; [discriminate|]. injection P as <- <-. unfold fwd_pop_front. cbn [as_list heap head tail fst snd hd_error] in *. rewrite H1.
    assert (L : n < nodes) by (apply HB; left; reflexivity).
    rewrite (get_ok h nodes _ n HS L), (HN n) by (left; reflexivity). cbn [link next]. rewrite succ_head.
    destruct (on_pop_ok Checked _ _ _ n HS L) as (h1 & E1 & Q). rewrite E1. cbn [ret]. eexists. split; [reflexivity|].
    inversion ND; subst.
    assert (At : forall k, k <> n -> at_ h1 k = at_ h k).
    { intros k kn. destruct (N.lt_ge_cases k (len h)) as [Lk|Lk]; [|rewrite !at_over by (destruct Q; lia); reflexivity].
      rewrite (hrep_at _ _ _ k Q Lk). fupds; reflexivity. }
    assert (An : at_ h1 n = null_node) by (rewrite (hrep_at _ _ _ n Q L); fupds; reflexivity).
    split; [|split; [|split]]; cbn [head tail heap].
    + split; [apply Q|]. split; [assumption|]. split; [intros k I; apply HB; right; exact I|]. split; [reflexivity|]. split.
      * cbn [snd]. destruct r as [|y r]; [reflexivity|]. cbn [hd_error is_null]. rewrite !last_or_cons. reflexivity.
      * intros k I. assert (k <> n) by (intros ->; contradiction). rewrite At by assumption. rewrite (HN k) by (right; exact I). cbn [link]. rewrite succ_cons by assumption. reflexivity.
    + intros k A B. apply At. intros ->. apply A. left. reflexivity.
    + intros k [<-|A] B; [exact An | contradiction].
    + intros k I. left. right. exact I.
  - injection P as <- <-. cbn [as_list heap head tail fst snd on_clear]. rewrite H1.
    destruct (fwd_clear_loop nodes l (length h) h _ HS ND HB) as (h1 & E1 & Q).
    + pose proof (NoDup_bound l nodes ND HB) as B. unfold len in *. lia.
    + intros k I. rewrite (HN k I). reflexivity.
    + rewrite E1. cbn [ret]. eexists. split; [reflexivity|]. split; [|split; [|split]]; cbn [head tail heap].
      * split; [apply Q|]. split; [constructor|]. split; [intros k []|]. split; [reflexivity|]. split; [reflexivity|]. intros k [].
      * intros k A _. destruct (N.lt_ge_cases k nodes) as [Lk|Lk]; [|rewrite !at_over by (destruct Q; lia); reflexivity].
        rewrite (hrep_at _ _ _ k Q Lk). apply mem_not in A. rewrite A. reflexivity.
      * intros k A _. rewrite (hrep_at _ _ _ k Q) by auto. apply mem_In in A. rewrite A. reflexivity.
      * intros k [].
  - injection P as <- <-. eexists. split; [|apply Same]. cbn [as_list head fst]. rewrite H1. destruct l; reflexivity.
  - destruct l as [|n r]; [discriminate|]. injection P as <- <-. eexists. split; [|apply Same]. cbn [as_list head heap fst snd hd_error] in *. rewrite H1.
    rewrite (get_ok h nodes _ n HS) by (apply HB; left; reflexivity). reflexivity.
  - destruct (last_snoc l) as [->|(r & n & El)]; [discriminate|]. rewrite El, rev_unit in P. injection P as <- <-. rewrite <- El.
    eexists. split; [|apply Same]. cbn [as_list tail heap fst snd]. rewrite El, last_or_snoc in H2. rewrite H2.
    rewrite (get_ok h nodes _ n HS) by (apply HB; rewrite El; apply in_or_app; right; left; reflexivity). reflexivity.
  - injection P as <- <-. eexists. split; [|apply Same]. cbn [as_list head heap fst]. pose proof (rep_walk _ _ _ _ _ R) as W. cbn [fst] in W. rewrite W. reflexivity.
  - destruct (n <? nodes) eqn:L; [|discriminate]. apply N.ltb_lt in L. injection P as <- <-. eexists. split; [|apply Same]. cbn [as_list heap].
    rewrite (get_ok h nodes _ n HS L). cbn [ret]. f_equal.
    destruct (in_dec N.eq_dec n l) as [I|I].
    + rewrite (HN n I). reflexivity.
    + rewrite after_out by exact I. destruct K as [K| ->]; [contradiction | reflexivity].
Qed.

Lemma kind_ok k hd nodes e h l op l' x : Rep k nodes e h l -> inserts h l op -> plain_of k nodes l op = Some (l', x) ->
  exists t, kind_step k Checked hd (as_list e h) op = Done t x [] /\ good k nodes h l op t l'.
Proof. destruct k; [apply double_ok | apply single_ok]. Qed.

(** The pool. *)
Record MixRep (kinds : list kind) (nodes : N) (s : pool) (ls : list (list N)) : Prop := {
  mr_len : len (ends s) = len ls;
  mr_mem : len (memory s) = nodes;
  mr_rep : forall i k l e, rd kinds i = Some k -> rd ls i = Some l -> rd (ends s) i = Some e -> Rep k nodes e (memory s) l;
  mr_dis : forall i j l l' n, rd ls i = Some l -> rd ls j = Some l' -> In n l -> In n l' -> i = j;
  mr_free : forall n, (forall i l, rd ls i = Some l -> ~ In n l) -> at_ (memory s) n = null_node }.

Lemma rd_checked kinds i : rd (all_checked kinds) i = match rd kinds i with Some k => Some (k, Checked) | None => None end.
Proof. unfold all_checked. rewrite !rd_nth_error, nth_error_map. destruct (nth_error kinds (N.to_nat i)); reflexivity. Qed.

Lemma mix_step_ok hd kinds nodes s ls op ls' o : len kinds = len ls -> MixRep kinds nodes s ls -> mix_lists kinds nodes ls op = Some (ls', o) ->
  exists s', mix_step (all_checked kinds) hd s op = Done s' o [] /\ MixRep kinds nodes s' ls' /\ len ls' = len ls.
Proof.
  intros HK [HL HM HR HD HF] Hs. destruct op as [i op]. cbn [mix_lists mix_step] in *. rewrite rd_checked.
  destruct (rd kinds i) as [k|] eqn:Rk; [|discriminate].
  destruct (rd ls i) as [l|] eqn:Rl; [|discriminate].
  assert (Re : exists e, rd (ends s) i = Some e) by (apply rd_lt_Some; rewrite HL; eapply rd_Some_lt; eauto).
  destruct Re as (e & Re). pose proof (HR i k l e Rk Rl Re) as R.
  assert (OK : inserts (memory s) l op /\ forall n, is_insertion op n -> free ls n = true).
  { unfold is_insertion. destruct op as [n|n|it n| | |n| | | | | | |n]; cbn [inserts];
      try (split; [exact I|]; intros q [Q|[Q|(z & Q)]]; discriminate).
    1-3: destruct (free ls n) eqn:F; [|discriminate]; split; [apply HF, free_spec; exact F | intros q [Q|[Q|(z & Q)]]; congruence].
    destruct (mem n l || free ls n) eqn:F; [|discriminate]. split; [|intros q [Q|[Q|(z & Q)]]; discriminate].
    apply orb_true_iff in F as [F|F]; [left; now apply mem_In | right; apply HF, free_spec; exact F]. }
  destruct OK as (OK & FI).
  match type of Hs with (if ?c then _ else _) = _ => destruct c; [|discriminate] end.
  destruct (plain_of k nodes l op) as [[l' x]|] eqn:P; [|discriminate].
  destruct (wr ls i l') as [ls1|] eqn:Wl; [|discriminate]. injection Hs as <- <-.
  destruct (kind_ok k hd nodes e (memory s) l op l' x R OK P) as (t & St & Gr & Out & Gone & Hi).
  rewrite Re, St. unfold put_back.
  destruct (wr_lt_Some (ends s) i (head t, tail t)) as (es & We); [rewrite HL; eapply rd_Some_lt; eauto|]. rewrite We.
  eexists. split; [reflexivity|]. split; [|exact (wr_len _ _ _ _ Wl)].
  assert (Inl' : forall n q l2, In n l' -> rd ls q = Some l2 -> In n l2 -> q = i).
  { intros n q l2 A B C. destruct (Hi n A) as [Q|Q].
    - exact (HD q i l2 l n B Rl C Q).
    - apply FI in Q. rewrite free_spec in Q. exfalso. exact (Q q l2 B C). }
  assert (Rd : forall q, rd ls1 q = if q =? i then Some l' else rd ls q) by (intros q; apply (rd_wr _ _ _ _ q Wl)).
  constructor; cbn [ends memory].
  - rewrite (wr_len _ _ _ _ We), (wr_len _ _ _ _ Wl). exact HL.
  - apply Gr.
  - intros q kq lq eq_ Kq Rq Req. rewrite Rd in Rq. rewrite (rd_wr _ _ _ _ q We) in Req.
    destruct (N.eqb_spec q i) as [->|qi].
    + injection Rq as <-. injection Req as <-. rewrite Rk in Kq. injection Kq as <-. exact Gr.
    + pose proof (HR q kq lq eq_ Kq Rq Req) as (A1 & A2 & A3 & A4 & A5 & A6). split; [apply Gr|]. repeat (split; [assumption|]).
      intros n I. rewrite Out; [apply A6; exact I | |].
      * intros H. apply qi. exact (HD q i lq l n Rq Rl I H).
      * intros H. apply qi. exact (Inl' n q lq H Rq I).
  - intros a b la lb n Ra Rb Ia Ib. rewrite Rd in Ra, Rb.
    destruct (N.eqb_spec a i) as [->|ai], (N.eqb_spec b i) as [->|bi]; auto.
    + injection Ra as <-. symmetry. exact (Inl' n b lb Ia Rb Ib).
    + injection Rb as <-. exact (Inl' n a la Ib Ra Ia).
    + exact (HD a b la lb n Ra Rb Ia Ib).
  - intros n H. assert (A : ~ In n l') by (apply (H i); rewrite Rd, N.eqb_refl; reflexivity).
    destruct (in_dec N.eq_dec n l) as [B|B].
    + apply Gone; assumption.
    + rewrite Out by assumption. apply HF. intros q lq Rq C. destruct (N.eqb_spec q i) as [->|qi]; [rewrite Rl in Rq; injection Rq as <-; contradiction|].
      apply (H q lq); [|exact C]. rewrite Rd. apply N.eqb_neq in qi. rewrite qi. exact Rq.
Qed.

Lemma mix_init_ok kinds k : MixRep kinds (N.of_nat k) (mix_init (all_checked kinds) k) (repeat [] (length kinds)).
Proof.
  unfold mix_init. unfold all_checked. rewrite map_length. destruct (pool_init (length kinds) k) as [A B C D F]. constructor; auto.
  intros i q l e Kq Rl Re. pose proof (C i l e Rl Re) as R. cbn [p_init ends memory] in *. apply rd_repeat in Rl, Re. subst.
  split; [exact B|]. split; [constructor|]. split; [intros n []|]. split; [reflexivity|]. split; [reflexivity|]. intros n [].
Qed.
Lemma mix_run_ok hd kinds nodes ops : forall s ls ls' os, len kinds = len ls -> MixRep kinds nodes s ls -> spec_run (mix_lists kinds nodes) ls ops = Some (ls', os) ->
  exists s', run (mix_step (all_checked kinds) hd) s ops = Done s' os [] /\ MixRep kinds nodes s' ls' /\ len ls' = len ls.
Proof.
  induction ops as [|op ops IH]; intros s ls ls' os HK R; cbn [spec_run run].
  - intros E; injection E as <- <-. exists s. split; [reflexivity|]. split; [exact R | reflexivity].
  - destruct (mix_lists kinds nodes ls op) as [[l1 o]|] eqn:E1; [|discriminate].
    destruct (spec_run (mix_lists kinds nodes) l1 ops) as [[l2 os']|] eqn:E2; [|discriminate].
    intros E; injection E as <- <-.
    destruct (mix_step_ok hd kinds nodes _ _ _ _ _ HK R E1) as (s1 & E3 & R1 & L1). rewrite E3.
    destruct (IH s1 l1 l2 os' (eq_trans HK (eq_sym L1)) R1 E2) as (s2 & E4 & R2 & L2). rewrite E4. exists s2. split; [reflexivity|]. split; [exact R2 | congruence].
Qed.
Lemma mix_run_init hd kinds k ops ls outs : spec_run (mix_lists kinds (N.of_nat k)) (repeat [] (length kinds)) ops = Some (ls, outs) ->
  exists s, run (mix_step (all_checked kinds) hd) (mix_init (all_checked kinds) k) ops = Done s outs [] /\ MixRep kinds (N.of_nat k) s ls /\ len ls = len kinds.
Proof.
  intros H. assert (L : len kinds = len (repeat (@nil N) (length kinds))) by (unfold len; rewrite repeat_length; reflexivity).
  destruct (mix_run_ok hd kinds _ ops _ _ _ _ L (mix_init_ok kinds k) H) as (s & A & B & C). exists s. split; [exact A|]. split; [exact B | congruence].
Qed.

Lemma link_noticed k l n : NoDup l -> In n l -> unlinked (link k l n) = false <-> noticed k l n.
Proof.
  intros ND I. destruct k; cbn [link noticed].
  - split.
    + intros U. split; [exact I|]. intros ->. cbn in U. rewrite N.eqb_refl in U. discriminate.
    + intros (_ & NS). destruct (sole_or_two l n I) as [->|T]; [congruence|]. destruct (nbrs_two l n I ND T) as (nd & E1 & E2). rewrite E1. exact E2.
  - unfold succ. split.
    + intros U. apply in_split in I as (l1 & l2 & ->). rewrite after_in in U by (apply NoDup_remove in ND; rewrite in_app_iff in ND; tauto).
      destruct l2 as [|x l2]; [discriminate|]. eauto.
    + intros (l1 & x & l2 & ->). rewrite after_in by (apply NoDup_remove in ND; rewrite in_app_iff in ND; tauto). reflexivity.
Qed.
Lemma noticed_in k l n : noticed k l n -> In n l.
Proof. destruct k; cbn; [intros (A & _); exact A | intros (a & x & b & ->); apply in_or_app; right; left; reflexivity]. Qed.
Lemma in_some_list ls n : free ls n = false -> exists j l, rd ls j = Some l /\ In n l.
Proof.
  intros F. assert (X : exists l', In l' ls /\ In n l').
  { unfold free in F. induction ls as [|l ls IH]; [discriminate|]. cbn in F. destruct (mem n l) eqn:M.
    - exists l. split; [left; reflexivity | apply mem_In; exact M].
    - destruct (IH F) as (l' & A & B). exists l'. split; [right; exact A | exact B]. }
  destruct X as (l' & A & B). apply In_nth_error in A as (j & A). exists (N.of_nat j), l'.
  split; [rewrite rd_nth_error, Nat2N.id; exact A | exact B].
Qed.
Lemma check_panics h e n body hd t p : n < len h ->
  with_check Checked hd (as_list e h) n body = Stopped t p <-> hd = DoesNotReturn /\ unlinked (at_ h n) = false /\ t = as_list e h /\ p = BadListNode.
Proof.
  intros L. unfold with_check, valid_for_push. cbn [as_list heap]. rewrite (get_ok h _ _ n (hrep_self h) L).
  change (is_null (prev (at_ h n)) && is_null (next (at_ h n))) with (unlinked (at_ h n)). destruct (unlinked (at_ h n)).
  - split; [destruct body; discriminate | intros (_ & B & _); discriminate].
  - destruct hd; [split; [destruct body; discriminate | intros (B & _); discriminate]|].
    split; [intros E; injection E as <- <-; auto | intros (_ & _ & -> & ->); reflexivity].
Qed.
