(** Proofs about what the slots hold. *)
From Verif Require Import Base BaseLemmas CxVectorModel CxQueueModel CxSetModel CxMapModel RetainSpec.
Open Scope N_scope.

Lemma Forall_set_nth {A} (P : A -> Prop) n v l : Forall P l -> P v -> Forall P (set_nth n v l).
Proof. revert n. induction l as [|x l IH]; intros [|n] H Hv; cbn; auto; inversion H; subst; constructor; auto. Qed.
Lemma length_set_nth {A} n (v : A) l : length (set_nth n v l) = length l.
Proof. revert n. induction l as [|x l IH]; intros [|n]; cbn; auto. Qed.
Lemma wr_keeps {A} (P : A -> Prop) l i v l' : wr l i v = Some l' -> P v -> Forall P l -> Forall P l' /\ length l' = length l.
Proof. unfold wr. destruct (i <? len l); [|discriminate]. intros E Hv H. injection E as <-. split; [apply Forall_set_nth; auto|apply length_set_nth]. Qed.
Lemma rd_keeps {A} (P : A -> Prop) l i v : rd l i = Some v -> Forall P l -> P v.
Proof. unfold rd. destruct (i <? len l); [|discriminate]. intros E H. apply nth_error_In in E. rewrite Forall_forall in H. auto. Qed.
Lemma Forall_firstn_ {A} (P : A -> Prop) n l : Forall P l -> Forall P (firstn n l).
Proof. revert n. induction l as [|x l IH]; intros [|n] H; cbn; auto. inversion H; subst. constructor; auto. Qed.
Lemma fill_keeps {A} (P : A -> Prop) ws : forall st st', v_fill st ws = Some st' -> Forall P (map snd ws) -> Forall P st -> Forall P st' /\ length st' = length st.
Proof.
  induction ws as [|[i x] ws IH]; intros st st' E Hx H; cbn in E; [injection E as <-; auto|].
  destruct (wr st i x) as [st1|] eqn:W; [|discriminate]. inversion Hx; subst.
  destruct (wr_keeps P _ _ _ _ W ltac:(auto) H) as [H1 L1]. destruct (IH _ _ E ltac:(auto) H1) as [H9 L9]. split; [auto|congruence].
Qed.
Lemma unused_last {A} n (st l : list A) y : n <= len st -> firstn (N.to_nat n) st = l ++ [y] -> n = len l + 1 /\ exists t, st = l ++ y :: t.
Proof.
  unfold len. intros H E. assert (L : length (firstn (N.to_nat n) st) = N.to_nat n) by (rewrite firstn_length; lia).
  rewrite E, app_length in L. cbn in L. split; [lia|]. exists (skipn (N.to_nat n) st). rewrite <- (firstn_skipn (N.to_nat n) st) at 1. rewrite E, <- app_assoc. reflexivity.
Qed.
Lemma skipn_len_app {A} (l t : list A) : skipn (N.to_nat (len l)) (l ++ t) = t.
Proof. unfold len. rewrite Nat2N.id. induction l; cbn; auto. Qed.
(** A write at or before position [length l] leaves the rest. *)
Lemma set_nth_rest {A} (l : list A) y t i v : (i < length l)%nat -> In y (skipn (length l) (set_nth i v (l ++ y :: t))).
Proof.
  revert i. induction l as [|x l IH]; intros i H; cbn in H; [lia|]. destruct i as [|i]; cbn [app set_nth length skipn]; [clear|apply IH; lia].
  induction l; cbn; auto.
Qed.
Lemma set_nth_same {A} (l : list A) y t : set_nth (length l) y (l ++ y :: t) = l ++ y :: t.
Proof. induction l; cbn; [|f_equal]; auto. Qed.

Lemma count_set_nth {A} (dec : forall x y : A, {x = y} + {x <> y}) l : forall n x y, nth_error l n = Some x -> y <> x ->
  (count_occ dec (set_nth n y l) x + 1 = count_occ dec l x)%nat.
Proof.
  induction l as [|z l IH]; intros [|n] x y E N; cbn in E; try discriminate.
  - injection E as ->. cbn [set_nth]. rewrite count_occ_cons_neq, count_occ_cons_eq; auto. lia.
  - cbn [set_nth]. destruct (dec z x) as [->|M].
    + rewrite !count_occ_cons_eq by auto. specialize (IH n x y E N). lia.
    + rewrite !count_occ_cons_neq by auto. exact (IH n x y E N).
Qed.

(** Along a run: [Inv] is kept, [Out] holds of what is handed out. *)
Lemma run_keeps {P S Op O} (step : S -> Op -> outcome P S O) (Inv : S -> Prop) (In_ : Op -> Prop) (Out : O -> Prop) :
  (forall s o s' r ps, step s o = Done s' r ps -> Inv s -> In_ o -> Inv s' /\ Out r) ->
  forall ops s s' rs ps, run step s ops = Done s' rs ps -> Inv s -> Forall In_ ops -> Inv s' /\ Forall Out rs.
Proof.
  intros H ops. induction ops as [|o ops IH]; intros s s' rs ps E I F; cbn in E; [injection E as <- <- <-; auto|].
  destruct (step s o) as [s1 r1 ps1|s1 p|] eqn:E1; try discriminate.
  destruct (run step s1 ops) as [s2 rs2 ps2|s2 p|] eqn:E2; try discriminate. injection E as <- <- <-.
  inversion F as [|? ? Fo Fr]; subst. destruct (H _ _ _ _ _ E1 I Fo) as [I1 O1]. destruct (IH _ _ _ _ E2 I1 Fr) as [I2 O2]. auto.
Qed.

Lemma v_keeps {A} (P : A -> Prop) cap n v o v' r ps : v_step cap v o = Done v' r ps ->
  Forall P (v_storage v) /\ length (v_storage v) = n -> Forall P (v_given o) ->
  (Forall P (v_storage v') /\ length (v_storage v') = n) /\ Forall P (v_got r).
Proof.
  intros E (H & L) G.
  assert (RD : forall i x, rd (v_storage v) i = Some x -> P x) by (intros i x R; exact (rd_keeps P _ _ _ R H)).
  assert (WR : forall i x sz w, v_write v i x sz = Some w -> P x -> Forall P (v_storage w) /\ length (v_storage w) = n).
  { intros i x sz w. unfold v_write. destruct (wr (v_storage v) i x) as [st|] eqn:W; [|discriminate]. intros X. injection X as <-. cbn. intros Hx. rewrite <- L. exact (wr_keeps P _ _ _ _ W Hx H). }
  assert (IT : forall l, v_items v = Some l -> Forall P l) by (intros l; unfold v_items; destruct (_ <=? _); [|discriminate]; intros X; injection X as <-; apply Forall_firstn_; exact H).
  destruct o; cbn in E, G.
  - inversion G; subst. destruct (v_write v (v_size v) x (sz_inc (v_size v))) as [w|] eqn:W; [|discriminate]. injection E as <- <- <-. destruct (WR _ _ _ _ W ltac:(auto)). cbn; auto.
  - destruct (rd (v_storage v) (sz_dec (v_size v))) as [x|] eqn:R; [|discriminate]. injection E as <- <- <-. cbn. eauto.
  - injection E as <- <- <-. cbn. auto.
  - destruct (rd (v_storage v) i) as [x|] eqn:R; [|discriminate]. injection E as <- <- <-. cbn. eauto.
  - inversion G; subst. destruct (v_write v i x (v_size v)) as [w|] eqn:W; [|discriminate]. injection E as <- <- <-. destruct (WR _ _ _ _ W ltac:(auto)). cbn; auto.
  - destruct (rd (v_storage v) 0) as [x|] eqn:R; [|discriminate]. injection E as <- <- <-. cbn. eauto.
  - destruct (rd (v_storage v) (sz_dec (v_size v))) as [x|] eqn:R; [|discriminate]. injection E as <- <- <-. cbn. eauto.
  - injection E as <- <- <-. cbn. auto.
  - injection E as <- <- <-. cbn. auto.
  - injection E as <- <- <-. cbn. auto.
  - destruct (v_items v) as [l|] eqn:I; [|discriminate]. injection E as <- <- <-. cbn. auto.
  - destruct (v_items v) as [l|] eqn:I; [|discriminate]. injection E as <- <- <-. cbn. split; auto. apply Forall_rev. auto.
  - destruct (v_fill (v_storage v) ws) as [st|] eqn:W; [|discriminate]. injection E as <- <- <-. cbn. destruct (fill_keeps P _ _ _ W G H). split; [split; [auto|congruence]|auto].
Qed.

Lemma q_keeps {A} (mv : A -> A) (P : A -> Prop) (HP : forall x, P x -> P (mv x)) pol h cap n q o q' r ps :
  q_step mv pol h cap q o = Done q' r ps ->
  Forall P (q_storage q) /\ length (q_storage q) = n -> Forall P (q_given o) ->
  (Forall P (q_storage q') /\ length (q_storage q') = n) /\ Forall P (q_got r).
Proof.
  intros E (H & L) G. set (I := fun q' : queue A => Forall P (q_storage q') /\ length (q_storage q') = n).
  assert (AC : forall p b, after_check h p q b = Done q' r ps -> (forall q1 r1, b = Some (q1, r1) -> I q1 /\ Forall P (q_got r1)) -> I q' /\ Forall P (q_got r)).
  { intros p b X K. unfold after_check in X. destruct p, h; try discriminate; (destruct b as [[q1 r1]|]; [|discriminate]; injection X as <- <- <-; exact (K _ _ eq_refl)). }
  assert (PB : forall v q1 i, push_body cap q v = Some (q1, i) -> P v -> I q1).
  { intros v q1 i. unfold push_body. match goal with |- context [wr ?a ?b ?c] => destruct (wr a b c) as [st|] eqn:W end; [|discriminate]. intros X. injection X as <- _. intros Hv.
    destruct (wr_keeps P _ _ _ _ W Hv H). split; cbn; [auto|congruence]. }
  assert (SA : forall q0 i v q1 o1, I q0 -> set_at q0 i v = Some (q1, o1) -> P v -> I q1 /\ Forall P (q_got o1)).
  { intros q0 i v q1 o1 [H0 L0]. unfold set_at. destruct (wr (q_storage q0) i v) as [st|] eqn:W; [|discriminate]. intros X. injection X as <- <-. intros Hv.
    destruct (wr_keeps P _ _ _ _ W Hv H0). split; [split; cbn; [auto|congruence]|cbn; auto]. }
  assert (IQ : I q) by (split; auto).
  destruct o as [v|v w| | | |v|v| | | |]; cbn [q_step] in E; cbn in G.
  - inversion G; subst. apply (AC _ _ E). intros q1 r1 X. destruct (push_body cap q v) as [[q2 i]|] eqn:B; [|discriminate]. injection X as <- <-. cbn. split; [exact (PB _ _ _ B ltac:(auto))|auto].
  - inversion G as [|? ? Gv G']; subst. inversion G'; subst. apply (AC _ _ E). intros q1 r1 X. destruct (push_body cap q v) as [[q2 i]|] eqn:B; [|discriminate].
    exact (SA _ _ _ _ _ (PB _ _ _ B Gv) X ltac:(auto)).
  - apply (AC _ _ E). intros q1 r1 X. unfold pop_body in X. destruct (rd (q_storage q) (q_pop q)) as [e|] eqn:R; [|discriminate]. pose proof (rd_keeps P _ _ _ R H) as He.
    destruct (wr (q_storage q) (q_pop q) (mv e)) as [st|] eqn:W; [|discriminate]. injection X as <- <-. destruct (wr_keeps P _ _ _ _ W (HP _ He) H). split; [split; cbn; [auto|congruence]|cbn; auto].
  - apply (AC _ _ E). intros q1 r1 X. destruct (rd (q_storage q) (q_pop q)) as [e|] eqn:R; [|discriminate]. injection X as <- <-. split; [exact IQ|]. constructor; [exact (rd_keeps P _ _ _ R H)|constructor].
  - apply (AC _ _ E). intros q1 r1 X. destruct (rd (q_storage q) (q_push q)) as [e|] eqn:R; [|discriminate]. injection X as <- <-. split; [exact IQ|]. constructor; [exact (rd_keeps P _ _ _ R H)|constructor].
  - inversion G; subst. apply (AC _ _ E). intros q1 r1 X. exact (SA _ _ _ _ _ IQ X ltac:(auto)).
  - inversion G; subst. apply (AC _ _ E). intros q1 r1 X. exact (SA _ _ _ _ _ IQ X ltac:(auto)).
  - injection E as <- <- <-. split; [exact IQ|cbn; auto].
  - injection E as <- <- <-. split; [exact IQ|cbn; auto].
  - injection E as <- <- <-. split; [exact IQ|cbn; auto].
  - injection E as <- <- <-. split; [exact IQ|cbn; auto].
Qed.

Section SetKeeps.
Context {K : Type} (eqb : K -> K -> bool) (P : K -> Prop) (n : nat).
Definition sinv (s : cset K) : Prop := Forall P (s_storage s) /\ length (s_storage s) = n.
Lemma s_insert_keeps s k s' b : s_insert eqb s k = Some (s', b) -> sinv s -> P k -> sinv s'.
Proof.
  unfold s_insert. destruct (s_contains eqb s k) as [[]|]; [intros X; injection X as <- _; auto| |discriminate].
  destruct (wr (s_storage s) (s_size s) k) as [st|] eqn:W; [|discriminate]. intros X. injection X as <- _. intros [H L] Hk.
  destruct (wr_keeps P _ _ _ _ W Hk H). split; cbn; [auto|congruence].
Qed.
Lemma s_merge_keeps l : forall s s', s_merge eqb s l = Some s' -> sinv s -> Forall P l -> sinv s'.
Proof.
  induction l as [|x l IH]; intros s s' E I F; cbn in E; [injection E as <-; auto|].
  destruct (s_insert eqb s x) as [[s1 b]|] eqn:E1; [|discriminate]. inversion F; subst. apply (IH _ _ E); auto. exact (s_insert_keeps _ _ _ _ E1 I ltac:(auto)).
Qed.
Lemma s_keeps s o s' r ps : s_step eqb s o = Done s' r ps -> sinv s -> Forall P (s_given o) -> sinv s' /\ Forall P (s_got r).
Proof.
  intros E I G. destruct o; cbn in E, G.
  - inversion G; subst. destruct (s_insert eqb s k) as [[s1 b]|] eqn:X; [|discriminate]. injection E as <- <- <-. split; [exact (s_insert_keeps _ _ _ _ X I ltac:(auto))|cbn; auto].
  - destruct (s_erase eqb s k) as [[s1 b]|] eqn:X; [|discriminate]. injection E as <- <- <-. split; [|cbn; auto]. revert X. unfold s_erase.
    destruct (s_items s) as [l|]; [|discriminate]. destruct (find_idx _ l) as [i|]; [|intros X; injection X as <- <-; exact I].
    destruct (rd (s_storage s) (sz_dec (s_size s))) as [y|] eqn:R; [|discriminate]. destruct (wr (s_storage s) (N.of_nat i) y) as [st|] eqn:W; [|discriminate].
    intros X. injection X as <- <-. destruct I as [H L]. destruct (wr_keeps P _ _ _ _ W (rd_keeps P _ _ _ R H) H). split; cbn; [auto|congruence].
  - destruct (s_merge eqb s l) as [s1|] eqn:X; [|discriminate]. injection E as <- <- <-. split; [exact (s_merge_keeps _ _ _ X I G)|cbn; auto].
  - unfold s_pop_back in E. destruct (rd (s_storage s) (sz_dec (s_size s))) as [y|] eqn:R; [|discriminate]. injection E as <- <- <-. split; [exact I|]. constructor; [exact (rd_keeps P _ _ _ R (proj1 I))|constructor].
  - injection E as <- <- <-. split; [exact I|cbn; auto].
  - destruct (s_contains eqb s k); [|discriminate]. injection E as <- <- <-. split; [exact I|cbn; auto].
  - injection E as <- <- <-. split; [exact I|cbn; auto].
  - injection E as <- <- <-. split; [exact I|cbn; auto].
  - unfold s_items in E. destruct (_ <=? _); [|discriminate]. injection E as <- <- <-. split; [exact I|]. apply Forall_firstn_. exact (proj1 I).
Qed.
End SetKeeps.

Section MapKeeps.
Context {K V : Type} (eqb : K -> K -> bool) (P : K -> Prop) (Q : V -> Prop) (n : nat).
Definition entry (e : K * V) : Prop := P (fst e) /\ Q (snd e).
Definition minv (m : cmap K V) : Prop := Forall entry (m_storage m) /\ length (m_storage m) = n.
Lemma m_set_keeps m i v m' : m_set_at m i v = Some m' -> minv m -> Q v -> minv m'.
Proof.
  unfold m_set_at. destruct (rd (m_storage m) (N.of_nat i)) as [[k w]|] eqn:R; [|discriminate]. destruct (wr (m_storage m) (N.of_nat i) (k, v)) as [st|] eqn:W; [|discriminate].
  intros X. injection X as <-. intros [H L] Hv. pose proof (rd_keeps entry _ _ _ R H) as [Hk _].
  destruct (wr_keeps entry _ _ _ _ W (conj Hk Hv) H). split; cbn; [auto|congruence].
Qed.
Lemma m_keeps cap m o m' r ps : m_step eqb cap m o = Done m' r ps -> minv m -> Forall P (m_keys o) /\ Forall Q (m_given o) -> minv m' /\ Forall Q (m_got r).
Proof.
  intros E I [G G']. destruct o; cbn in E, G, G'.
  - inversion G; inversion G'; subst. destruct (m_put eqb m k v) as [[m1 b]|] eqn:X; [|discriminate]. injection E as <- <- <-. split; [|cbn; auto]. revert X. unfold m_put.
    destruct (m_find eqb m k) as [[i|]|]; [| |discriminate].
    + destruct (m_set_at m i v) as [m2|] eqn:S; [|discriminate]. intros X. injection X as <- <-. exact (m_set_keeps _ _ _ _ S I ltac:(auto)).
    + destruct (wr (m_storage m) (m_size m) (k, v)) as [st|] eqn:W; [|discriminate]. intros X. injection X as <- <-. destruct I as [H9 L9].
      assert (He : entry (k, v)) by (split; auto). destruct (wr_keeps entry _ _ _ _ W He H9). split; cbn; [auto|congruence].
  - destruct (m_erase eqb m k) as [[m1 b]|] eqn:X; [|discriminate]. injection E as <- <- <-. split; [|cbn; auto]. revert X. unfold m_erase.
    destruct (m_find eqb m k) as [[i|]|]; [|intros X; injection X as <- <-; exact I|discriminate].
    destruct (rd (m_storage m) (sz_dec (m_size m))) as [e|] eqn:R; [|discriminate]. destruct (wr (m_storage m) (N.of_nat i) e) as [st|] eqn:W; [|discriminate].
    intros X. injection X as <- <-. destruct I as [H L]. destruct (wr_keeps entry _ _ _ _ W (rd_keeps entry _ _ _ R H) H). split; cbn; [auto|congruence].
  - unfold m_get in E. destruct (m_find eqb m k) as [[i|]|]; try discriminate. destruct (rd (m_storage m) (N.of_nat i)) as [e|] eqn:R; [|discriminate]. injection E as <- <- <-.
    split; [exact I|]. constructor; [exact (proj2 (rd_keeps entry _ _ _ R (proj1 I)))|constructor].
  - inversion G'; subst. unfold m_get_assign in E. destruct (m_find eqb m k) as [[i|]|]; try discriminate. destruct (m_set_at m i v) as [m2|] eqn:S; [|discriminate]. injection E as <- <- <-.
    split; [exact (m_set_keeps _ _ _ _ S I ltac:(auto))|cbn; auto].
  - destruct (m_contains eqb m k); [|discriminate]. injection E as <- <- <-. split; [exact I|cbn; auto].
  - unfold m_pop_back in E. destruct (rd (m_storage m) (sz_dec (m_size m))) as [e|] eqn:R; [|discriminate]. injection E as <- <- <-. split; [exact I|].
    constructor; [exact (proj2 (rd_keeps entry _ _ _ R (proj1 I)))|constructor].
  - injection E as <- <- <-. split; [exact I|cbn; auto].
  - injection E as <- <- <-. split; [exact I|cbn; auto].
  - injection E as <- <- <-. split; [exact I|cbn; auto].
  - injection E as <- <- <-. split; [exact I|cbn; auto].
  - unfold m_items in E. destruct (_ <=? _); [|discriminate]. injection E as <- <- <-. split; [exact I|]. cbn.
    apply Forall_map. apply (Forall_impl (P := entry) _ (fun e (H : entry e) => proj2 H)). apply Forall_firstn_. exact (proj1 I).
Qed.
End MapKeeps.
