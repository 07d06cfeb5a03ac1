(** Proofs about spans. *)
From Verif Require Import Base BaseLemmas BitLemmas BitsetProofs BitsetProofs2 SpanModel SpanSpec.
Open Scope N_scope.

Lemma dyn_mod : dyn + 1 = size_mod.
Proof. reflexivity. Qed.
Global Opaque dyn.

Lemma rd_map' {A B} (f : A -> B) l i : rd (map f l) i = match rd l i with Some x => Some (f x) | None => None end.
Proof.
  destruct (N.ltb_spec i (len l)) as [H|H].
  - destruct (rd_lt_Some l i H) as (x & E). rewrite E. rewrite rd_nth_error. rewrite rd_nth_error in E. apply map_nth_error. exact E.
  - rewrite !rd_ge_None; [reflexivity|exact H|unfold len in *; rewrite map_length; exact H].
Qed.
Lemma set_nth_map {A B} (f : A -> B) x l : forall n, set_nth n (f x) (map f l) = map f (set_nth n x l).
Proof. induction l as [|y l IH]; intros [|n]; cbn; congruence. Qed.
Lemma wr_map' {A B} (f : A -> B) l i x : wr (map f l) i (f x) = match wr l i x with Some l' => Some (map f l') | None => None end.
Proof. unfold wr, len. rewrite map_length. destruct (i <? _); [|reflexivity]. rewrite set_nth_map. reflexivity. Qed.
Lemma wr_Forall {A} (P : A -> Prop) l i x l' : wr l i x = Some l' -> Forall P l -> P x -> Forall P l'.
Proof.
  intros E Hf Hx. apply Forall_forall. intros y Hy. apply In_nth_error in Hy as (j & Hj).
  pose proof (rd_wr l l' i x (N.of_nat j) E) as Er. rewrite rd_nth_error, Nat2N.id, Hj in Er. destruct (N.of_nat j =? i).
  - assert (y = x) by congruence. subst. exact Hx.
  - rewrite Forall_forall in Hf. apply Hf. rewrite rd_nth_error in Er. symmetry in Er. exact (nth_error_In _ _ Er).
Qed.

Lemma window_mk e p c : window_of (mk e p c) = Window p (match static_of e with Some x => x | None => c end) (static_of e).
Proof. unfold window_of, mk, size, static_of. cbn [ptr ext stored]. destruct (e =? dyn); reflexivity. Qed.
Lemma window_dyn p c : window_of (mk dyn p c) = Window p c None.
Proof. rewrite window_mk. unfold static_of. rewrite N.eqb_refl. reflexivity. Qed.
Lemma window_static p c : c <> dyn -> window_of (mk c p c) = Window p c (Some c).
Proof. intros H. rewrite window_mk. unfold static_of. destruct (N.eqb_spec c dyn); [contradiction|reflexivity]. Qed.
Lemma size_cnt s : size s = cnt (window_of s).
Proof. reflexivity. Qed.
(** A span's extent is dynamic or its size. *)
Lemma ext_cases s : (ext s = dyn /\ fixed (window_of s) = None) \/ (ext s <> dyn /\ ext s = size s /\ fixed (window_of s) = Some (size s)).
Proof.
  unfold window_of, size, static_of. cbn [fixed]. destruct (N.eqb_spec (ext s) dyn) as [E|E]; [left|right]; auto.
Qed.
Lemma padd_ok n p d : p + d <= n -> padd n p d = Some (p + d).
Proof. intros H. unfold padd. rewrite (proj2 (N.leb_le _ _) H). reflexivity. Qed.
Lemma psub_ok p d : d <= p -> psub p d = Some (p - d).
Proof. intros H. unfold psub. rewrite (proj2 (N.leb_le _ _) H). reflexivity. Qed.
Lemma usub_ok x y : y <= x -> x < size_mod -> usub x y = x - y.
Proof.
  intros H1 H2. unfold usub. replace (x + size_mod - y) with (x - y + 1 * size_mod) by lia. rewrite N.mod_add by lia. apply N.mod_small. lia.
Qed.
Lemma usub_wrap x y : x < y -> y < size_mod -> usub x y = x + size_mod - y.
Proof. intros H1 H2. unfold usub. apply N.mod_small. lia. Qed.

(** ** The narrowing operations *)
Lemma first_s_ok n c s : n < dyn -> good_window n (window_of s) -> c <= size s ->
  exists s', first_s c s = Formed s' /\ window_of s' = Window (ptr s) c (Some c).
Proof.
  intros Hn (Hg & _) Hc. cbn [off cnt window_of] in Hg. exists (mk c (ptr s) c). split; [|apply window_static; lia].
  unfold first_s. destruct (N.leb_spec c (ext s)) as [H|H]; [reflexivity|]. destruct (ext_cases s) as [(E & _)|(_ & E & _)]; lia.
Qed.
Lemma last_s_ok n c s : n < dyn -> good_window n (window_of s) -> c <= size s ->
  exists s', last_s n c s = Formed s' /\ window_of s' = Window (ptr s + size s - c) c (Some c).
Proof.
  intros Hn (Hg & _) Hc. cbn [off cnt window_of] in Hg. exists (mk c (ptr s + size s - c) c). split; [|apply window_static; lia].
  unfold last_s. destruct (N.leb_spec c (ext s)) as [H|H]; [|destruct (ext_cases s) as [(E & _)|(_ & E & _)]; lia].
  rewrite padd_ok by lia. rewrite psub_ok by lia. reflexivity.
Qed.
Lemma last_d_ok n c s : good_window n (window_of s) -> c <= size s -> last_d n c s = Formed (mk dyn (ptr s + size s - c) c).
Proof. intros (Hg & _) Hc. cbn [off cnt window_of] in Hg. unfold last_d. rewrite padd_ok by lia. rewrite psub_ok by lia. reflexivity. Qed.
Lemma subspan_s_ok n o c s : n < dyn -> good_window n (window_of s) -> o <= size s -> (c = dyn \/ o + c <= size s) ->
  exists s', subspan_s n o c s = Formed s' /\
    window_of s' = Window (ptr s + o) (if c =? dyn then size s - o else c)
      (if c =? dyn then match fixed (window_of s) with Some e => Some (e - o) | None => None end else Some c).
Proof.
  intros Hn (Hg & _) Ho Hc. cbn [off cnt window_of] in Hg. unfold subspan_s. destruct (N.eqb_spec c dyn) as [E|E]; cbn [negb].
  - destruct (ext_cases s) as [(Ex & F)|(Ex & Es & F)]; rewrite F; destruct (N.eqb_spec (ext s) dyn) as [E1|E1]; try contradiction; cbn [negb].
    + rewrite padd_ok by lia. eexists. split; [reflexivity|]. pose proof dyn_mod. rewrite usub_ok by lia. apply window_dyn.
    + destruct (N.leb_spec o (ext s)); [|lia]. rewrite padd_ok by lia. eexists. split; [reflexivity|]. rewrite Es. apply window_static. lia.
  - destruct Hc as [Hc|Hc]; [contradiction|]. assert (H : size s <= ext s) by (destruct (ext_cases s) as [(Ex & _)|(_ & Ex & _)]; lia).
    destruct (N.leb_spec o (ext s)); [|lia]. destruct (N.leb_spec c (ext s)); [|lia]. destruct (N.leb_spec o (ext s - c)); [|lia]. cbn [andb].
    rewrite padd_ok by lia. eexists. split; [reflexivity|]. apply window_static. exact E.
Qed.
Lemma subspan_d_ok n o c s : n < dyn -> good_window n (window_of s) -> o <= size s ->
  subspan_d n o c s = Formed (mk dyn (ptr s + o) (N.min c (size s - o))).
Proof.
  intros Hn (Hg & _) Ho. cbn [off cnt window_of] in Hg. unfold subspan_d. rewrite padd_ok by lia. pose proof dyn_mod. rewrite usub_ok by lia. reflexivity.
Qed.

(** ** What windows show *)
Lemma shown_length {A} (l : list A) w : off w + cnt w <= len l -> length (shown l w) = N.to_nat (cnt w).
Proof. intros H. unfold shown. rewrite firstn_length, skipn_length. unfold len in H. lia. Qed.
Lemma shown_len {A} (l : list A) w : off w + cnt w <= len l -> len (shown l w) = cnt w.
Proof. intros H. unfold len at 1. rewrite shown_length by exact H. lia. Qed.
Lemma rd_shown {A} (l : list A) w i : i < cnt w -> rd (shown l w) i = rd l (off w + i).
Proof.
  intros H. rewrite !rd_nth_error. unfold shown. rewrite nth_error_firstn' by lia. rewrite nth_error_skipn'. f_equal. lia.
Qed.
Lemma shown_ext {A} (l x : list A) w : off w + cnt w <= len l -> len x = cnt w -> (forall i, i < cnt w -> rd x i = rd l (off w + i)) -> x = shown l w.
Proof.
  intros H1 H2 H3. apply rd_ext; [rewrite shown_len; assumption|]. intros i Hi. rewrite rd_shown by lia. apply H3. lia.
Qed.
Lemma walk_ok {A} (l : list A) c : forall p, p + N.of_nat c <= len l -> walk l p c = Some (shown l (Window p (N.of_nat c) None)).
Proof.
  induction c as [|c IH]; intros p H; cbn [walk].
  - reflexivity.
  - destruct (rd_lt_Some l p ltac:(lia)) as (x & E). rewrite E. rewrite IH by lia. f_equal.
    unfold shown. cbn [off cnt]. rewrite !Nat2N.id. replace (N.to_nat (p + 1)) with (S (N.to_nat p)) by lia. rewrite rd_nth_error in E.
    clear - E. revert E. generalize (N.to_nat p) as n. intros n. revert l. induction n as [|n IH]; intros l E.
    + destruct l as [|y l]; [discriminate|]. cbn in E. assert (y = x) by congruence. subst. reflexivity.
    + destruct l as [|y l]; [discriminate|]. cbn in E. cbn [skipn]. rewrite <- (IH l E). destruct l; reflexivity.
Qed.
Lemma walk_back_ok {A} (l : list A) c : forall p, p <= len l -> N.of_nat c <= p -> walk_back l p c = Some (rev (shown l (Window (p - N.of_nat c) (N.of_nat c) None))).
Proof.
  induction c as [|c IH]; intros p H1 H2; cbn [walk_back].
  - reflexivity.
  - rewrite psub_ok by lia. destruct (rd_lt_Some l (p - 1) ltac:(lia)) as (x & E). rewrite E. rewrite IH by lia. f_equal.
    set (w := Window (p - N.of_nat (S c)) (N.of_nat (S c)) None).
    assert (Hw : shown l (Window (p - 1 - N.of_nat c) (N.of_nat c) None) ++ [x] = shown l w).
    { apply shown_ext; cbn [off cnt w]; [lia| |].
      - rewrite len_app, shown_len by (cbn [off cnt]; lia). unfold len. cbn [length]. cbn [cnt]. lia.
      - intros i Hi. destruct (N.ltb_spec i (N.of_nat c)).
        + rewrite rd_app1 by (rewrite shown_len by (cbn [off cnt]; lia); exact H). rewrite rd_shown by exact H. cbn [off]. f_equal. lia.
        + rewrite rd_app2 by (rewrite shown_len by (cbn [off cnt]; lia); exact H). rewrite shown_len by (cbn [off cnt]; lia). cbn [cnt].
          replace (i - N.of_nat c) with 0 by lia. rewrite rd_cons0, <- E. f_equal. lia. }
    rewrite <- Hw, rev_app_distr. reflexivity.
Qed.

(** ** Refinement *)
Section Refine.
Context {A : Type}.
Definition R (st : sstate A) (m : sview A) : Prop := good_sstate st /\ m = view st.

Lemma put_sim (st : sstate A) d x w : good_sstate st -> d < len (wins (view st)) -> window_of x = w -> good_window (len (arr st)) w ->
  exists l, wr (spans st) d x = Some l /\ holds (view st) (view (SState (arr st) l)) d w /\ good_sstate (SState (arr st) l).
Proof.
  intros (G1 & G2) Hd Hx Hw. cbn [wins view] in Hd. unfold len in Hd. rewrite map_length in Hd.
  destruct (wr_lt_Some (spans st) d x Hd) as (l & E). exists l. split; [exact E|]. split.
  - split; [reflexivity|]. cbn [wins view spans arr]. rewrite <- Hx, wr_map', E. reflexivity.
  - split; [exact G1|]. cbn [arr spans]. apply (wr_Forall _ _ _ _ _ E G2). rewrite Hx. exact Hw.
Qed.
Lemma get_sim (st : sstate A) s (P : window -> Prop) : good_sstate st -> at_win (view st) s P ->
  exists x, rd (spans st) s = Some x /\ P (window_of x) /\ good_window (len (arr st)) (window_of x) /\ rd (wins (view st)) s = Some (window_of x).
Proof.
  intros (_ & G) (w & E & H). pose proof E as E'. cbn [wins view] in E. rewrite rd_map' in E. destruct (rd (spans st) s) as [x|] eqn:Ex; [|discriminate].
  assert (w = window_of x) by congruence. subst w. exists x. repeat split; auto; rewrite Forall_forall in G; apply (G x); rewrite rd_nth_error in Ex; exact (nth_error_In _ _ Ex).
Qed.

Lemma sstep_sim st m op : R st m -> spre m op ->
  exists st' o m', sstep st op = Done st' o [] /\ sspec m op o m' /\ R st' m'.
Proof.
  intros (G & ->) Hp. assert (HR : R st (view st)) by (split; auto). pose proof G as (G1 & _).
  assert (Hdyn : len (arr st) <> dyn) by lia.
  assert (Put : forall d x w, d < len (wins (view st)) -> window_of x = w -> good_window (len (arr st)) w ->
    exists st' m', match wr (spans st) d x with Some l => Done (SState (arr st) l) SUnit [] | None => Undef end = Done (P:=unit) st' (SUnit (A:=A)) [] /\
                   holds (view st) m' d w /\ R st' m').
  { intros d x w Hd Hx Hw. destruct (put_sim st d x w G Hd Hx Hw) as (l & E & Hh & Hg). rewrite E.
    exists (SState (arr st) l), (view (SState (arr st) l)). split; [reflexivity|]. split; [exact Hh|]. split; auto. }
  destruct op as [d e|d e p c|d s e|d s c|d s c|d s c|d s c|d s o c|d s o c|s|s|s|s|s i|s i v|s i|s|s]; cbn [spre] in Hp; cbn [sstep sspec].
  - destruct Hp as (Hd & He). unfold of_array. cbn [elems view] in *.
    assert (E : (e =? dyn) || (e <=? len (arr st)) = true) by (destruct (N.eqb_spec e dyn), (N.leb_spec e (len (arr st))); try reflexivity; lia). rewrite E.
    edestruct (Put d _ _ Hd (window_mk e 0 (len (arr st)))) as (st' & m' & Es & Hh & Hr).
    + unfold good_window, static_of. cbn [off cnt fixed]. destruct (N.eqb_spec e dyn); split; try exact I; lia.
    + exists st', SUnit, m'. auto.
  - destruct Hp as (Hd & Hpc & He). cbn [elems view] in *. unfold of_iter, form. rewrite padd_ok by lia. rewrite N.add_0_r.
    edestruct (Put d _ _ Hd (window_mk e p c)) as (st' & m' & Es & Hh & Hr).
    + unfold good_window, static_of. cbn [off cnt fixed]. destruct (N.eqb_spec e dyn); split; try exact I; lia.
    + exists st', SUnit, m'. auto.
  - destruct Hp as (Hd & Hs). destruct (get_sim st s _ G Hs) as (x & Ex & He & (Hg & _) & Ew). rewrite Ex. unfold convert. cbn [off cnt window_of] in *.
    edestruct (Put d _ _ Hd (window_mk e (ptr x) (size x))) as (st' & m' & Es & Hh & Hr).
    + unfold good_window, static_of. cbn [off cnt fixed]. destruct (N.eqb_spec e dyn); split; try exact I; lia.
    + exists st', SUnit, m'. split; [exact Es|]. split; [|exact Hr]. split; [reflexivity|]. exists (window_of x). split; [exact Ew|exact Hh].
  - destruct Hp as (Hd & Hs). destruct (get_sim st s _ G Hs) as (x & Ex & Hc & Hg & Ew). rewrite Ex. cbn [cnt window_of] in Hc.
    destruct (first_s_ok _ c x G1 Hg Hc) as (x' & E' & W'). rewrite E'. destruct Hg as (Hg & _). cbn [off cnt window_of] in Hg.
    edestruct (Put d _ _ Hd W') as (st' & m' & Es & Hh & Hr).
    + split; [cbn [off cnt]; lia|reflexivity].
    + exists st', SUnit, m'. split; [exact Es|]. split; [|exact Hr]. split; [reflexivity|]. exists (window_of x). split; [exact Ew|exact Hh].
  - destruct Hp as (Hd & Hs). destruct (get_sim st s _ G Hs) as (x & Ex & Hc & Hg & Ew). rewrite Ex. cbn [cnt window_of] in Hc.
    unfold first_d. destruct Hg as (Hg & _). cbn [off cnt window_of] in Hg.
    edestruct (Put d _ _ Hd (window_dyn (ptr x) c)) as (st' & m' & Es & Hh & Hr).
    + split; [cbn [off cnt]; lia|exact I].
    + exists st', SUnit, m'. split; [exact Es|]. split; [|exact Hr]. split; [reflexivity|]. exists (window_of x). split; [exact Ew|exact Hh].
  - destruct Hp as (Hd & Hs). destruct (get_sim st s _ G Hs) as (x & Ex & Hc & Hg & Ew). rewrite Ex. cbn [cnt window_of] in Hc.
    destruct (last_s_ok _ c x G1 Hg Hc) as (x' & E' & W'). rewrite E'. destruct Hg as (Hg & _). cbn [off cnt window_of] in Hg.
    edestruct (Put d _ _ Hd W') as (st' & m' & Es & Hh & Hr).
    + split; [cbn [off cnt]; lia|reflexivity].
    + exists st', SUnit, m'. split; [exact Es|]. split; [|exact Hr]. split; [reflexivity|]. exists (window_of x). split; [exact Ew|exact Hh].
  - destruct Hp as (Hd & Hs). destruct (get_sim st s _ G Hs) as (x & Ex & Hc & Hg & Ew). rewrite Ex. cbn [cnt window_of] in Hc.
    rewrite last_d_ok by assumption. destruct Hg as (Hg & _). cbn [off cnt window_of] in Hg.
    edestruct (Put d _ _ Hd (window_dyn (ptr x + size x - c) c)) as (st' & m' & Es & Hh & Hr).
    + split; [cbn [off cnt]; lia|exact I].
    + exists st', SUnit, m'. split; [exact Es|]. split; [|exact Hr]. split; [reflexivity|]. exists (window_of x). split; [exact Ew|exact Hh].
  - destruct Hp as (Hd & Hs). destruct (get_sim st s _ G Hs) as (x & Ex & (Ho & Hc) & Hg & Ew). rewrite Ex. cbn [cnt window_of] in Ho, Hc.
    destruct (subspan_s_ok _ o c x G1 Hg Ho Hc) as (x' & E' & W'). rewrite E'. destruct Hg as (Hg & _). cbn [off cnt window_of] in Hg.
    edestruct (Put d _ _ Hd W') as (st' & m' & Es & Hh & Hr).
    + destruct (N.eqb_spec c dyn) as [Ec|Ec].
      * split; [cbn [off cnt]; lia|]. cbn [fixed cnt]. destruct (ext_cases x) as [(_ & F)|(_ & _ & F)]; rewrite F; [exact I|reflexivity].
      * split; [cbn [off cnt]; lia|reflexivity].
    + exists st', SUnit, m'. split; [exact Es|]. split; [|exact Hr]. split; [reflexivity|]. exists (window_of x). split; [exact Ew|exact Hh].
  - destruct Hp as (Hd & Hs). destruct (get_sim st s _ G Hs) as (x & Ex & Ho & Hg & Ew). rewrite Ex. cbn [cnt window_of] in Ho.
    rewrite subspan_d_ok by assumption. destruct Hg as (Hg & _). cbn [off cnt window_of] in Hg.
    edestruct (Put d _ _ Hd (window_dyn (ptr x + o) (N.min c (size x - o)))) as (st' & m' & Es & Hh & Hr).
    + split; [cbn [off cnt]; lia|exact I].
    + exists st', SUnit, m'. split; [exact Es|]. split; [|exact Hr]. split; [reflexivity|]. exists (window_of x). split; [exact Ew|exact Hh].
  - destruct (get_sim st s _ G Hp) as (x & Ex & _ & (Hg & _) & Ew). rewrite Ex. eexists _, _, (view st). split; [reflexivity|]. split; [|exact HR].
    split; [reflexivity|]. exists (window_of x). split; [exact Ew|]. cbn [elems view]. rewrite shown_len by exact Hg. reflexivity.
  - destruct (get_sim st s _ G Hp) as (x & Ex & _ & (Hg & _) & Ew). rewrite Ex. eexists _, _, (view st). split; [reflexivity|]. split; [|exact HR].
    split; [reflexivity|]. exists (window_of x). split; [exact Ew|]. eexists. split; [reflexivity|]. cbn [elems view].
    assert (Ee : empty x = (size x =? 0)) by (unfold empty, size; destruct (ext x =? dyn); reflexivity). rewrite Ee, N.eqb_eq.
    split.
    + intros E. unfold shown. cbn [cnt window_of]. rewrite E. reflexivity.
    + intros E. pose proof (shown_len (arr st) (window_of x) Hg) as L. rewrite E in L. change (len (@nil A)) with 0 in L. cbn [cnt window_of] in L. lia.
  - destruct (get_sim st s _ G Hp) as (x & Ex & Hc & (Hg & _) & Ew). rewrite Ex. cbn [cnt off window_of] in Hc, Hg.
    destruct (rd_lt_Some (arr st) (ptr x) ltac:(lia)) as (v & Ev). rewrite Ev. eexists _, _, (view st). split; [reflexivity|]. split; [|exact HR].
    split; [reflexivity|]. exists (window_of x). split; [exact Ew|]. cbn [elems view].
    pose proof (rd_shown (arr st) (window_of x) 0 Hc) as Er. cbn [off window_of] in Er. rewrite N.add_0_r, Ev in Er.
    destruct (shown (arr st) (window_of x)) as [|y r]; [discriminate|]. rewrite rd_cons0 in Er. assert (y = v) by congruence. subst y. exists v, r. auto.
  - destruct (get_sim st s _ G Hp) as (x & Ex & Hc & (Hg & _) & Ew). rewrite Ex. cbn [cnt off window_of] in Hc, Hg.
    rewrite padd_ok by lia. rewrite psub_ok by lia. destruct (rd_lt_Some (arr st) (ptr x + size x - 1) ltac:(lia)) as (v & Ev). rewrite Ev.
    eexists _, _, (view st). split; [reflexivity|]. split; [|exact HR].
    split; [reflexivity|]. exists (window_of x). split; [exact Ew|]. cbn [elems view]. exists v.
    destruct (exists_last (l := shown (arr st) (window_of x))) as (r & y & Ey).
    { intros E. pose proof (shown_len (arr st) (window_of x) Hg) as L. rewrite E in L. change (len (@nil A)) with 0 in L. cbn [cnt window_of] in L. lia. }
    pose proof (shown_len (arr st) (window_of x) Hg) as L. rewrite Ey, len_app in L. change (len [y]) with 1 in L. cbn [cnt window_of] in L.
    pose proof (rd_shown (arr st) (window_of x) (size x - 1) ltac:(cbn [cnt window_of]; lia)) as Er. cbn [off window_of] in Er.
    rewrite Ey, rd_app2 in Er by lia. replace (size x - 1 - len r) with 0 in Er by lia. rewrite rd_cons0 in Er.
    replace (ptr x + (size x - 1)) with (ptr x + size x - 1) in Er by lia. assert (y = v) by congruence. subst y. exists r. auto.
  - destruct (get_sim st s _ G Hp) as (x & Ex & Hc & (Hg & _) & Ew). rewrite Ex. cbn [cnt off window_of] in Hc, Hg.
    destruct (rd_lt_Some (arr st) (ptr x + i) ltac:(lia)) as (v & Ev). rewrite Ev. eexists _, _, (view st). split; [reflexivity|]. split; [|exact HR].
    split; [reflexivity|]. exists (window_of x). split; [exact Ew|]. exists v. split; [|reflexivity]. cbn [elems view]. rewrite rd_shown by exact Hc. exact Ev.
  - destruct (get_sim st s _ G Hp) as (x & Ex & Hc & (Hg & _) & Ew). rewrite Ex. cbn [cnt off window_of] in Hc, Hg.
    destruct (wr_lt_Some (arr st) (ptr x + i) v ltac:(lia)) as (a & Ea). rewrite Ea.
    eexists _, _, (view (SState a (spans st))). split; [reflexivity|]. pose proof (wr_len _ _ _ _ Ea) as La. split.
    + split; [reflexivity|]. split; [reflexivity|]. exists (window_of x). split; [exact Ew|exact Ea].
    + split; [|reflexivity]. destruct G as (_ & G2). split; cbn [arr spans]; rewrite La; assumption.
  - destruct (get_sim st s _ G Hp) as (x & Ex & Hc & (Hg & _) & Ew). rewrite Ex. cbn [cnt off window_of] in Hc, Hg.
    assert (E : (ext x =? dyn) || (i <? ext x) = true).
    { destruct (ext_cases x) as [(E & _)|(_ & E & _)]; rewrite E; [rewrite N.eqb_refl; reflexivity|].
      destruct (N.ltb_spec i (size x)); [apply orb_true_r|lia]. }
    rewrite E.
    destruct (rd_lt_Some (arr st) (ptr x + i) ltac:(lia)) as (v & Ev). rewrite Ev. eexists _, _, (view st). split; [reflexivity|]. split; [|exact HR].
    split; [reflexivity|]. exists (window_of x). split; [exact Ew|]. exists v. split; [|reflexivity]. cbn [elems view]. rewrite rd_shown by exact Hc. exact Ev.
  - destruct (get_sim st s _ G Hp) as (x & Ex & _ & (Hg & _) & Ew). rewrite Ex. cbn [cnt off window_of] in Hg.
    rewrite padd_ok by lia. rewrite walk_ok by lia. eexists _, _, (view st). split; [reflexivity|]. split; [|exact HR].
    split; [reflexivity|]. exists (window_of x). split; [exact Ew|]. rewrite N2Nat.id. reflexivity.
  - destruct (get_sim st s _ G Hp) as (x & Ex & _ & (Hg & _) & Ew). rewrite Ex. cbn [cnt off window_of] in Hg.
    rewrite padd_ok by lia. rewrite walk_back_ok by lia. eexists _, _, (view st). split; [reflexivity|]. split; [|exact HR].
    split; [reflexivity|]. exists (window_of x). split; [exact Ew|]. rewrite N2Nat.id. replace (ptr x + size x - size x) with (ptr x) by lia. reflexivity.
Qed.
Theorem sstep_conforms ops (st : sstate A) : good_sstate st -> conforms sstep spre sspec st (view st) ops.
Proof. intros G. apply (conforms_sim _ _ _ R sstep_sim). split; auto. Qed.
End Refine.
