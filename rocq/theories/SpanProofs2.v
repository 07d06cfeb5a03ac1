(** Chains of narrowings, bytes of spans, sizes. *)
From Verif Require Import Base BaseLemmas BitLemmas BitsetProofs BitsetProofs2 SpanModel SpanSpec SpanProofs.
Open Scope N_scope.

Lemma skipn_skipn' {A} (l : list A) : forall a b, skipn b (skipn a l) = skipn (a + b) l.
Proof. induction l as [|x l IH]; intros [|a] b; cbn [skipn Nat.add]; try reflexivity; [destruct b; reflexivity|apply IH]. Qed.
Lemma firstn_skipn_shown {A} (l : list A) w o c : o <= cnt w -> firstn (N.to_nat c) (skipn (N.to_nat o) (shown l w)) = shown l (Window (off w + o) (N.min c (cnt w - o)) None).
Proof.
  intros H. unfold shown. cbn [off cnt]. rewrite skipn_firstn_comm, skipn_skipn'. rewrite firstn_firstn.
  f_equal; [lia|f_equal; lia].
Qed.
Lemma narrow_one {A} (l : list A) b k s : len l < dyn -> good_window (len l) (window_of s) -> fits b k (len (shown l (window_of s))) ->
  exists s', narrow_model b (len l) k s = Formed s' /\ good_window (len l) (window_of s') /\
             shown l (window_of s') = narrow_list k (shown l (window_of s)).
Proof.
  intros Hn Hg Hf. pose proof (proj1 Hg) as Hw. rewrite shown_len in Hf by exact Hw. pose proof (shown_length l (window_of s) Hw) as Hl. cbn [off cnt window_of] in Hw, Hf, Hl.
  assert (Skip : forall c, c <= size s -> skipn (length (shown l (window_of s)) - N.to_nat c) (shown l (window_of s)) = shown l (Window (ptr s + size s - c) c None)).
  { intros c Hc. rewrite Hl. rewrite <- (firstn_all2 (n:=N.to_nat c) (skipn _ _)) by (rewrite skipn_length, Hl; lia).
    replace (N.to_nat (size s) - N.to_nat c)%nat with (N.to_nat (size s - c)) by lia.
    rewrite firstn_skipn_shown by (cbn [cnt window_of]; lia). cbn [off cnt window_of]. unfold shown. cbn [off cnt]. f_equal; [lia|f_equal; lia]. }
  assert (Fst : forall c, c <= size s -> firstn (N.to_nat c) (shown l (window_of s)) = shown l (Window (ptr s) c None)).
  { intros c Hc. change (shown l (window_of s)) with (skipn (N.to_nat 0) (shown l (window_of s))). rewrite firstn_skipn_shown by lia. cbn [off cnt window_of].
    unfold shown. cbn [off cnt]. f_equal; [lia|f_equal; lia]. }
  assert (Sh : forall o c f, shown l (Window o c f) = shown l (Window o c None)) by reflexivity.
  destruct k as [c|c|o c]; cbn [narrow_model narrow_list fits] in *; destruct b.
  - destruct (first_s_ok _ c s Hn Hg Hf) as (s' & E & W). exists s'. rewrite W, Sh, Fst by exact Hf. repeat split; auto. cbn [off cnt]. lia.
  - exists (mk dyn (ptr s) c). rewrite window_dyn, Fst by exact Hf. repeat split; auto. cbn [off cnt]. lia.
  - destruct (last_s_ok _ c s Hn Hg Hf) as (s' & E & W). exists s'. rewrite W, Sh, Skip by exact Hf. repeat split; auto. cbn [off cnt]. lia.
  - rewrite last_d_ok by assumption. eexists. split; [reflexivity|]. rewrite window_dyn, Skip by exact Hf. repeat split; auto. cbn [off cnt]. lia.
  - destruct Hf as (Ho & Hc). specialize (Hc eq_refl). destruct (subspan_s_ok _ o c s Hn Hg Ho Hc) as (s' & E & W). exists s'. split; [exact E|]. rewrite W. split.
    + split.
      * cbn [off cnt]. destruct (N.eqb_spec c dyn); lia.
      * cbn [fixed cnt]. destruct (N.eqb_spec c dyn); [|reflexivity]. destruct (ext_cases s) as [(_ & F)|(_ & _ & F)]; rewrite F; [exact I|reflexivity].
    + rewrite Sh. rewrite firstn_skipn_shown by exact Ho. cbn [off cnt window_of]. do 2 f_equal. destruct (N.eqb_spec c dyn); lia.
  - destruct Hf as (Ho & _). rewrite subspan_d_ok by assumption. eexists. split; [reflexivity|]. rewrite window_dyn. rewrite firstn_skipn_shown by exact Ho.
    repeat split; auto. cbn [off cnt]. lia.
Qed.
Theorem narrow_chain {A} (l : list A) ks : forall s, len l < dyn -> good_window (len l) (window_of s) -> fits_all ks (shown l (window_of s)) ->
  exists s', narrow_all (len l) ks s = Formed s' /\ good_window (len l) (window_of s') /\
             shown l (window_of s') = narrow_lists ks (shown l (window_of s)).
Proof.
  induction ks as [|(b & k) ks IH]; intros s Hn Hg Hf; cbn [narrow_all].
  - exists s. auto.
  - destruct Hf as (Hf & Hr). destruct (narrow_one l b k s Hn Hg Hf) as (s1 & E1 & G1 & S1). rewrite E1. rewrite <- S1 in Hr.
    destruct (IH s1 Hn G1 Hr) as (s' & E & G & S). exists s'. split; [exact E|]. split; [exact G|]. rewrite S, S1. reflexivity.
Qed.

(** Narrowing a static span with static arguments is fully checked at compile time. *)
Theorem static_checked n k s : n < dyn -> good_window n (window_of s) -> ext s <> dyn ->
  (fits true k (size s) -> exists s', narrow_model true n k s = Formed s') /\
  (~ fits true k (size s) -> narrow_model true n k s = Rejected).
Proof.
  intros Hn Hg Hx. assert (Es : ext s = size s) by (destruct (ext_cases s) as [(E & _)|(_ & E & _)]; [contradiction|exact E]).
  pose proof (proj1 Hg) as Hw. cbn [off cnt window_of] in Hw. destruct k as [c|c|o c]; cbn [fits narrow_model]; split; intros H.
  - destruct (first_s_ok _ c s Hn Hg H) as (s' & E & _). exists s'. exact E.
  - unfold first_s. destruct (N.leb_spec c (ext s)); [lia|reflexivity].
  - destruct (last_s_ok _ c s Hn Hg H) as (s' & E & _). exists s'. exact E.
  - unfold last_s. destruct (N.leb_spec c (ext s)); [lia|reflexivity].
  - destruct H as (Ho & Hc). destruct (subspan_s_ok _ o c s Hn Hg Ho (Hc eq_refl)) as (s' & E & _). exists s'. exact E.
  - unfold subspan_s. destruct (N.eqb_spec c dyn) as [Ec|Ec]; cbn [negb].
    + destruct (N.eqb_spec (ext s) dyn); [contradiction|]. cbn [negb]. destruct (N.leb_spec o (ext s)); [|reflexivity].
      exfalso. apply H. split; [lia|]. intros _. left. exact Ec.
    + destruct (N.leb_spec o (ext s)); [|reflexivity]. destruct (N.leb_spec c (ext s)); [|reflexivity]. destruct (N.leb_spec o (ext s - c)); [|reflexivity].
      exfalso. apply H. split; [lia|]. intros _. right. lia.
Qed.

(** Subspans of subspans. *)
Theorem subspan_compose n o1 c1 o2 c2 s : n < dyn -> good_window n (window_of s) -> o1 <= size s -> o2 <= N.min c1 (size s - o1) ->
  exists s1 s2, subspan_d n o1 c1 s = Formed s1 /\ subspan_d n o2 c2 s1 = Formed s2 /\
    subspan_d n (o1 + o2) (N.min c2 (c1 - o2)) s = Formed s2.
Proof.
  intros Hn Hg H1 H2. pose proof (proj1 Hg) as Hw. cbn [off cnt window_of] in Hw. rewrite subspan_d_ok by assumption.
  eexists _, _. split; [reflexivity|]. assert (W := window_dyn (ptr s + o1) (N.min c1 (size s - o1))).
  assert (Sz : size (mk dyn (ptr s + o1) (N.min c1 (size s - o1))) = N.min c1 (size s - o1)) by (rewrite size_cnt, W; reflexivity).
  split; [apply subspan_d_ok|].
  - exact Hn.
  - rewrite W. split; [cbn [off cnt]; lia|exact I].
  - rewrite Sz. exact H2.
  - rewrite subspan_d_ok by (try assumption; lia). rewrite Sz. f_equal. unfold mk. rewrite N.eqb_refl. cbn [ptr]. f_equal; lia.
Qed.

(** A static extent larger than the source is accepted by the conversions. *)
Theorem static_conversion n s e : e <> dyn -> size s < e ->
  exists s', convert e s = Formed s' /\ size s' = e /\ (ptr s + size s = n -> ~ good_window n (window_of s')).
Proof.
  intros He Hs. eexists. split; [reflexivity|]. rewrite size_cnt, window_mk. unfold static_of. destruct (N.eqb_spec e dyn); [contradiction|].
  split; [reflexivity|]. intros Hp (H & _). cbn [off cnt] in H. lia.
Qed.

(** ** Bytes *)
Lemma concat_skip {A} (r : A -> list N) k l : (forall x, len (r x) = k) -> forall p, skipn (p * N.to_nat k) (concat (map r l)) = concat (map r (skipn p l)).
Proof.
  intros Hr. induction l as [|x l IH]; intros [|p]; cbn [map concat skipn Nat.mul]; try reflexivity.
  - rewrite skipn_nil. reflexivity.
  - rewrite <- skipn_skipn'. pose proof (Hr x) as Hx. unfold len in Hx.
    replace (skipn (N.to_nat k) (r x ++ concat (map r l))) with (concat (map r l)); [apply IH|]. replace (N.to_nat k) with (length (r x)) by lia.
    rewrite skipn_app, skipn_all, Nat.sub_diag. reflexivity.
Qed.
Lemma concat_first {A} (r : A -> list N) k l : (forall x, len (r x) = k) -> forall p, firstn (p * N.to_nat k) (concat (map r l)) = concat (map r (firstn p l)).
Proof.
  intros Hr. induction l as [|x l IH]; intros [|p]; cbn [map concat firstn Nat.mul]; try reflexivity.
  - rewrite firstn_nil. reflexivity.
  - pose proof (Hr x) as Hx. unfold len in Hx. replace (N.to_nat k + p * N.to_nat k)%nat with (length (r x) + p * N.to_nat k)%nat by lia.
    rewrite firstn_app_2. f_equal. apply IH.
Qed.
Theorem as_bytes_ok {A} (r : A -> list N) k (l : list A) s : (forall x, len (r x) = k) -> len (concat (map r l)) < dyn -> good_window (len l) (window_of s) ->
  shown (concat (map r l)) (window_of (as_bytes k s)) = concat (map r (shown l (window_of s))) /\
  good_window (len (concat (map r l))) (window_of (as_bytes k s)) /\
  (fixed (window_of (as_bytes k s)) = None <-> fixed (window_of s) = None).
Proof.
  intros Hr Hl (Hg & _). cbn [off cnt window_of] in Hg. pose proof dyn_mod as Hd.
  assert (Hlen : len (concat (map r l)) = len l * k).
  { clear - Hr. induction l as [|x l IH]; [reflexivity|]. cbn [map concat]. rewrite len_app, IH, Hr, len_cons. lia. }
  assert (Hm : (ptr s + size s) * k <= len l * k) by (apply N.mul_le_mono_r; exact Hg).
  assert (Sz : size_bytes k s = size s * k) by (unfold size_bytes; apply N.mod_small; lia).
  assert (W : off (window_of (as_bytes k s)) = ptr s * k /\ cnt (window_of (as_bytes k s)) = size s * k /\
              fixed (window_of (as_bytes k s)) = match fixed (window_of s) with Some _ => Some (size s * k) | None => None end).
  { unfold as_bytes. rewrite Sz. destruct (ext_cases s) as [(E & F)|(E & _ & F)]; destruct (N.eqb_spec (ext s) dyn); try contradiction; rewrite F.
    - rewrite window_dyn. auto.
    - rewrite window_static by lia. auto. }
  destruct W as (W1 & W2 & W3). split; [|split].
  - unfold shown. rewrite W1, W2. rewrite !N2Nat.inj_mul. rewrite (concat_skip r k l Hr), (concat_first r k _ Hr). reflexivity.
  - split; [rewrite W1, W2, Hlen; lia|]. rewrite W2, W3. destruct (fixed (window_of s)); [reflexivity|exact I].
  - rewrite W3. destruct (fixed (window_of s)); split; congruence.
Qed.

(** ** sized *)
Lemma ceil_least st su sz : 0 < su -> least_count st su sz ((sz * st + su - 1) / su).
Proof.
  intros H. split.
  - pose proof (N.div_mod (sz * st + su - 1) su ltac:(lia)). pose proof (N.mod_lt (sz * st + su - 1) su ltac:(lia)). nia.
  - intros r Hr. apply N.lt_succ_r. apply N.div_lt_upper_bound; nia.
Qed.
Theorem sized_ok st su sz : 0 < st -> 0 < su -> st <= su \/ st mod su = 0 -> sz * st + su < size_mod -> least_count st su sz (sized_in st su sz).
Proof.
  intros Ht Hu Hc Hb. unfold sized_in. destruct (N.eqb_spec st su) as [->|Hne].
  - split; [lia|]. intros r Hr. nia.
  - destruct (N.ltb_spec su st) as [Hl|Hl].
    + destruct Hc as [Hc|Hc]; [lia|]. rewrite Hc. cbn [N.ltb]. change (0 <? 0) with false. cbv iota. rewrite N.add_0_r. rewrite (N.mod_small (sz * st)) by lia.
      apply N.mod_divide in Hc as (q & ->); [|lia]. replace (sz * (q * su)) with (sz * q * su) by lia. rewrite N.div_mul by lia.
      rewrite N.mod_small by nia. split; [lia|]. intros r Hr. nia.
    + rewrite (N.mod_small (sz * st + su)) by lia. rewrite usub_ok by lia. apply ceil_least. lia.
Qed.
(** For a larger T whose size is not a multiple of U's, the result is one too large exactly
    when the bytes divide evenly. *)
Theorem sized_over st su sz : 0 < su -> su < st -> st mod su <> 0 -> sz * st + su < size_mod ->
  (sz * st mod su <> 0 -> least_count st su sz (sized_in st su sz)) /\
  (sz * st mod su = 0 -> least_count st su sz (sized_in st su sz - 1) /\ 0 < sized_in st su sz).
Proof.
  intros Hu Hl Hm Hb. unfold sized_in. destruct (N.eqb_spec st su); [lia|]. destruct (N.ltb_spec su st); [|lia].
  destruct (N.ltb_spec 0 (st mod su)); [|lia]. rewrite (N.mod_small (sz * st) size_mod) by lia.
  pose proof (N.div_mod (sz * st) su ltac:(lia)) as D. pose proof (N.mod_lt (sz * st) su ltac:(lia)) as L. set (q := sz * st / su) in *.
  assert (q <= sz * st) by nia. rewrite (N.mod_small (q + 1) size_mod) by lia. split; intros E.
  - split; [nia|]. intros r Hr. assert (q < r) by nia. lia.
  - split; [|lia]. rewrite N.add_sub. split; [nia|]. intros r Hr. nia.
Qed.
Theorem aligned_ok aw k v : k <= aw -> (is_aligned_with aw (2 ^ k) v = true <-> v mod 2 ^ k = 0).
Proof.
  intros H. unfold is_aligned_with. rewrite N.eqb_eq. replace (2 ^ k - 1) with (N.ones k) by (rewrite N.ones_equiv; lia).
  rewrite N.land_ones. replace (2 ^ aw) with (2 ^ k * 2 ^ (aw - k)) by (rewrite <- N.pow_add_r; f_equal; lia).
  pose proof (npow2_pos k) as P1. pose proof (npow2_pos (aw - k)) as P2. generalize dependent (2 ^ k). generalize dependent (2 ^ (aw - k)). intros b Pb a Pa.
  rewrite N.mod_mul_r by lia. rewrite (N.mul_comm a), N.mod_add by lia. rewrite N.mod_mod by lia. reflexivity.
Qed.
