From Verif Require Import Base BaseLemmas BitLemmas BitModel BitSpec BitProofs BitProofs2 BitsetModel BitsetSpec.
Open Scope N_scope.

(** ** generic *)
Lemma seq_N_split a b : map N.of_nat (seq 0 (a + b)) =
  map N.of_nat (seq 0 a) ++ map (fun i => N.of_nat a + i) (map N.of_nat (seq 0 b)).
Proof.
  rewrite seq_app, map_app. f_equal. rewrite map_map. cbn [Nat.add].
  replace (seq a b) with (map (Nat.add a) (seq 0 b)).
  - rewrite map_map. apply map_ext. intros i. lia.
  - induction b as [|b IH]; [reflexivity|]. rewrite !seq_S, map_app, IH. reflexivity.
Qed.
Lemma In_range i k : In i (map N.of_nat (seq 0 k)) <-> i < N.of_nat k.
Proof.
  rewrite in_map_iff. split.
  - intros (j & <- & H). apply in_seq in H. lia.
  - intros H. exists (N.to_nat i). split; [lia|]. apply in_seq. lia.
Qed.
Lemma tab_alt n f : tab n f = map f (map N.of_nat (seq 0 (N.to_nat n))).
Proof. unfold tab. rewrite map_map. reflexivity. Qed.
Lemma tab_ext n f g : (forall i, i < n -> f i = g i) -> tab n f = tab n g.
Proof.
  intros H. rewrite !tab_alt. apply map_ext_in. intros i Hi. apply H. apply In_range in Hi. lia.
Qed.
Lemma len_tab n f : len (tab n f) = n.
Proof. unfold len, tab. rewrite map_length, seq_length. lia. Qed.
Lemma rd_tab n f i : i < n -> rd (tab n f) i = Some (f i).
Proof.
  intros H. rewrite rd_nth_error. unfold tab. rewrite nth_error_map.
  rewrite (nth_error_nth' _ 0%nat) by (rewrite seq_length; lia). rewrite seq_nth by lia. cbn. f_equal. f_equal. lia.
Qed.
Lemma bit_tab n f i : i < n -> bit (tab n f) i = f i.
Proof. intros H. unfold bit. rewrite rd_tab by exact H. reflexivity. Qed.
Lemma bit_tab_out n f i : n <= i -> bit (tab n f) i = false.
Proof. intros H. unfold bit. rewrite rd_ge_None; [reflexivity|]. rewrite len_tab. exact H. Qed.
Lemma indices_ext n f g : (forall i, i < n -> f i = g i) -> indices_where n f = indices_where n g.
Proof.
  intros H. unfold indices_where. apply filter_ext_in. intros i Hi. apply H. apply In_range in Hi. lia.
Qed.
Lemma filter_map {A B} (f : B -> bool) (g : A -> B) l : filter f (map g l) = map g (filter (fun x => f (g x)) l).
Proof. induction l as [|a l IH]; [reflexivity|]. cbn [map filter]. destruct (f (g a)); cbn [map]; rewrite IH; reflexivity. Qed.
Lemma indices_split a b f : indices_where (a + b) f =
  indices_where a f ++ map (fun i => a + i) (indices_where b (fun i => f (a + i))).
Proof.
  unfold indices_where. rewrite N2Nat.inj_add, seq_N_split, filter_app. f_equal. rewrite N2Nat.id. apply filter_map.
Qed.

Lemma nth_error_firstn' {A} (l : list A) k i : (i < k)%nat -> nth_error (firstn k l) i = nth_error l i.
Proof.
  revert k i. induction l as [|a l IH]; intros [|k] [|i] H; cbn; try reflexivity; try lia. apply IH. lia.
Qed.
Lemma nth_error_skipn' {A} (l : list A) k i : nth_error (skipn k l) i = nth_error l (k + i).
Proof.
  revert l. induction k as [|k IH]; intros [|a l]; cbn [skipn Nat.add]; try reflexivity; [destruct i; reflexivity|apply IH].
Qed.

Lemma array_bit_at w s a b : b < w -> array_bit w s (a * w + b) = match rd s a with Some x => N.testbit x b | None => false end.
Proof.
  intros H. unfold array_bit. rewrite N.div_add_l, N.div_small, N.add_0_r by lia.
  rewrite N.add_comm, N.mod_add, N.mod_small by lia. reflexivity.
Qed.
Lemma array_bit_wr w s s' k v i : wr s k v = Some s' ->
  array_bit w s' i = if i / w =? k then N.testbit v (i mod w) else array_bit w s i.
Proof.
  intros H. unfold array_bit. rewrite (rd_wr _ _ _ _ (i / w) H).
  destruct (i / w =? k); reflexivity.
Qed.
Lemma split_index w i : 0 < w -> exists k o, i = k * w + o /\ o < w /\ i / w = k /\ i mod w = o.
Proof.
  intros H. exists (i / w), (i mod w). split; [rewrite N.mul_comm; apply N.div_mod; lia|].
  split; [apply N.mod_lt; lia|]. split; reflexivity.
Qed.

Section Bits.
Context (pl : platform) (n w : N).
Context (Hpl : good_platform pl) (Hw : 0 < w) (Hwl : w <= llong_w pl).
Context (Hn : 0 < n) (HnM : n < size_mod).

Notation sz := (storage_size n w).
Definition total : N := sz * w.
Definition wf (s : storage) : Prop := len s = sz /\ Forall (fun x => x < 2 ^ w) s.
Definition ab (s : storage) (i : N) : bool := array_bit w s i.
Definition clean (s : storage) : Prop := forall i, n <= i -> i < total -> ab s i = false.

Lemma sz_pos : 0 < sz.
Proof. unfold storage_size. apply N.div_str_pos. lia. Qed.
Lemma n_le_total : n <= total.
Proof.
  unfold total, storage_size. pose proof (N.div_mod (n + w - 1) w ltac:(lia)) as E.
  pose proof (N.mod_lt (n + w - 1) w ltac:(lia)). nia.
Qed.
Lemma total_lt : total < n + w.
Proof.
  unfold total, storage_size. pose proof (N.div_mod (n + w - 1) w ltac:(lia)) as E. nia.
Qed.
(** bits in the last word *)
Definition rbits : N := n - (sz - 1) * w.
Lemma rbits_range : 0 < rbits /\ rbits <= w /\ n = (sz - 1) * w + rbits.
Proof.
  unfold rbits. pose proof n_le_total. pose proof total_lt. pose proof sz_pos. unfold total in *.
  assert ((sz - 1) * w + w = sz * w) by nia. lia.
Qed.
Lemma sz_lt : sz < size_mod.
Proof.
  pose proof total_lt. pose proof sz_pos. destruct rbits_range as (A & B & C). unfold total in *.
  assert (sz - 1 <= (sz - 1) * w) by nia. lia.
Qed.
Lemma n_mod : n mod w = rbits mod w.
Proof. destruct rbits_range as (A & B & C). rewrite C at 1. rewrite N.add_comm, N.mod_add by lia. reflexivity. Qed.
Lemma lastmask_ones : lastmask n w = N.ones rbits.
Proof.
  destruct rbits_range as (A & B & C). unfold lastmask, allbits. rewrite n_mod.
  destruct (N.eq_dec rbits w) as [E|E].
  - rewrite E, N.mod_same by lia. reflexivity.
  - rewrite N.mod_small by lia. destruct (N.eqb_spec rbits 0); [lia|].
    apply N.bits_inj. intros i. rewrite testbit_shr, !testbit_ones.
    destruct (N.ltb_spec (i + (w - rbits)) w), (N.ltb_spec i rbits); lia || reflexivity.
Qed.
Lemma n_mod_total : n mod w = 0 -> total = n.
Proof.
  intros H. destruct rbits_range as (A & B & C). rewrite n_mod in H.
  assert (rbits = w) by (destruct (N.eq_dec rbits w); [assumption|rewrite N.mod_small in H; lia]).
  unfold total. pose proof sz_pos. nia.
Qed.
Lemma total_n_mod : n mod w <> 0 -> n < total.
Proof.
  intros H. destruct rbits_range as (A & B & C). rewrite n_mod in H.
  assert (rbits <> w) by (intros E; rewrite E, N.mod_same in H by lia; lia).
  unfold total. pose proof sz_pos. nia.
Qed.

Lemma wf_decomp s : wf s -> exists l x, s = l ++ [x] /\ len l = sz - 1 /\ x < 2 ^ w /\ Forall (fun y => y < 2 ^ w) l /\
  firstn (N.to_nat (sz - 1)) s = l /\ back n w s = Some x.
Proof.
  intros (Hl & Hf). pose proof sz_pos. destruct s as [|y s] using rev_ind; [change (len (@nil N)) with 0 in Hl; lia|]. clear IHs.
  rewrite len_app, len_cons, len_nil in Hl. apply Forall_app in Hf as (F1 & F2). inversion F2; subst.
  exists s, y. split; [reflexivity|]. split; [lia|]. split; [assumption|]. split; [assumption|].
  assert (E : sz - 1 = len s) by lia. split.
  - rewrite E. rewrite len_to_nat. apply firstn_app_len.
  - unfold back. destruct (N.eqb_spec sz 0); [lia|]. rewrite E. apply rd_len.
Qed.

Lemma wf_rd s i : wf s -> i < sz -> exists x, rd s i = Some x /\ x < 2 ^ w.
Proof.
  intros (Hl & Hf) Hi. destruct (rd_lt_Some s i ltac:(lia)) as (x & E). exists x. split; [exact E|].
  rewrite rd_nth_error in E. apply nth_error_In in E. rewrite Forall_forall in Hf. apply Hf. exact E.
Qed.
Lemma Forall_set_nth {A} (P : A -> Prop) k v : forall l, Forall P l -> P v -> Forall P (set_nth k v l).
Proof.
  induction k as [|k IH]; intros [|a l] H Hv; cbn [set_nth]; try exact H; inversion H; subst; constructor; auto.
Qed.
Lemma wf_wr s i v : wf s -> i < sz -> v < 2 ^ w -> exists s', wr s i v = Some s' /\ wf s'.
Proof.
  intros (Hl & Hf) Hi Hv. destruct (wr_lt_Some s i v ltac:(lia)) as (s' & E). exists s'. split; [exact E|].
  split; [rewrite (wr_len _ _ _ _ E); exact Hl|]. unfold wr in E. destruct (i <? len s); [|discriminate].
  injection E as <-. apply Forall_set_nth; assumption.
Qed.
Lemma idx_lt i : i < total -> i / w < sz.
Proof. intros H. apply N.div_lt_upper_bound; [lia|]. unfold total in H. lia. Qed.
Lemma idx_eq i p : i / w = p / w -> i mod w = p mod w -> i = p.
Proof. intros A B. rewrite (N.div_mod i w), (N.div_mod p w) by lia. congruence. Qed.
Lemma bit_at_eq o : o < w -> bit_at w o = 2 ^ o.
Proof.
  intros H. unfold bit_at, wrap. rewrite N.shiftl_1_l. apply N.mod_small. apply npow2_lt. exact H.
Qed.
Lemma bit_at_lt o : bit_at w o < 2 ^ w.
Proof. apply mod_pow2_lt. Qed.
Lemma land_bit e o : o < w -> negb (N.land e (bit_at w o) =? 0) = N.testbit e o.
Proof.
  intros H. rewrite bit_at_eq by exact H. destruct (N.testbit e o) eqn:E.
  - destruct (N.eqb_spec (N.land e (2 ^ o)) 0) as [E0|]; [|reflexivity].
    assert (N.testbit (N.land e (2 ^ o)) o = true) by (rewrite N.land_spec, E, testbit_pow2, N.eqb_refl; reflexivity).
    rewrite E0, N.bits_0 in H0. discriminate.
  - destruct (N.eqb_spec (N.land e (2 ^ o)) 0) as [E0|Hne]; [reflexivity|]. exfalso. apply Hne.
    apply N.bits_inj. intros i. rewrite N.land_spec, N.bits_0, testbit_pow2.
    destruct (N.eqb_spec i o) as [->|]; [rewrite E; reflexivity|apply andb_false_r].
Qed.
Lemma ab_word s i x : rd s (i / w) = Some x -> ab s i = N.testbit x (i mod w).
Proof. intros H. unfold ab, array_bit. rewrite H. reflexivity. Qed.

(** ** single-bit updates *)
Lemma upd_one s pos (v : N -> N) (F : bool -> bool) : wf s -> pos < total ->
  (forall e, e < 2 ^ w -> v e < 2 ^ w) ->
  (forall e o, o < w -> N.testbit (v e) o = if o =? pos mod w then F (N.testbit e o) else N.testbit e o) ->
  exists e s', rd s (pos / w) = Some e /\ wr s (pos / w) (v e) = Some s' /\ wf s' /\
    forall i, i < total -> ab s' i = if i =? pos then F (ab s i) else ab s i.
Proof.
  intros Hs Hp Hv Hb. destruct (wf_rd s (pos / w) Hs (idx_lt _ Hp)) as (e & E & He).
  destruct (wf_wr s (pos / w) (v e) Hs (idx_lt _ Hp) (Hv e He)) as (s' & E' & Hs').
  exists e, s'. split; [exact E|]. split; [exact E'|]. split; [exact Hs'|].
  intros i Hi. unfold ab. rewrite (array_bit_wr w s s' _ _ i E'). fold (ab s i).
  assert (Ho : i mod w < w) by (apply N.mod_lt; lia).
  destruct (N.eqb_spec (i / w) (pos / w)) as [E1|E1].
  - rewrite Hb by exact Ho. rewrite <- E1 in E. rewrite (ab_word s i e E).
    destruct (N.eqb_spec (i mod w) (pos mod w)) as [E2|E2].
    + rewrite (proj2 (N.eqb_eq i pos)) by (apply idx_eq; assumption). reflexivity.
    + destruct (N.eqb_spec i pos); [congruence|reflexivity].
  - destruct (N.eqb_spec i pos); [congruence|reflexivity].
Qed.

Lemma set_one_ok s pos v : wf s -> pos < total -> exists s', set_one w s pos v = Some s' /\ wf s' /\
  forall i, i < total -> ab s' i = if i =? pos then v else ab s i.
Proof.
  intros Hs Hp. unfold set_one. assert (Hpm : pos mod w < w) by (apply N.mod_lt; lia).
  destruct (upd_one s pos (fun e => if v then N.lor e (bit_at w (pos mod w)) else N.land e (tnot w (bit_at w (pos mod w)))) (fun _ => v) Hs Hp) as (e & s' & E & E' & Hs' & Hb).
  - intros e He. destruct v; [apply lor_lt; [exact He|apply bit_at_lt]|apply land_lt; exact He].
  - intros e o Ho. rewrite bit_at_eq by exact Hpm. destruct v.
    + rewrite N.lor_spec, testbit_pow2. destruct (o =? pos mod w); [apply orb_true_r|apply orb_false_r].
    + unfold tnot. rewrite N.land_spec, testbit_lnot, testbit_pow2. destruct (N.ltb_spec o w); [|lia].
      destruct (o =? pos mod w); cbn; [apply andb_false_r|apply andb_true_r].
  - rewrite E. exists s'. auto.
Qed.
Lemma reset_one_ok s pos : wf s -> pos < total -> exists s', reset_one w s pos = Some s' /\ wf s' /\
  forall i, i < total -> ab s' i = if i =? pos then false else ab s i.
Proof. exact (fun Hs Hp => set_one_ok s pos false Hs Hp). Qed.
Lemma flip_one_ok s pos : wf s -> pos < total -> exists s', flip_one w s pos = Some s' /\ wf s' /\
  forall i, i < total -> ab s' i = if i =? pos then negb (ab s i) else ab s i.
Proof.
  intros Hs Hp. unfold flip_one. assert (Hpm : pos mod w < w) by (apply N.mod_lt; lia).
  destruct (upd_one s pos (fun e => N.lxor e (bit_at w (pos mod w))) negb Hs Hp) as (e & s' & E & E' & Hs' & Hb).
  - intros e He. apply lxor_lt; [exact He|apply bit_at_lt].
  - intros e o Ho. rewrite bit_at_eq by exact Hpm. rewrite N.lxor_spec, testbit_pow2.
    destruct (o =? pos mod w); destruct (N.testbit e o); reflexivity.
  - rewrite E. exists s'. auto.
Qed.
Lemma get_ok s pos : wf s -> pos < total -> get w s pos = Some (ab s pos).
Proof.
  intros Hs Hp. unfold get. destruct (wf_rd s (pos / w) Hs (idx_lt _ Hp)) as (e & E & He).
  rewrite E, (ab_word s pos e E), land_bit by (apply N.mod_lt; lia). reflexivity.
Qed.

(** ** constructors *)
Lemma wf_repeat v : v < 2 ^ w -> wf (repeat v (N.to_nat sz)).
Proof.
  intros H. split; [rewrite len_repeat; lia|]. apply Forall_forall. intros x Hx. apply repeat_spec in Hx. subst x. exact H.
Qed.
Lemma rd_repeat {A} (v : A) k i : i < N.of_nat k -> rd (repeat v k) i = Some v.
Proof. intros H. rewrite rd_nth_error. apply nth_error_repeat. lia. Qed.
Lemma ab_repeat v i : i < total -> ab (repeat v (N.to_nat sz)) i = N.testbit v (i mod w).
Proof. intros H. apply ab_word. apply rd_repeat. pose proof (idx_lt i H). lia. Qed.
Lemma make_ok : wf (make n w) /\ forall i, i < total -> ab (make n w) i = false.
Proof.
  split; [apply wf_repeat, npow2_pos|]. intros i Hi. unfold make. rewrite ab_repeat by exact Hi. apply N.bits_0.
Qed.

Lemma set_each_ok ps : forall s, wf s -> Forall (fun p => p < total) ps ->
  exists s', set_each w s ps = Some s' /\ wf s' /\ forall i, i < total -> ab s' i = existsb (N.eqb i) ps || ab s i.
Proof.
  induction ps as [|p ps IH]; intros s Hs Hf; cbn [set_each].
  - exists s. auto.
  - inversion Hf; subst. destruct (set_one_ok s p true Hs H1) as (s1 & -> & Hs1 & B1).
    destruct (IH s1 Hs1 H2) as (s' & E & Hs' & B). exists s'. split; [exact E|]. split; [exact Hs'|].
    intros i Hi. rewrite B, B1 by exact Hi. cbn [existsb]. destruct (i =? p), (existsb (N.eqb i) ps); reflexivity.
Qed.
Lemma place_ok ps : Forall (fun p => p < total) ps ->
  exists s', place n w ps = Some s' /\ wf s' /\ forall i, i < total -> ab s' i = existsb (N.eqb i) ps.
Proof.
  intros H. destruct make_ok as (A & B). destruct (set_each_ok ps (make n w) A H) as (s' & E & Hs & C).
  exists s'. split; [exact E|]. split; [exact Hs|]. intros i Hi. rewrite C, B by exact Hi. apply orb_false_r.
Qed.

Lemma all_ones_ok : exists s', all_ones n w = Some s' /\ wf s' /\ forall i, i < total -> ab s' i = (i <? n).
Proof.
  unfold all_ones. destruct (N.ltb_spec 0 n); [|lia]. pose proof sz_pos as Hsz.
  assert (Hr : wf (repeat (allbits w) (N.to_nat sz))) by (apply wf_repeat, ones_lt).
  assert (Eb : back n w (repeat (allbits w) (N.to_nat sz)) = Some (allbits w)).
  { unfold back. destruct (N.eqb_spec sz 0); [lia|]. apply rd_repeat. lia. }
  rewrite Eb. destruct rbits_range as (R1 & R2 & R3).
  destruct (wf_wr _ (sz - 1) (N.land (allbits w) (lastmask n w)) Hr ltac:(lia) (land_lt _ _ _ (ones_lt w))) as (s' & E & Hs').
  exists s'. split; [exact E|]. split; [exact Hs'|]. intros i Hi.
  unfold ab. rewrite (array_bit_wr _ _ _ _ _ i E). fold (ab (repeat (allbits w) (N.to_nat sz)) i).
  rewrite ab_repeat by exact Hi. rewrite lastmask_ones, N.land_spec. unfold allbits. rewrite !testbit_ones.
  assert (Ho : i mod w < w) by (apply N.mod_lt; lia). pose proof (N.div_mod i w ltac:(lia)) as Ed. pose proof (idx_lt i Hi).
  destruct (N.ltb_spec (i mod w) w); [|lia]. cbn [andb].
  destruct (N.eqb_spec (i / w) (sz - 1)) as [E1|E1].
  - rewrite E1 in Ed. destruct (N.ltb_spec (i mod w) rbits), (N.ltb_spec i n); lia || reflexivity.
  - symmetry. apply N.ltb_lt. assert (i / w + 1 <= sz - 1) by lia. nia.
Qed.

Lemma u64_words_ok : forall s v, w < 64 -> Forall (fun x => x = 0) s ->
  exists s', u64_words w v s = Some s' /\ len s' = len s /\ Forall (fun x => x < 2 ^ w) s' /\
    forall i, i < len s * w -> ab s' i = N.testbit v i.
Proof.
  intros s. induction s as [|e s IH]; intros v H Hz; cbn [u64_words].
  - exists []. split; [reflexivity|]. split; [reflexivity|]. split; [constructor|]. change (len (@nil N)) with 0. lia.
  - destruct (N.eqb_spec v 0) as [->|Hv].
    + exists (e :: s). split; [reflexivity|]. split; [reflexivity|]. split.
      * eapply Forall_impl; [|exact Hz]. intros a ->. apply npow2_pos.
      * intros i Hi. rewrite N.bits_0. unfold ab, array_bit. rewrite rd_nth_error.
        destruct (nth_error (e :: s) _) as [x|] eqn:E; [|reflexivity]. apply nth_error_In in E.
        rewrite Forall_forall in Hz. rewrite (Hz x E). apply N.bits_0.
    + destruct (N.ltb_spec w 64); [|lia]. inversion Hz; subst.
      destruct (IH (N.shiftr v w) H H4) as (s' & -> & L & F & B).
      exists (N.land v (allbits w) :: s'). split; [reflexivity|]. rewrite !len_cons. split; [lia|]. split.
      * constructor; [|exact F]. rewrite N.land_comm. apply land_lt, ones_lt.
      * intros i Hi. destruct (split_index w i Hw) as (k & o & E & Ho & Ek & Eo). rewrite E.
        unfold ab. rewrite array_bit_at by exact Ho. destruct (N.eq_dec k 0) as [->|Hk].
        -- rewrite rd_cons0, N.land_spec. unfold allbits. rewrite testbit_ones.
           destruct (N.ltb_spec o w); [|lia]. rewrite N.mul_0_l, N.add_0_l. apply andb_true_r.
        -- rewrite rd_cons_pos by lia.
           specialize (B ((k - 1) * w + o) ltac:(nia)). unfold ab in B. rewrite array_bit_at in B by exact Ho.
           rewrite B, testbit_shr. f_equal. nia.
Qed.
Lemma of_u64_ok (same64 : bool) v : (same64 = true -> w = 64) -> v < 2 ^ 64 -> (same64 = true \/ w < 64) ->
  exists s', of_u64 n w same64 v = Some s' /\ wf s' /\ forall i, i < total -> ab s' i = N.testbit v i.
Proof.
  intros H64 Hv Hc. unfold of_u64. pose proof sz_pos. destruct make_ok as (A & B). destruct same64.
  - pose proof (H64 eq_refl) as E64. rewrite <- E64 in Hv.
    destruct (wf_wr _ 0 v A ltac:(lia) Hv) as (s' & E & Hs'). exists s'. split; [exact E|]. split; [exact Hs'|].
    intros i Hi. unfold ab. rewrite (array_bit_wr _ _ _ _ _ i E). fold (ab (make n w) i). rewrite B by exact Hi.
    destruct (N.eqb_spec (i / w) 0) as [E0|E0].
    + f_equal. rewrite (N.div_mod i w) at 2 by lia. rewrite E0. lia.
    + symmetry. apply (testbit_high v w); [exact Hv|]. destruct (N.le_gt_cases w i) as [|Hlt]; [assumption|].
      rewrite N.div_small in E0 by exact Hlt. lia.
  - destruct Hc as [Hc|Hc]; [discriminate|].
    destruct (u64_words_ok (make n w) v Hc) as (s' & E & L & F & Bs).
    + apply Forall_forall. intros x Hx. apply repeat_spec in Hx. exact Hx.
    + exists s'. split; [exact E|]. destruct A as (A1 & A2). split; [split; [lia|exact F]|].
      intros i Hi. apply Bs. rewrite A1. exact Hi.
Qed.

Lemma set_seq_ok vs : forall s i, wf s -> i + len vs <= total ->
  exists s', set_seq w s i vs = Some s' /\ wf s' /\
  forall j, j < total -> ab s' j = if (i <=? j) && (j <? i + len vs) then bit vs (j - i) else ab s j.
Proof.
  induction vs as [|v vs IH]; intros s i Hs Hi; cbn [set_seq].
  - exists s. split; [reflexivity|]. split; [exact Hs|]. intros j Hj. rewrite len_nil, N.add_0_r.
    destruct (N.leb_spec i j), (N.ltb_spec j i); try lia; reflexivity.
  - rewrite len_cons in Hi. destruct (set_one_ok s i v Hs ltac:(lia)) as (s1 & -> & Hs1 & B1).
    destruct (IH s1 (i + 1) Hs1 ltac:(lia)) as (s' & E & Hs' & B). exists s'. split; [exact E|]. split; [exact Hs'|].
    intros j Hj. rewrite B, B1 by exact Hj. rewrite len_cons.
    destruct (N.eq_dec j i) as [->|Hne].
    + destruct (N.leb_spec (i + 1) i); [lia|]. cbn [andb]. rewrite N.eqb_refl, N.sub_diag.
      destruct (N.leb_spec i i), (N.ltb_spec i (i + (len vs + 1))); try lia. reflexivity.
    + destruct (N.eqb_spec j i); [congruence|].
      destruct (N.leb_spec (i + 1) j), (N.leb_spec i j), (N.ltb_spec j (i + 1 + len vs)), (N.ltb_spec j (i + (len vs + 1))); try lia; cbn [andb]; try reflexivity.
      unfold bit. rewrite rd_cons_pos by lia. replace (j - i - 1) with (j - (i + 1)) by lia. reflexivity.
Qed.

Lemma of_string_ok str pos cnt one : pos <= len str ->
  let used := N.min (N.min cnt (len str - pos)) n in
  exists s', of_string n w str pos cnt one = Some s' /\ wf s' /\
  forall i, i < total -> ab s' i = (i <? used) && match rd str (pos + (used - 1 - i)) with Some c => c =? one | None => false end.
Proof.
  intros Hp used. unfold of_string. destruct (N.ltb_spec (len str) pos); [lia|]. fold used.
  set (sub := firstn (N.to_nat used) (skipn (N.to_nat pos) str)).
  assert (Hls : len sub = used).
  { unfold sub, len. rewrite firstn_length, skipn_length. unfold len in *. unfold used. unfold len. lia. }
  set (vs := map (fun c => c =? one) (rev sub)).
  assert (Hlv : len vs = used) by (unfold vs; unfold len; rewrite map_length, rev_length; exact Hls).
  destruct make_ok as (A & B). pose proof n_le_total.
  destruct (set_seq_ok vs (make n w) 0 A) as (s' & E & Hs' & C); [rewrite Hlv; unfold used; lia|].
  exists s'. split; [exact E|]. split; [exact Hs'|]. intros i Hi. rewrite C, B, Hlv, N.add_0_l, N.sub_0_r by exact Hi.
  destruct (N.leb_spec 0 i); [|lia]. cbn [andb]. destruct (N.ltb_spec i used) as [Hu|Hu]; [|reflexivity]. cbn [andb].
  unfold bit, vs. rewrite rd_nth_error, nth_error_map.
  assert (Hlen : length sub = N.to_nat used) by (unfold len in Hls; lia).
  rewrite (nth_error_nth' (rev sub) 0) by (rewrite rev_length; lia). cbn [option_map].
  rewrite rev_nth by lia. rewrite rd_nth_error.
  assert (E1 : nth_error sub (length sub - S (N.to_nat i)) = nth_error str (N.to_nat (pos + (used - 1 - i)))).
  { unfold sub at 1. rewrite nth_error_firstn'; [|lia]. rewrite nth_error_skipn'. f_equal. lia. }
  rewrite <- E1. rewrite (nth_error_nth' sub 0) by lia. reflexivity.
Qed.

(** ** ranges *)
Lemma range_fn_bit v e val o : o < w ->
  N.testbit (range_fn w v e val) o = if N.testbit val o then v else N.testbit e o.
Proof.
  intros Ho. unfold range_fn. destruct v.
  - rewrite N.lor_spec. destruct (N.testbit val o); [apply orb_true_r|apply orb_false_r].
  - unfold tnot. rewrite N.land_spec, testbit_lnot. destruct (N.ltb_spec o w); [|lia].
    destruct (N.testbit val o); cbn; [apply andb_false_r|apply andb_true_r].
Qed.
Lemma range_fn_lt v e val : e < 2 ^ w -> val < 2 ^ w -> range_fn w v e val < 2 ^ w.
Proof. intros He Hv. unfold range_fn. destruct v; [apply lor_lt; assumption|apply land_lt; assumption]. Qed.

(** one word of a range update *)
Lemma range_word s k v val : wf s -> k < sz -> val < 2 ^ w ->
  exists e s', rd s k = Some e /\ wr s k (range_fn w v e val) = Some s' /\ wf s' /\
    forall j, j < total -> ab s' j = if (j / w =? k) && N.testbit val (j mod w) then v else ab s j.
Proof.
  intros Hs Hk Hval. destruct (wf_rd s k Hs Hk) as (e & E & He).
  destruct (wf_wr s k _ Hs Hk (range_fn_lt v e val He Hval)) as (s' & E' & Hs').
  exists e, s'. split; [exact E|]. split; [exact E'|]. split; [exact Hs'|]. intros j Hj.
  unfold ab. rewrite (array_bit_wr _ _ _ _ _ j E'). fold (ab s j).
  destruct (N.eqb_spec (j / w) k) as [Ej|Ej]; [|reflexivity]. cbn [andb].
  rewrite range_fn_bit by (apply N.mod_lt; lia). rewrite <- Ej in E. rewrite (ab_word s j e E). reflexivity.
Qed.

Lemma fill_ok v k : forall s i, wf s -> i + N.of_nat k <= sz ->
  exists s', fill w k s i (allbits w) v = Some s' /\ wf s' /\
    forall j, j < total -> ab s' j = if (i <=? j / w) && (j / w <? i + N.of_nat k) then v else ab s j.
Proof.
  induction k as [|k IH]; intros s i Hs Hi; cbn [fill].
  - exists s. split; [reflexivity|]. split; [exact Hs|]. intros j Hj. ncmp; try lia; reflexivity.
  - destruct (range_word s i v (allbits w) Hs ltac:(lia) (ones_lt w)) as (e & s1 & -> & -> & Hs1 & B1).
    destruct (IH s1 (i + 1) Hs1 ltac:(lia)) as (s' & E & Hs' & B). exists s'. split; [exact E|]. split; [exact Hs'|].
    intros j Hj. rewrite B, B1 by exact Hj. unfold allbits. rewrite testbit_ones.
    assert (j mod w < w) by (apply N.mod_lt; lia).
    ncmp; try lia; reflexivity.
Qed.

Lemma lmask_bit l o : o < w -> N.testbit (wrap w (N.shiftl (allbits w) (l mod w))) o = (l mod w <=? o).
Proof.
  intros Ho. unfold wrap, allbits. rewrite testbit_mod, testbit_shl, testbit_ones. ncmp; try lia; reflexivity.
Qed.
Lemma mmask_bit m o : o < w -> N.testbit (N.shiftr (allbits w) (w - m mod w - 1)) o = (o <=? m mod w).
Proof.
  intros Ho. unfold allbits. rewrite testbit_shr, testbit_ones. assert (m mod w < w) by (apply N.mod_lt; lia).
  ncmp; try lia; reflexivity.
Qed.

Lemma set_range_ok s l m v : wf s -> l <= m -> m < total ->
  exists s', set_range w s l m v = Some s' /\ wf s' /\
  forall j, j < total -> ab s' j = if (l <=? j) && (j <=? m) then v else ab s j.
Proof.
  intros Hs Hlm Hm. unfold set_range.
  set (lm := wrap w (N.shiftl (allbits w) (l mod w))). set (mm := N.shiftr (allbits w) (w - m mod w - 1)).
  assert (Hll : lm < 2 ^ w) by apply mod_pow2_lt.
  assert (Hmm : mm < 2 ^ w) by apply shiftr_lt, ones_lt.
  assert (Hd : l / w <= m / w) by (apply N.div_le_mono; lia).
  pose proof (idx_lt m Hm) as Hmi.
  assert (Hl1 : l mod w < w) by (apply N.mod_lt; lia). assert (Hm1 : m mod w < w) by (apply N.mod_lt; lia).
  pose proof (N.div_mod l w ltac:(lia)) as El. pose proof (N.div_mod m w ltac:(lia)) as Em.
  destruct (N.eqb_spec (l / w) (m / w)) as [E|E].
  - destruct (range_word s (l / w) v (N.land lm mm) Hs ltac:(lia) (land_lt _ _ _ Hll)) as (e & s' & -> & -> & Hs' & B).
    exists s'. split; [reflexivity|]. split; [exact Hs'|]. intros j Hj. rewrite B by exact Hj.
    assert (Hj1 : j mod w < w) by (apply N.mod_lt; lia). pose proof (N.div_mod j w ltac:(lia)) as Ej.
    rewrite N.land_spec. unfold lm, mm. rewrite lmask_bit, mmask_bit by exact Hj1.
    destruct (N.eqb_spec (j / w) (l / w)) as [E1|E1]; cbn [andb].
    + rewrite E1 in Ej. rewrite <- E in Em. clear B. ncmp; try lia; reflexivity.
    + destruct (N.leb_spec l j) as [A1|A1], (N.leb_spec j m) as [A2|A2]; cbn [andb]; try reflexivity.
      pose proof (N.div_le_mono l j w ltac:(lia) A1). pose proof (N.div_le_mono j m w ltac:(lia) A2). lia.
  - destruct (N.ltb_spec (m / w) (l / w)); [lia|].
    destruct (range_word s (l / w) v lm Hs ltac:(lia) Hll) as (e & s1 & -> & -> & Hs1 & B1).
    destruct (fill_ok v (N.to_nat (m / w - (l / w + 1))) s1 (l / w + 1) Hs1 ltac:(lia)) as (s2 & -> & Hs2 & B2).
    destruct (range_word s2 (m / w) v (N.land (allbits w) mm) Hs2 ltac:(lia) (land_lt _ _ _ (ones_lt w))) as (e2 & s' & -> & -> & Hs' & B).
    exists s'. split; [reflexivity|]. split; [exact Hs'|]. intros j Hj. rewrite B, B2, B1 by exact Hj.
    assert (Hj1 : j mod w < w) by (apply N.mod_lt; lia). pose proof (N.div_mod j w ltac:(lia)) as Ej.
    rewrite N.land_spec. unfold lm, mm, allbits at 1. rewrite testbit_ones, lmask_bit, mmask_bit by exact Hj1.
    destruct (N.ltb_spec (j mod w) w); [|lia]. cbn [andb]. clear B B1 B2.
    set (a := l / w) in *. set (b := m / w) in *. set (c := j / w) in *.
    assert (H1 : l <= j <-> (a < c \/ a = c /\ l mod w <= j mod w)) by nia.
    assert (H2 : j <= m <-> (c < b \/ c = b /\ j mod w <= m mod w)) by nia.
    rewrite N2Nat.id. clear El Em Ej Hj1 Hl1 Hm1 Hj Hm Hmi Hll Hmm. clearbody a b c. clear lm mm. generalize dependent (l mod w). generalize dependent (m mod w). intros mw H2 lw H1. generalize dependent (j mod w). intros jw H1 H0 H2.
    destruct (N.lt_trichotomy c a) as [C|[C|C]], (N.lt_trichotomy c b) as [D|[D|D]];
    destruct (N.leb_spec l j), (N.leb_spec j m), (N.eqb_spec c b); try lia; destruct (N.leb_spec jw mw), (N.leb_spec (a + 1) c), (N.eqb_spec c a); try lia;
      destruct (N.ltb_spec c (a + 1 + (b - (a + 1)))), (N.leb_spec lw jw); cbn [andb]; try reflexivity; exfalso; lia.
Qed.

Lemma set_len_ok s l k v : wf s -> 0 < k -> l + k <= total -> l + k <= 2 ^ 32 ->
  exists s', set_len w s l k v = Some s' /\ wf s' /\
  forall j, j < total -> ab s' j = if (l <=? j) && (j <? l + k) then v else ab s j.
Proof.
  intros Hs Hk Hl H32. unfold set_len.
  replace ((l + k + 2 ^ 32 - 1) mod 2 ^ 32) with (l + k - 1).
  - destruct (set_range_ok s l (l + k - 1) v Hs ltac:(lia) ltac:(lia)) as (s' & E & Hs' & B).
    exists s'. split; [exact E|]. split; [exact Hs'|]. intros j Hj. rewrite B by exact Hj. ncmp; try lia; reflexivity.
  - replace (l + k + 2 ^ 32 - 1) with (l + k - 1 + 1 * 2 ^ 32) by lia.
    rewrite N.mod_add by apply npow2_nz. rewrite N.mod_small by lia. reflexivity.
Qed.

(** ** whole-object operations *)
Lemma map_ok (f : N -> N) (F : bool -> bool) s : wf s -> (forall e, e < 2 ^ w -> f e < 2 ^ w) ->
  (forall e o, o < w -> N.testbit (f e) o = F (N.testbit e o)) ->
  wf (map f s) /\ forall i, i < total -> ab (map f s) i = F (ab s i).
Proof.
  intros Hs Hf Hb. destruct Hs as (Hl & Hs). split.
  - split; [unfold len; rewrite map_length; exact Hl|]. apply Forall_map. eapply Forall_impl; [|exact Hs]. exact Hf.
  - intros i Hi. destruct (wf_rd s (i / w) (conj Hl Hs) (idx_lt i Hi)) as (e & E & He).
    rewrite (ab_word s i e E). rewrite <- Hb by (apply N.mod_lt; lia). apply ab_word.
    rewrite rd_nth_error in *. rewrite nth_error_map, E. reflexivity.
Qed.
Lemma map2_ok (f : N -> N -> N) (F : bool -> bool -> bool) s t : wf s -> wf t ->
  (forall e d, e < 2 ^ w -> d < 2 ^ w -> f e d < 2 ^ w) ->
  (forall e d o, o < w -> N.testbit (f e d) o = F (N.testbit e o) (N.testbit d o)) ->
  wf (map2 f s t) /\ forall i, i < total -> ab (map2 f s t) i = F (ab s i) (ab t i).
Proof.
  intros (Hl & Hs) (Hl' & Ht) Hf Hb.
  assert (Hlen : length s = length t) by (unfold len in *; lia). split.
  - split; [unfold len; rewrite map2_length by exact Hlen; exact Hl|].
    clear Hl Hl' Hb. revert t Ht Hlen. induction s as [|a s IH]; intros [|b t] Ht Hlen; cbn [map2]; try constructor.
    + inversion Hs; inversion Ht; subst. apply Hf; assumption.
    + inversion Hs; inversion Ht; subst. apply IH; try assumption. cbn in Hlen. lia.
  - intros i Hi. destruct (wf_rd s (i / w) (conj Hl Hs) (idx_lt i Hi)) as (e & E & He).
    destruct (wf_rd t (i / w) (conj Hl' Ht) (idx_lt i Hi)) as (d & D & Hd).
    rewrite (ab_word s i e E), (ab_word t i d D). rewrite <- Hb by (apply N.mod_lt; lia). apply ab_word.
    rewrite rd_nth_error in *. rewrite nth_map2, E, D. reflexivity.
Qed.
Lemma set_all_ok s : wf s -> wf (set_all w s) /\ forall i, i < total -> ab (set_all w s) i = true.
Proof.
  intros Hs. apply (map_ok (fun _ => allbits w) (fun _ => true) s Hs).
  - intros. apply ones_lt.
  - intros e o Ho. unfold allbits. rewrite testbit_ones. apply N.ltb_lt. exact Ho.
Qed.
Lemma reset_all_ok s : wf s -> wf (reset_all s) /\ forall i, i < total -> ab (reset_all s) i = false.
Proof.
  intros Hs. apply (map_ok (fun _ => 0) (fun _ => false) s Hs).
  - intros. apply npow2_pos.
  - intros e o Ho. apply N.bits_0.
Qed.
Lemma flip_all_ok s : wf s -> wf (flip_all w s) /\ forall i, i < total -> ab (flip_all w s) i = negb (ab s i).
Proof.
  intros Hs. apply (map_ok _ negb s Hs).
  - intros e He. apply lxor_lt; [exact He|apply ones_lt].
  - intros e o Ho. unfold allbits. rewrite N.lxor_spec, testbit_ones. destruct (N.ltb_spec o w); [|lia].
    destruct (N.testbit e o); reflexivity.
Qed.
Lemma complement_ok s : wf s -> wf (complement w s) /\ forall i, i < total -> ab (complement w s) i = negb (ab s i).
Proof.
  intros Hs. apply (map_ok _ negb s Hs).
  - intros e He. apply lnot_lt. exact He.
  - intros e o Ho. unfold tnot. rewrite testbit_lnot. destruct (N.ltb_spec o w); [|lia].
    destruct (N.testbit e o); reflexivity.
Qed.
Lemma or_ok s t : wf s -> wf t -> wf (or_assign s t) /\ forall i, i < total -> ab (or_assign s t) i = ab s i || ab t i.
Proof.
  intros Hs Ht. apply (map2_ok N.lor orb s t Hs Ht); [intros; apply lor_lt; assumption|intros; apply N.lor_spec].
Qed.
Lemma and_ok s t : wf s -> wf t -> wf (and_assign s t) /\ forall i, i < total -> ab (and_assign s t) i = ab s i && ab t i.
Proof.
  intros Hs Ht. apply (map2_ok N.land andb s t Hs Ht); [intros; apply land_lt; assumption|intros; apply N.land_spec].
Qed.
Lemma xor_ok s t : wf s -> wf t -> wf (xor_assign s t) /\ forall i, i < total -> ab (xor_assign s t) i = xorb (ab s i) (ab t i).
Proof.
  intros Hs Ht. apply (map2_ok N.lxor xorb s t Hs Ht); [intros; apply lxor_lt; assumption|intros; apply N.lxor_spec].
Qed.
Lemma minus_ok s t : wf s -> wf t -> wf (minus w s t) /\ forall i, i < total -> ab (minus w s t) i = ab s i && negb (ab t i).
Proof.
  intros Hs Ht. destruct (flip_all_ok t Ht) as (F1 & F2). destruct (and_ok s _ Hs F1) as (A1 & A2).
  split; [exact A1|]. intros i Hi. unfold minus. rewrite A2, F2 by exact Hi. reflexivity.
Qed.

(** ** shifts *)
Definition word (s : storage) (k : N) : N := match rd s k with Some x => x | None => 0 end.
Lemma ab_at s k o : o < w -> ab s (k * w + o) = N.testbit (word s k) o.
Proof.
  intros Ho. unfold ab. rewrite array_bit_at by exact Ho. unfold word. destruct (rd s k); [reflexivity|]. symmetry. apply N.bits_0.
Qed.
Lemma word_lt s k : wf s -> word s k < 2 ^ w.
Proof.
  intros Hs. unfold word. destruct (rd s k) eqn:E; [|apply npow2_pos]. destruct Hs as (_ & Hs).
  rewrite rd_nth_error in E. apply nth_error_In in E. rewrite Forall_forall in Hs. apply Hs. exact E.
Qed.
Lemma word_wr s s' k v j : wr s k v = Some s' -> word s' j = if j =? k then v else word s j.
Proof. intros H. unfold word. rewrite (rd_wr _ _ _ _ j H). destruct (j =? k); reflexivity. Qed.
Lemma rd_word s k : wf s -> k < sz -> rd s k = Some (word s k).
Proof. intros Hs Hk. destruct (wf_rd s k Hs Hk) as (x & E & _). unfold word. rewrite E. reflexivity. Qed.

Definition combl (p a b : N) : N := if p =? 0 then a else N.lor (wrap w (N.shiftl a p)) (wrap w (N.shiftr b (w - p))).
Lemma combl_lt p a b : a < 2 ^ w -> combl p a b < 2 ^ w.
Proof. intros Ha. unfold combl. destruct (p =? 0); [exact Ha|]. apply lor_lt; apply mod_pow2_lt. Qed.
Lemma combl_bit p a b o : p < w -> b < 2 ^ w -> o < w ->
  N.testbit (combl p a b) o = if p <=? o then N.testbit a (o - p) else N.testbit b (o + w - p).
Proof.
  intros Hp Hb Ho. unfold combl, wrap. destruct (N.eqb_spec p 0) as [->|H0].
  - rewrite N.sub_0_r. destruct (N.leb_spec 0 o); [reflexivity|lia].
  - rewrite N.lor_spec, !testbit_mod, testbit_shl, testbit_shr. destruct (N.ltb_spec o w); [|lia]. cbn [andb].
    destruct (N.leb_spec p o); cbn [andb orb].
    + rewrite (testbit_high b w) by (assumption || lia). apply orb_false_r.
    + f_equal. lia.
Qed.

Lemma shl_loop_ok p q i : forall s dst, wf s -> dst = N.of_nat i + q -> dst < sz ->
  exists s', shl_loop w i s dst p = Some (s', q) /\ wf s' /\
  forall k, word s' k = if (q <? k) && (k <=? dst) then combl p (word s (k - q)) (word s (k - q - 1)) else word s k.
Proof.
  induction i as [|i IH]; intros s dst Hs Hd Hsz; cbn [shl_loop].
  - exists s. replace dst with q by lia. split; [reflexivity|]. split; [exact Hs|]. intros k. ncmp; try lia; reflexivity.
  - rewrite (rd_word s (N.of_nat (S i)) Hs) by lia.
    assert (Ev : (if p =? 0 then Some (word s (N.of_nat (S i))) else
      match rd s (N.of_nat (S i) - 1) with
      | Some b => Some (N.lor (wrap w (N.shiftl (word s (N.of_nat (S i))) p)) (wrap w (N.shiftr b (w - p))))
      | None => None end) = Some (combl p (word s (N.of_nat (S i))) (word s (N.of_nat i)))).
    { unfold combl. destruct (p =? 0); [reflexivity|].
      replace (N.of_nat (S i) - 1) with (N.of_nat i) by lia. rewrite (rd_word s (N.of_nat i) Hs) by lia. reflexivity. }
    rewrite Ev. destruct (wf_wr s dst (combl p (word s (N.of_nat (S i))) (word s (N.of_nat i))) Hs Hsz) as (s1 & E1 & Hs1).
    { apply combl_lt. apply word_lt. exact Hs. }
    rewrite E1. pose proof sz_lt. rewrite sz_dec_pos by lia.
    destruct (IH s1 (dst - 1) Hs1 ltac:(lia) ltac:(lia)) as (s' & E' & Hs' & B).
    exists s'. split; [exact E'|]. split; [exact Hs'|]. intros k. rewrite B.
    rewrite !(word_wr s s1 dst _ _ E1).
    destruct (N.eq_dec k dst) as [->|Hk].
    + destruct (N.ltb_spec q dst), (N.leb_spec dst (dst - 1)), (N.leb_spec dst dst); try lia. cbn [andb].
      rewrite N.eqb_refl. replace (dst - q) with (N.of_nat (S i)) by lia. replace (N.of_nat (S i) - 1) with (N.of_nat i) by lia. reflexivity.
    + destruct (N.ltb_spec q k), (N.leb_spec k (dst - 1)), (N.leb_spec k dst), (N.eqb_spec k dst), (N.eqb_spec (k - q) dst), (N.eqb_spec (k - q - 1) dst);
        try lia; cbn [andb]; reflexivity.
Qed.

Lemma zero_below_ok d : forall s, wf s -> N.of_nat d <= sz ->
  exists s', zero_below d s = Some s' /\ wf s' /\ forall k, word s' k = if k <? N.of_nat d then 0 else word s k.
Proof.
  induction d as [|d IH]; intros s Hs Hd; cbn [zero_below].
  - exists s. split; [reflexivity|]. split; [exact Hs|]. intros k. ncmp; try lia; reflexivity.
  - destruct (wf_wr s (N.of_nat d) 0 Hs ltac:(lia) (npow2_pos w)) as (s1 & E1 & Hs1). rewrite E1.
    destruct (IH s1 Hs1 ltac:(lia)) as (s' & E' & Hs' & B). exists s'. split; [exact E'|]. split; [exact Hs'|].
    intros k. rewrite B, (word_wr s s1 _ _ _ E1). ncmp; try lia; reflexivity.
Qed.

Lemma shl_ok s K : wf s -> K < total ->
  exists s', shl_assign n w s K = Some s' /\ wf s' /\
  forall i, i < total -> ab s' i = (K <=? i) && ab s (i - K).
Proof.
  intros Hs HK. unfold shl_assign. destruct (N.eqb_spec n 0); [lia|]. pose proof (idx_lt K HK) as Hq.
  set (q := K / w) in *. set (p := K mod w).
  assert (Hp : p < w) by (apply N.mod_lt; lia). assert (EK : K = q * w + p) by (unfold q, p; rewrite N.mul_comm; apply N.div_mod; lia).
  destruct (N.ltb_spec (sz - 1) q); [lia|].
  destruct (shl_loop_ok p q (N.to_nat (sz - 1 - q)) s (sz - 1) Hs ltac:(lia) ltac:(lia)) as (s1 & -> & Hs1 & B1).
  rewrite (rd_word s1 0 Hs1) by lia.
  destruct (wf_wr s1 q (wrap w (N.shiftl (word s1 0) p)) Hs1 Hq (mod_pow2_lt _ _)) as (s2 & E2 & Hs2). rewrite E2.
  destruct (zero_below_ok (N.to_nat q) s2 Hs2 ltac:(lia)) as (s' & E' & Hs' & B').
  exists s'. split; [exact E'|]. split; [exact Hs'|]. intros i Hi.
  destruct (split_index w i Hw) as (k & o & Ei & Ho & Ek & _). pose proof (idx_lt i Hi) as Hki. rewrite Ek in Hki.
  rewrite Ei, ab_at by exact Ho. rewrite B', (word_wr s1 s2 _ _ _ E2), !B1.
  replace (N.of_nat (N.to_nat q)) with q by lia.
  destruct (N.ltb_spec k q) as [C1|C1].
  { rewrite N.bits_0. destruct (N.leb_spec K (k * w + o)); [|reflexivity]. exfalso. nia. }
  destruct (N.ltb_spec q 0) as [?|_]; [lia|]. cbn [andb].
  destruct (N.eqb_spec k q) as [->|C2].
  - unfold wrap. rewrite testbit_mod, testbit_shl. destruct (N.ltb_spec o w); [|lia]. cbn [andb].
    destruct (N.leb_spec p o), (N.leb_spec K (q * w + o)); try lia. cbn [andb].
    replace (q * w + o - K) with (0 * w + (o - p)) by lia. rewrite ab_at by lia. reflexivity.
  - destruct (N.ltb_spec q k), (N.leb_spec k (sz - 1)); try lia. cbn [andb].
    rewrite combl_bit by (assumption || apply word_lt; assumption).
    destruct (N.leb_spec K (k * w + o)) as [C3|C3]; [|exfalso; nia]. cbn [andb].
    destruct (N.leb_spec p o) as [C4|C4].
    + replace (k * w + o - K) with ((k - q) * w + (o - p)) by nia. rewrite ab_at by lia. reflexivity.
    + replace (k * w + o - K) with ((k - q - 1) * w + (o + w - p)) by nia. rewrite ab_at by lia. reflexivity.
Qed.

Definition combr (p a b : N) : N := if p =? 0 then a else N.lor (wrap w (N.shiftr a p)) (wrap w (N.shiftl b (w - p))).
Lemma combr_lt p a b : a < 2 ^ w -> combr p a b < 2 ^ w.
Proof. intros Ha. unfold combr. destruct (p =? 0); [exact Ha|]. apply lor_lt; apply mod_pow2_lt. Qed.
Lemma combr_bit p a b o : p < w -> a < 2 ^ w -> o < w ->
  N.testbit (combr p a b) o = if o + p <? w then N.testbit a (o + p) else N.testbit b (o + p - w).
Proof.
  intros Hp Ha Ho. unfold combr, wrap. destruct (N.eqb_spec p 0) as [->|H0].
  - rewrite N.add_0_r. destruct (N.ltb_spec o w); [reflexivity|lia].
  - rewrite N.lor_spec, !testbit_mod, testbit_shl, testbit_shr. destruct (N.ltb_spec o w); [|lia]. cbn [andb].
    destruct (N.ltb_spec (o + p) w), (N.leb_spec (w - p) o); try lia; cbn [andb orb].
    + apply orb_false_r.
    + rewrite (testbit_high a w) by (assumption || lia). cbn [orb]. f_equal. lia.
Qed.

Lemma shr_loop_ok p q k : forall i s dst, wf s -> i = q + dst -> i + N.of_nat k + 1 <= sz ->
  exists s', shr_loop w k i s dst p = Some (s', dst + N.of_nat k) /\ wf s' /\
  forall j, word s' j = if (dst <=? j) && (j <? dst + N.of_nat k) then combr p (word s (j + q)) (word s (j + q + 1)) else word s j.
Proof.
  induction k as [|k IH]; intros i s dst Hs Hi Hsz; cbn [shr_loop].
  - exists s. split; [f_equal; f_equal; lia|]. split; [exact Hs|]. intros j. ncmp; try lia; reflexivity.
  - rewrite (rd_word s i Hs) by lia.
    assert (Ev : (if p =? 0 then Some (word s i) else
      match rd s (i + 1) with
      | Some b => Some (N.lor (wrap w (N.shiftr (word s i) p)) (wrap w (N.shiftl b (w - p))))
      | None => None end) = Some (combr p (word s i) (word s (i + 1)))).
    { unfold combr. destruct (p =? 0); [reflexivity|]. rewrite (rd_word s (i + 1) Hs) by lia. reflexivity. }
    rewrite Ev. destruct (wf_wr s dst (combr p (word s i) (word s (i + 1))) Hs ltac:(lia)) as (s1 & E1 & Hs1).
    { apply combr_lt. apply word_lt. exact Hs. }
    rewrite E1. pose proof sz_lt. rewrite sz_inc_small by lia.
    destruct (IH (i + 1) s1 (dst + 1) Hs1 ltac:(lia) ltac:(lia)) as (s' & E' & Hs' & B).
    exists s'. split; [rewrite E'; f_equal; f_equal; lia|]. split; [exact Hs'|]. intros j. rewrite B.
    rewrite !(word_wr s s1 dst _ _ E1).
    destruct (N.eq_dec j dst) as [->|Hk].
    + destruct (N.leb_spec (dst + 1) dst), (N.leb_spec dst dst), (N.ltb_spec dst (dst + N.of_nat (S k))); try lia. cbn [andb].
      rewrite N.eqb_refl. replace (dst + q) with i by lia. reflexivity.
    + destruct (N.leb_spec (dst + 1) j), (N.leb_spec dst j), (N.ltb_spec j (dst + 1 + N.of_nat k)), (N.ltb_spec j (dst + N.of_nat (S k))), (N.eqb_spec j dst), (N.eqb_spec (j + q) dst), (N.eqb_spec (j + q + 1) dst);
        try lia; cbn [andb]; reflexivity.
Qed.
Lemma zero_from_ok k : forall s d, wf s -> d + N.of_nat k <= sz ->
  exists s', zero_from k s d = Some s' /\ wf s' /\ forall j, word s' j = if (d <=? j) && (j <? d + N.of_nat k) then 0 else word s j.
Proof.
  induction k as [|k IH]; intros s d Hs Hd; cbn [zero_from].
  - exists s. split; [reflexivity|]. split; [exact Hs|]. intros j. ncmp; try lia; reflexivity.
  - destruct (wf_wr s d 0 Hs ltac:(lia) (npow2_pos w)) as (s1 & E1 & Hs1). rewrite E1.
    destruct (IH s1 (d + 1) Hs1 ltac:(lia)) as (s' & E' & Hs' & B). exists s'. split; [exact E'|]. split; [exact Hs'|].
    intros j. rewrite B, (word_wr s s1 _ _ _ E1). ncmp; try lia; reflexivity.
Qed.

Lemma back_word s : wf s -> back n w s = Some (word s (sz - 1)).
Proof. intros Hs. pose proof sz_pos. unfold back. destruct (N.eqb_spec sz 0); [lia|]. apply rd_word; [exact Hs|lia]. Qed.

Lemma shr_ok s K : wf s -> K < total ->
  exists s', shr_assign n w s K = Some s' /\ wf s' /\
  forall i, i < total -> ab s' i = (i + K <? total) && ab s (i + K).
Proof.
  intros Hs HK. unfold shr_assign. destruct (N.eqb_spec n 0); [lia|]. pose proof (idx_lt K HK) as Hq.
  set (q := K / w) in *. set (p := K mod w).
  assert (Hp : p < w) by (apply N.mod_lt; lia). assert (EK : K = q * w + p) by (unfold q, p; rewrite N.mul_comm; apply N.div_mod; lia).
  destruct (shr_loop_ok p q (N.to_nat (sz - 1 - q)) q s 0 Hs ltac:(lia) ltac:(lia)) as (s1 & -> & Hs1 & B1).
  rewrite N.add_0_l in *. replace (N.of_nat (N.to_nat (sz - 1 - q))) with (sz - 1 - q) in * by lia.
  rewrite (back_word s1 Hs1).
  destruct (wf_wr s1 (sz - 1 - q) (wrap w (N.shiftr (word s1 (sz - 1)) p)) Hs1 ltac:(lia) (mod_pow2_lt _ _)) as (s2 & E2 & Hs2). rewrite E2.
  destruct (zero_from_ok (N.to_nat (sz - (sz - 1 - q + 1))) s2 (sz - 1 - q + 1) Hs2 ltac:(lia)) as (s' & E' & Hs' & B').
  exists s'. split; [exact E'|]. split; [exact Hs'|]. intros i Hi.
  destruct (split_index w i Hw) as (k & o & Ei & Ho & Ek & _). pose proof (idx_lt i Hi) as Hki. rewrite Ek in Hki.
  rewrite Ei, ab_at by exact Ho. rewrite B', (word_wr s1 s2 _ _ _ E2), !B1.
  replace (N.of_nat (N.to_nat (sz - (sz - 1 - q + 1)))) with q by lia. unfold total.
  destruct (N.leb_spec (sz - 1 - q + 1) k) as [C1|C1].
  { destruct (N.ltb_spec k (sz - 1 - q + 1 + q)); [|lia]. cbn [andb]. rewrite N.bits_0.
    destruct (N.ltb_spec (k * w + o + K) (sz * w)); [|reflexivity]. exfalso. assert (sz <= k + q) by lia. nia. }
  cbn [andb]. destruct (N.leb_spec 0 (sz - 1)); [|lia]. destruct (N.leb_spec 0 k); [|lia].
  destruct (N.ltb_spec (sz - 1) (sz - 1 - q)); [lia|]. cbn [andb].
  destruct (N.eqb_spec k (sz - 1 - q)) as [->|C2].
  - unfold wrap. rewrite testbit_mod, testbit_shr. destruct (N.ltb_spec o w); [|lia]. cbn [andb].
    destruct (N.ltb_spec ((sz - 1 - q) * w + o + K) (sz * w)) as [C3|C3]; cbn [andb].
    + replace ((sz - 1 - q) * w + o + K) with ((sz - 1) * w + (o + p)) in * by nia.
      rewrite ab_at; [reflexivity|]. nia.
    + apply (testbit_high _ w); [apply word_lt; exact Hs|]. nia.
  - destruct (N.ltb_spec k (sz - 1 - q)); [|lia].
    rewrite combr_bit by (assumption || apply word_lt; assumption).
    assert (C3 : k + q + 1 <= sz - 1) by lia.
    destruct (N.ltb_spec (k * w + o + K) (sz * w)) as [C4|C4]; [|exfalso; nia]. cbn [andb].
    destruct (N.ltb_spec (o + p) w) as [C5|C5].
    + replace (k * w + o + K) with ((k + q) * w + (o + p)) by nia. rewrite ab_at by lia. reflexivity.
    + replace (k * w + o + K) with ((k + q + 1) * w + (o + p - w)) by nia. rewrite ab_at by lia. reflexivity.
Qed.

(** ** observers *)
Lemma len_map {A B} (f : A -> B) l : len (map f l) = len l.
Proof. unfold len. rewrite map_length. reflexivity. Qed.
Lemma filter_nil_iff {A} (f : A -> bool) l : filter f l = [] <-> forall x, In x l -> f x = false.
Proof.
  induction l as [|a l IH]; [split; [intros _ x []|reflexivity]|]. cbn [filter]. destruct (f a) eqn:E.
  - split; [discriminate|]. intros H. rewrite H in E by (left; reflexivity). discriminate.
  - rewrite IH. split; [intros H x [<-|Hx]; [exact E|apply H; exact Hx]|intros H x Hx; apply H; right; exact Hx].
Qed.
Lemma highbits_ok s : wf s -> highbits n w s = Some (word s (sz - 1) mod 2 ^ rbits).
Proof.
  intros Hs. unfold highbits. rewrite (back_word s Hs), lastmask_ones, N.land_ones. reflexivity.
Qed.

Lemma ab_cons e l i : ab (e :: l) i = if i <? w then N.testbit e i else ab l (i - w).
Proof.
  unfold ab. change (e :: l) with ([e] ++ l). rewrite array_bit_app by exact Hw.
  change (len [e]) with 1. rewrite N.mul_1_l. destruct (N.ltb_spec i w) as [H|H]; [|reflexivity].
  unfold array_bit. rewrite N.div_small, N.mod_small by exact H. reflexivity.
Qed.

(** What one pass over the words collects. *)
Section Collect.
Context {A : Type} (sel : N -> (N -> bool) -> N -> list A).
Context (sel_split : forall a b f idx, sel (a + b) f idx = sel a f idx ++ sel b (fun i => f (a + i)) (idx + a)).
Context (sel_ext : forall k f g idx, (forall i, i < k -> f i = g i) -> sel k f idx = sel k g idx).
Context (sel_0 : forall f idx, sel 0 f idx = []).
Lemma sel_words l : forall idx r x, r <= w ->
  sel (len l * w + r) (ab (l ++ [x])) idx
  = sel (len l * w) (ab l) idx ++ sel r (N.testbit x) (idx + len l * w).
Proof.
  intros idx r x Hr. rewrite sel_split. f_equal.
  - apply sel_ext. intros i Hi. unfold ab. rewrite array_bit_app by exact Hw.
    destruct (N.ltb_spec i (len l * w)); [reflexivity|lia].
  - apply sel_ext. intros i Hi. unfold ab. rewrite array_bit_app by exact Hw.
    destruct (N.ltb_spec (len l * w + i) (len l * w)); [lia|].
    replace (len l * w + i - len l * w) with i by lia.
    unfold array_bit. rewrite N.div_small, N.mod_small by lia. reflexivity.
Qed.
Context (f : N -> N -> N -> option (list A)).
Context (f_ok : forall r e idx, r <= w -> e < 2 ^ r -> f (N.ones r) e idx = Some (sel r (N.testbit e) idx)).

Lemma each_word_ok l : forall idx, Forall (fun e => e < 2 ^ w) l ->
  each_word w (f (allbits w)) idx l = Some (idx + len l * w, sel (len l * w) (ab l) idx).
Proof.
  induction l as [|e l IH]; intros idx Hf; cbn [each_word].
  - change (len (@nil N)) with 0. rewrite N.mul_0_l, N.add_0_r, sel_0. reflexivity.
  - inversion Hf; subst. unfold allbits at 1. rewrite f_ok by (assumption || lia). rewrite IH by assumption.
    rewrite len_cons. f_equal. f_equal; [lia|].
    replace ((len l + 1) * w) with (w + len l * w) by lia. rewrite sel_split. f_equal.
    + apply sel_ext. intros i Hi. rewrite ab_cons. destruct (N.ltb_spec i w); [reflexivity|lia].
    + apply sel_ext. intros i Hi. rewrite ab_cons. destruct (N.ltb_spec (w + i) w); [lia|]. f_equal. lia.
Qed.
Lemma for_each_with_ok s : wf s -> for_each_with n w f s = Some (sel n (ab s) 0).
Proof.
  intros Hs. unfold for_each_with. pose proof sz_pos. destruct (N.eqb_spec sz 0); [lia|].
  rewrite (highbits_ok s Hs). destruct (wf_decomp s Hs) as (l & x & E & Hl & Hx & Hf & Efn & Eb).
  rewrite Efn, each_word_ok by exact Hf. rewrite lastmask_ones. destruct rbits_range as (R1 & R2 & R3).
  rewrite f_ok by (assumption || apply mod_pow2_lt). f_equal.
  assert (Ex : word s (sz - 1) = x) by (unfold word; rewrite E, <- Hl, rd_len; reflexivity).
  rewrite R3 at 2. rewrite <- Hl, E, sel_words by exact R2. f_equal.
  apply sel_ext. intros i Hi. rewrite <- E, Hl, Ex, testbit_mod. destruct (N.ltb_spec i rbits); [reflexivity|lia].
Qed.
End Collect.

Definition sel_set (k : N) (f : N -> bool) (idx : N) : list N := map (N.add idx) (indices_where k f).
Lemma sel_set_split a b f idx : sel_set (a + b) f idx = sel_set a f idx ++ sel_set b (fun i => f (a + i)) (idx + a).
Proof.
  unfold sel_set. rewrite indices_split, map_app, map_map. f_equal. apply map_ext. intros i. lia.
Qed.
Lemma sel_set_ext k f g idx : (forall i, i < k -> f i = g i) -> sel_set k f idx = sel_set k g idx.
Proof. intros H. unfold sel_set. rewrite (indices_ext k f g H). reflexivity. Qed.
Lemma sel_set_0idx k f : sel_set k f 0 = indices_where k f.
Proof. unfold sel_set. rewrite <- map_id. apply map_ext. intros. apply N.add_0_l. Qed.
Lemma sel_set_shrink a r f idx : r <= a -> (forall i, r <= i -> i < a -> f i = false) -> sel_set a f idx = sel_set r f idx.
Proof.
  intros Hr H. replace a with (r + (a - r)) by lia. rewrite sel_set_split.
  replace (sel_set (a - r) (fun i => f (r + i)) (idx + r)) with (@nil N); [apply app_nil_r|].
  unfold sel_set, indices_where. rewrite (proj2 (filter_nil_iff _ _)); [reflexivity|].
  intros i Hi. apply In_range in Hi. apply H; lia.
Qed.

Lemma range_split k o m : k <= o -> o < m ->
  map N.of_nat (seq (N.to_nat k) (N.to_nat (m - k))) =
  map N.of_nat (seq (N.to_nat k) (N.to_nat (o - k))) ++ o :: map N.of_nat (seq (N.to_nat (o + 1)) (N.to_nat (m - (o + 1)))).
Proof.
  intros H1 H2. replace (N.to_nat (m - k)) with (N.to_nat (o - k) + S (N.to_nat (m - (o + 1))))%nat by lia.
  rewrite seq_app, map_app. f_equal. cbn [seq map]. f_equal; [lia|]. do 2 f_equal. lia.
Qed.
Lemma In_from i a b : In i (map N.of_nat (seq (N.to_nat a) (N.to_nat (b - a)))) -> a <= i < N.max a b.
Proof. rewrite in_map_iff. intros (j & <- & H). apply in_seq in H. lia. Qed.

Lemma tnot_bit_at e o i : o < w -> e < 2 ^ w -> N.testbit (N.land e (tnot w (bit_at w o))) i = N.testbit e i && negb (i =? o).
Proof.
  intros Ho He. rewrite bit_at_eq by exact Ho. unfold tnot. rewrite N.land_spec, testbit_lnot, testbit_pow2.
  destruct (N.ltb_spec i w).
  - destruct (i =? o); destruct (N.testbit e i); reflexivity.
  - rewrite (testbit_high e w) by assumption. reflexivity.
Qed.

Lemma set_bit_fn_ok idx fuel : forall k e, k <= w -> (forall i, i < k -> N.testbit e i = false) -> e < 2 ^ w ->
  (N.to_nat (w - k) <= fuel)%nat ->
  set_bit_fn pl w fuel e idx = Some (map (N.add idx) (filter (N.testbit e) (map N.of_nat (seq (N.to_nat k) (N.to_nat (w - k)))))).
Proof.
  induction fuel as [|fuel IH]; intros k e Hk Hlow He Hfuel; cbn [set_bit_fn].
  - destruct (N.eqb_spec e 0) as [->|Hne].
    + rewrite (proj2 (filter_nil_iff _ _)); [reflexivity|]. intros. apply N.bits_0.
    + exfalso. apply Hne. apply (bits_eq _ _ w); [exact He|apply npow2_pos|]. intros i Hi. rewrite N.bits_0. apply Hlow. lia.
  - destruct (N.eqb_spec e 0) as [->|Hne].
    + rewrite (proj2 (filter_nil_iff _ _)); [reflexivity|]. intros. apply N.bits_0.
    + destruct (countr_zero_ok pl w e Hpl Hwl He) as (o & -> & O1 & O2 & O3).
      assert (Ho : o < w).
      { destruct (N.eq_dec o w) as [->|]; [|lia]. exfalso. apply Hne. apply (bits_eq _ _ w); [exact He|apply npow2_pos|].
        intros i Hi. rewrite N.bits_0. apply O2. exact Hi. }
      specialize (O3 Ho). cbn [negb] in O3.
      assert (Hko : k <= o).
      { destruct (N.le_gt_cases k o) as [|Hlt]; [assumption|]. rewrite Hlow in O3 by exact Hlt. discriminate. }
      rewrite (IH (o + 1)).
      * f_equal. rewrite (range_split k o w Hko Ho), filter_app.
        rewrite (proj2 (filter_nil_iff (N.testbit e) (map N.of_nat (seq (N.to_nat k) (N.to_nat (o - k)))))).
        -- cbn [app filter]. rewrite O3. cbn [map]. f_equal. f_equal. apply filter_ext_in.
           intros i Hi. apply In_from in Hi. rewrite tnot_bit_at by assumption.
           destruct (N.eqb_spec i o); [lia|apply andb_true_r].
        -- intros i Hi. apply In_from in Hi. apply O2. lia.
      * lia.
      * intros i Hi. rewrite tnot_bit_at by assumption. destruct (N.eqb_spec i o); [apply andb_false_r|].
        rewrite O2 by lia. reflexivity.
      * apply land_lt. exact He.
      * lia.
Qed.
Lemma set_word_ok r e idx : r <= w -> e < 2 ^ r -> set_bit_fn pl w (N.to_nat w) e idx = Some (sel_set r (N.testbit e) idx).
Proof.
  intros Hr He. assert (He' : e < 2 ^ w) by (pose proof (npow2_le r w Hr); lia).
  rewrite (set_bit_fn_ok idx (N.to_nat w) 0 e); [|lia|lia|exact He'|lia].
  rewrite N.sub_0_r. change (N.to_nat 0) with 0%nat.
  change (map (N.add idx) (filter (N.testbit e) (map N.of_nat (seq 0 (N.to_nat w))))) with (sel_set w (N.testbit e) idx).
  f_equal. apply sel_set_shrink; [exact Hr|]. intros i Hi _. apply (testbit_high e r); assumption.
Qed.

Lemma unset_bit_fn_ok idx r fuel : r <= w -> forall k e, k <= r -> (forall i, i < k -> N.testbit e i = true) -> e < 2 ^ r ->
  (N.to_nat (r - k) <= fuel)%nat ->
  unset_bit_fn pl w (N.ones r) fuel e idx =
  Some (map (N.add idx) (filter (fun i => negb (N.testbit e i)) (map N.of_nat (seq (N.to_nat k) (N.to_nat (r - k)))))).
Proof.
  intros Hr. 
  assert (Hones : forall k, filter (fun i => negb (N.testbit (N.ones r) i)) (map N.of_nat (seq (N.to_nat k) (N.to_nat (r - k)))) = []).
  { intros k. apply filter_nil_iff. intros i Hi. apply In_from in Hi. rewrite testbit_ones. destruct (N.ltb_spec i r); [reflexivity|].
    exfalso. assert (r < k) by lia. lia. }
  assert (Hall : forall e k, r <= k -> e < 2 ^ r -> (forall i, i < k -> N.testbit e i = true) -> e = N.ones r).
  { intros e k Hk He H. apply (bits_eq _ _ r); [exact He|apply ones_lt|]. intros i Hi. rewrite H by lia. rewrite testbit_ones. symmetry. apply N.ltb_lt. exact Hi. }
  induction fuel as [|fuel IH]; intros k e Hk Hlow He Hfuel; cbn [unset_bit_fn].
  - destruct (N.eqb_spec e (N.ones r)) as [->|Hne]; [rewrite Hones; reflexivity|].
    exfalso. apply Hne. apply (Hall e k); [lia|exact He|exact Hlow].
  - destruct (N.eqb_spec e (N.ones r)) as [->|Hne]; [rewrite Hones; reflexivity|].
    assert (He' : e < 2 ^ w) by (pose proof (npow2_le r w Hr); lia).
    destruct (countr_one_ok pl w e Hpl Hwl He') as (o & -> & O1 & O2 & O3).
    assert (Ho : o < r).
    { destruct (N.lt_ge_cases o r) as [|Hge]; [assumption|]. exfalso. apply Hne. apply (Hall e o); [exact Hge|exact He|exact O2]. }
    specialize (O3 ltac:(lia)). cbn [negb] in O3. destruct (N.ltb_spec o w); [|lia].
    assert (Hko : k <= o).
    { destruct (N.le_gt_cases k o) as [|Hlt]; [assumption|]. rewrite Hlow in O3 by exact Hlt. discriminate. }
    assert (Hb : forall i, N.testbit (N.lor e (bit_at w o)) i = N.testbit e i || (i =? o)).
    { intros i. rewrite bit_at_eq by assumption. rewrite N.lor_spec, testbit_pow2. reflexivity. }
    rewrite (IH (o + 1)).
    + f_equal. rewrite (range_split k o r Hko Ho), filter_app.
      rewrite (proj2 (filter_nil_iff (fun i => negb (N.testbit e i)) (map N.of_nat (seq (N.to_nat k) (N.to_nat (o - k)))))).
      * cbn [app filter]. rewrite O3. cbn [map negb]. f_equal. f_equal. apply filter_ext_in.
        intros i Hi. apply In_from in Hi. rewrite Hb. destruct (N.eqb_spec i o); [lia|]. rewrite orb_false_r. reflexivity.
      * intros i Hi. apply In_from in Hi. rewrite O2 by lia. reflexivity.
    + lia.
    + intros i Hi. rewrite Hb. destruct (N.eqb_spec i o); [apply orb_true_r|]. rewrite O2 by lia. reflexivity.
    + apply lor_lt; [exact He|]. rewrite bit_at_eq by assumption. apply npow2_lt. exact Ho.
    + lia.
Qed.
Definition sel_unset (k : N) (f : N -> bool) (idx : N) : list N := sel_set k (fun i => negb (f i)) idx.
Lemma unset_word_ok r e idx : r <= w -> e < 2 ^ r ->
  unset_bit_fn pl w (N.ones r) (N.to_nat w) e idx = Some (sel_unset r (N.testbit e) idx).
Proof.
  intros Hr He. rewrite (unset_bit_fn_ok idx r (N.to_nat w) Hr 0 e); [|lia|lia|exact He|lia].
  rewrite N.sub_0_r. reflexivity.
Qed.

Lemma popcount_len x : x < 2 ^ w -> popcount pl w x = len (indices_where w (N.testbit x)).
Proof.
  intros Hx. rewrite (popcount_ok pl w x Hpl Hwl Hx). unfold ones_below, indices_where.
  rewrite filter_map. unfold len. rewrite map_length. reflexivity.
Qed.
Lemma filter_all {A} (f : A -> bool) l : (forall x, In x l -> f x = true) -> filter f l = l.
Proof. induction l as [|a l IH]; intros H; [reflexivity|]. cbn [filter]. rewrite H by (left; reflexivity). rewrite IH; [reflexivity|]. intros x Hx. apply H. right. exact Hx. Qed.
Lemma popcount_ones r : r <= w -> popcount pl w (N.ones r) = r.
Proof.
  intros Hr. rewrite popcount_len by (pose proof (npow2_le r w Hr); pose proof (ones_lt r); lia).
  rewrite <- sel_set_0idx, (sel_set_shrink w r); [|exact Hr|].
  - rewrite sel_set_0idx. unfold indices_where. rewrite filter_all.
    + unfold len. rewrite map_length, seq_length. lia.
    + intros i Hi. apply In_range in Hi. rewrite testbit_ones. apply N.ltb_lt. lia.
  - intros i Hi _. rewrite testbit_ones. apply N.ltb_ge. exact Hi.
Qed.

Definition sel_bit (k : N) (f : N -> bool) (idx : N) : list (N * bool) :=
  map (fun i => (idx + i, f i)) (map N.of_nat (seq 0 (N.to_nat k))).
Lemma sel_bit_split a b f idx : sel_bit (a + b) f idx = sel_bit a f idx ++ sel_bit b (fun i => f (a + i)) (idx + a).
Proof.
  unfold sel_bit. rewrite N2Nat.inj_add, seq_N_split, map_app. f_equal. rewrite !map_map. apply map_ext. intros i.
  rewrite N2Nat.id. f_equal. lia.
Qed.
Lemma sel_bit_ext k f g idx : (forall i, i < k -> f i = g i) -> sel_bit k f idx = sel_bit k g idx.
Proof. intros H. unfold sel_bit. apply map_ext_in. intros i Hi. apply In_range in Hi. rewrite H by lia. reflexivity. Qed.
Lemma bit_word_ok r e idx : r <= w -> e < 2 ^ r -> Some (bit_fn pl w (N.ones r) e idx) = Some (sel_bit r (N.testbit e) idx).
Proof.
  intros Hr He. unfold bit_fn. rewrite popcount_ones by exact Hr. unfold sel_bit. rewrite map_map. f_equal.
  apply map_ext_in. intros i Hi. apply in_seq in Hi. rewrite land_bit by lia. reflexivity.
Qed.

Lemma for_each_set_ok s : wf s -> for_each_set pl n w s = Some (indices_where n (ab s)).
Proof.
  intros Hs. unfold for_each_set. rewrite (for_each_with_ok sel_set sel_set_split sel_set_ext (fun _ _ => eq_refl)); [|exact set_word_ok|exact Hs].
  rewrite sel_set_0idx. reflexivity.
Qed.
Lemma for_each_unset_ok s : wf s -> for_each_unset pl n w s = Some (indices_where n (fun i => negb (ab s i))).
Proof.
  intros Hs. unfold for_each_unset. rewrite (for_each_with_ok sel_unset); [| | |reflexivity|exact unset_word_ok|exact Hs].
  - unfold sel_unset. rewrite sel_set_0idx. reflexivity.
  - intros a b f idx. apply sel_set_split.
  - intros k f g idx H. apply sel_set_ext. intros i Hi. rewrite H by exact Hi. reflexivity.
Qed.
Lemma for_each_bit_ok s : wf s ->
  for_each_bit pl n w s = Some (map (fun i => (i, ab s i)) (map N.of_nat (seq 0 (N.to_nat n)))).
Proof.
  intros Hs. unfold for_each_bit.
  rewrite (for_each_with_ok sel_bit sel_bit_split sel_bit_ext (fun _ _ => eq_refl)); [reflexivity|exact bit_word_ok|exact Hs].
Qed.

Lemma count_words l : forall a, Forall (fun e => e < 2 ^ w) l ->
  fold_left (fun a e => a + popcount pl w e) l a = a + len (indices_where (len l * w) (ab l)).
Proof.
  induction l as [|e l IH]; intros a Hf; cbn [fold_left].
  - change (len (@nil N)) with 0. rewrite N.mul_0_l. cbn. lia.
  - inversion Hf; subst. rewrite IH by assumption. rewrite len_cons.
    replace ((len l + 1) * w) with (w + len l * w) by lia. rewrite indices_split, len_app, len_map.
    rewrite popcount_len by assumption.
    rewrite (indices_ext w (ab (e :: l)) (N.testbit e)), (indices_ext (len l * w) (fun i => ab (e :: l) (w + i)) (ab l)); [lia| |].
    + intros i Hi. rewrite ab_cons. destruct (N.ltb_spec (w + i) w); [lia|]. f_equal. lia.
    + intros i Hi. rewrite ab_cons. destruct (N.ltb_spec i w); [reflexivity|lia].
Qed.
Lemma count_ok s : wf s -> count pl n w s = Some (len (indices_where n (ab s))).
Proof.
  intros Hs. unfold count. destruct (N.eqb_spec n 0); [lia|]. rewrite (highbits_ok s Hs).
  destruct (wf_decomp s Hs) as (l & x & E & Hl & Hx & Hf & Efn & Eb).
  assert (Ex : word s (sz - 1) = x) by (unfold word; rewrite E, <- Hl, rd_len; reflexivity).
  rewrite Efn, count_words by exact Hf. destruct rbits_range as (R1 & R2 & R3).
  f_equal. rewrite <- (sel_set_0idx n).
  replace (sel_set n (ab s) 0) with (sel_set (len l * w + rbits) (ab (l ++ [x])) 0) by (rewrite Hl, <- R3, <- E; reflexivity).
  rewrite (sel_words sel_set sel_set_split sel_set_ext (fun _ _ => eq_refl)) by exact R2.
  rewrite len_app, sel_set_0idx. unfold sel_set at 1. rewrite len_map.
  rewrite Ex. rewrite popcount_len by (pose proof (mod_pow2_lt x rbits); pose proof (npow2_le rbits w R2); lia).
  rewrite <- (sel_set_0idx w), (sel_set_shrink w rbits), sel_set_0idx; [|exact R2|].
  - rewrite (indices_ext rbits (N.testbit (x mod 2 ^ rbits)) (N.testbit x)); [apply N.add_comm|].
    intros i Hi. rewrite testbit_mod. destruct (N.ltb_spec i rbits); [reflexivity|lia].
  - intros i Hi _. rewrite testbit_mod. destruct (N.ltb_spec i rbits); [lia|reflexivity].
Qed.

Lemma eq_words_ok a b : wf a -> wf b -> forall k i, i + N.of_nat k <= sz ->
  exists r, eq_words k i a b = Some r /\ (r = true <-> forall j, i <= j -> j < i + N.of_nat k -> word a j = word b j).
Proof.
  intros Ha Hb. induction k as [|k IH]; intros i Hi; cbn [eq_words].
  - exists true. split; [reflexivity|]. split; [lia|reflexivity].
  - rewrite (rd_word a i Ha), (rd_word b i Hb) by lia. destruct (N.eqb_spec (word a i) (word b i)) as [E|E].
    + destruct (IH (i + 1) ltac:(lia)) as (r & -> & Hr). exists r. split; [reflexivity|]. rewrite Hr. split.
      * intros H j H1 H2. destruct (N.eq_dec j i) as [->|]; [exact E|]. apply H; lia.
      * intros H j H1 H2. apply H; lia.
    + exists false. split; [reflexivity|]. split; [discriminate|]. intros H. exfalso. apply E. apply H; lia.
Qed.
Lemma eq_ok a b : wf a -> wf b -> exists r, eq n w a b = Some r /\ (r = true <-> forall i, i < n -> ab a i = ab b i).
Proof.
  intros Ha Hb. unfold eq. destruct (N.eqb_spec n 0); [lia|]. pose proof sz_pos. destruct rbits_range as (R1 & R2 & R3).
  destruct (eq_words_ok a b Ha Hb (N.to_nat (sz - 1)) 0 ltac:(lia)) as (r & -> & Hr).
  assert (Hword : forall s j o, wf s -> o < w -> ab s (j * w + o) = N.testbit (word s j) o) by (intros; apply ab_at; assumption).
  destruct r.
  - rewrite (highbits_ok a Ha), (highbits_ok b Hb). eexists. split; [reflexivity|]. rewrite N.eqb_eq.
    assert (Hr' := proj1 Hr eq_refl). split.
    + intros E i Hi. destruct (split_index w i Hw) as (k & o & Ei & Ho & _ & _). rewrite Ei, !Hword by assumption.
      destruct (N.lt_ge_cases k (sz - 1)) as [Hk|Hk]; [rewrite Hr' by lia; reflexivity|].
      assert (k = sz - 1) by nia. subst k.
      assert (Ho' : o < rbits) by lia.
      assert (Et : N.testbit (word a (sz - 1) mod 2 ^ rbits) o = N.testbit (word b (sz - 1) mod 2 ^ rbits) o) by (rewrite E; reflexivity).
      rewrite !testbit_mod in Et. destruct (N.ltb_spec o rbits); [exact Et|lia].
    + intros H1. apply (bits_eq _ _ rbits); try apply mod_pow2_lt. intros o Ho. rewrite !testbit_mod.
      destruct (N.ltb_spec o rbits); [|lia]. cbn [andb]. rewrite <- !Hword by (assumption || lia). apply H1. lia.
  - exists false. split; [reflexivity|]. split; [discriminate|]. intros H1. apply Hr. intros j _ Hj.
    apply (bits_eq _ _ w); try (apply word_lt; assumption). intros o Ho. rewrite <- !Hword by assumption. apply H1. nia.
Qed.

Lemma value_of_bit b : forall i, N.testbit (value_of b) i = bit b i.
Proof.
  induction b as [|x b IH]; intros i; cbn [value_of fold_right].
  - rewrite N.bits_0. unfold bit. rewrite rd_ge_None; [reflexivity|]. change (len (@nil bool)) with 0. lia.
  - fold (value_of b). unfold bit. destruct (N.eq_dec i 0) as [->|Hi].
    + rewrite rd_cons0. destruct x; [rewrite N.add_comm; apply N.testbit_odd_0|rewrite N.add_0_l; apply N.testbit_even_0].
    + rewrite rd_cons_pos by lia. fold (bit b (i - 1)). rewrite <- IH.
      replace i with (N.succ (i - 1)) at 1 by lia.
      destruct x; [rewrite N.add_comm; apply N.testbit_odd_succ; lia|rewrite N.add_0_l; apply N.testbit_even_succ; lia].
Qed.

Lemma to_words_app uw h a e : to_words w uw h (a ++ [e]) = N.lor (wrap uw (N.shiftl (to_words w uw h a) w)) e.
Proof. revert h. induction a as [|x a IH]; intros h; cbn [app to_words]; [reflexivity|]. apply IH. Qed.
Lemma to_words_ok uw h r : h < 2 ^ r -> forall l, Forall (fun e => e < 2 ^ w) l -> len l * w + r <= uw ->
  forall i, N.testbit (to_words w uw h (rev l)) i = if i <? len l * w then ab l i else N.testbit h (i - len l * w).
Proof.
  intros Hh. induction l as [|e l IH]; intros Hf Hu i.
  - cbn [rev to_words]. change (len (@nil N)) with 0. rewrite N.mul_0_l. destruct (N.ltb_spec i 0); [lia|]. rewrite N.sub_0_r. reflexivity.
  - inversion Hf; subst. rewrite len_cons in *. cbn [rev]. rewrite to_words_app, N.lor_spec. unfold wrap.
    rewrite testbit_mod, testbit_shl, ab_cons. destruct (N.ltb_spec i w) as [Hi|Hi].
    + destruct (N.leb_spec w i); [lia|]. cbn [andb]. rewrite andb_false_r. cbn [orb].
      destruct (N.ltb_spec i ((len l + 1) * w)); [reflexivity|nia].
    + destruct (N.leb_spec w i); [|lia]. cbn [andb]. rewrite (testbit_high e w), orb_false_r by assumption.
      rewrite IH by (assumption || lia).
      destruct (N.ltb_spec (i - w) (len l * w)), (N.ltb_spec i ((len l + 1) * w)); try lia.
      * destruct (N.ltb_spec i uw); [reflexivity|lia].
      * replace (i - w - len l * w) with (i - (len l + 1) * w) by lia.
        destruct (N.ltb_spec i uw); [reflexivity|]. cbn [andb]. symmetry. apply (testbit_high h r); [exact Hh|lia].
Qed.
Lemma to_uint_ok s (same : bool) uw : wf s -> n <= uw -> (if same then uw = w else w <= uw) ->
  to_uint n w same uw s = Some (value_of (tab n (ab s))).
Proof.
  intros Hs Hn1 Hsame. unfold to_uint. destruct (N.ltb_spec uw n); [lia|].
  replace (negb same && (uw <? w)) with false
    by (destruct same; [reflexivity|]; cbn [negb andb]; destruct (N.ltb_spec uw w); [lia|reflexivity]).
  destruct (N.eqb_spec n 0); [lia|].
  destruct rbits_range as (R1 & R2 & R3). pose proof sz_pos.
  destruct same.
  - subst uw. assert (Esz : sz = 1) by nia. rewrite (rd_word s 0 Hs) by lia. f_equal. rewrite lastmask_ones, N.land_ones.
    apply N.bits_inj. intros i. rewrite value_of_bit, testbit_mod.
    assert (rbits = n) by lia.
    destruct (N.ltb_spec i rbits); cbn [andb].
    + rewrite bit_tab by lia. replace i with (0 * w + i) at 2 by lia. rewrite ab_at by lia. reflexivity.
    + rewrite bit_tab_out by lia. reflexivity.
  - destruct (N.ltb_spec uw w); [lia|]. rewrite (highbits_ok s Hs).
    destruct (wf_decomp s Hs) as (l & x & E & Hl & Hx & Hf & Efn & Eb).
    assert (Ex : word s (sz - 1) = x) by (unfold word; rewrite E, <- Hl, rd_len; reflexivity).
    rewrite Efn, Ex. f_equal. apply N.bits_inj. intros i. rewrite value_of_bit.
    rewrite (to_words_ok uw _ rbits (mod_pow2_lt _ _) l Hf) by (rewrite Hl; lia).
    destruct (N.lt_ge_cases i n) as [Hi|Hi].
    + rewrite bit_tab by exact Hi. rewrite E. unfold ab at 2. rewrite array_bit_app by exact Hw. fold (ab l i).
      destruct (N.ltb_spec i (len l * w)) as [H2|H2]; [reflexivity|].
      rewrite testbit_mod. destruct (N.ltb_spec (i - len l * w) rbits); [|rewrite Hl in *; lia]. cbn [andb].
      unfold array_bit. rewrite N.div_small, N.mod_small by lia. reflexivity.
    + rewrite bit_tab_out by exact Hi. destruct (N.ltb_spec i (len l * w)) as [H2|H2]; [rewrite Hl in *; lia|].
      rewrite testbit_mod. destruct (N.ltb_spec (i - len l * w) rbits); [rewrite Hl in *; lia|]. reflexivity.
Qed.

(** ** calls that read the whole storage *)
Lemma reduce_word_ok {T U} (f : N -> U) (r : T -> U -> T) fuel : forall e i init l,
  set_bit_fn pl w fuel e i = Some l -> reduce_word pl w f r fuel e i init = Some (fold_left (fun a j => r a (f j)) l init).
Proof.
  induction fuel as [|fuel IH]; intros e i init l; cbn [set_bit_fn reduce_word]; destruct (e =? 0).
  - intros [= <-]. reflexivity.
  - discriminate.
  - intros [= <-]. reflexivity.
  - destruct (countr_zero pl w e) as [o|]; [|discriminate].
    destruct (set_bit_fn pl w fuel _ i) as [l'|] eqn:E; [|discriminate]. intros [= <-]. rewrite (IH _ _ _ _ E). reflexivity.
Qed.
Lemma reduce_from_ok {T U} (f : N -> U) (r : T -> U -> T) s : forall i init, Forall (fun e => e < 2 ^ w) s ->
  reduce_from pl w f r i s init = Some (fold_left (fun a j => r a (f j)) (sel_set (len s * w) (ab s) i) init).
Proof.
  induction s as [|e s IH]; intros i init Hf; cbn [reduce_from].
  - reflexivity.
  - inversion Hf; subst. rewrite (reduce_word_ok f r (N.to_nat w) e i init _ (set_word_ok w e i (N.le_refl _) H1)).
    rewrite IH by assumption. f_equal. rewrite <- fold_left_app. f_equal. rewrite len_cons.
    replace ((len s + 1) * w) with (w + len s * w) by lia. rewrite sel_set_split. f_equal.
    + apply sel_set_ext. intros j Hj. rewrite ab_cons. destruct (N.ltb_spec j w); [reflexivity|lia].
    + apply sel_set_ext. intros j Hj. rewrite ab_cons. destruct (N.ltb_spec (w + j) w); [lia|]. f_equal. lia.
Qed.
Lemma transform_reduce_total {T U} (f : N -> U) (r : T -> U -> T) init s : wf s ->
  transform_reduce pl w f r init s = Some (fold_left (fun a j => r a (f j)) (indices_where total (ab s)) init).
Proof.
  intros (Hl & Hf). unfold transform_reduce. rewrite reduce_from_ok by exact Hf. rewrite Hl, sel_set_0idx. reflexivity.
Qed.
Lemma lowest_unset_total s : wf s ->
  lowest_unset pl w s = Some (match indices_where total (fun i => negb (ab s i)) with i :: _ => i | [] => total end).
Proof.
  assert (H : forall s i, Forall (fun e => e < 2 ^ w) s -> lowest_unset_from pl w i s =
    Some (match sel_unset (len s * w) (ab s) i with j :: _ => j | [] => i + len s * w end)).
  { clear s. induction s as [|e s IH]; intros i Hf; cbn [lowest_unset_from].
    - change (len (@nil N)) with 0. rewrite N.mul_0_l. cbn. f_equal. lia.
    - inversion Hf; subst. rewrite len_cons. replace ((len s + 1) * w) with (w + len s * w) by lia.
      unfold sel_unset. rewrite sel_set_split.
      rewrite (sel_set_ext w _ (fun j => negb (N.testbit e j))); [|intros j Hj; rewrite ab_cons; destruct (N.ltb_spec j w); [reflexivity|lia]].
      rewrite (sel_set_ext (len s * w) _ (fun j => negb (ab s j))); [|intros j Hj; rewrite ab_cons; destruct (N.ltb_spec (w + j) w); [lia|]; do 2 f_equal; lia].
      destruct (countr_one_ok pl w e Hpl Hwl H1) as (o & -> & O1 & O2 & O3).
      destruct (N.eqb_spec o w) as [->|Ho].
      + rewrite IH by assumption. f_equal.
        assert (E : sel_set w (fun j => negb (N.testbit e j)) i = []).
        { rewrite (sel_set_shrink w 0); [reflexivity|lia|]. intros j _ Hj. rewrite O2 by exact Hj. reflexivity. }
        rewrite E. cbn [app]. fold (sel_unset (len s * w) (ab s) (i + w)).
        destruct (sel_unset (len s * w) (ab s) (i + w)); [lia|reflexivity].
      + f_equal. assert (Ho' : o < w) by lia.
        assert (E : exists t, sel_set w (fun j => negb (N.testbit e j)) i = i + o :: t).
        { unfold sel_set, indices_where. pose proof (range_split 0 o w ltac:(lia) Ho') as Er. rewrite !N.sub_0_r in Er. change (N.to_nat 0) with 0%nat in Er. rewrite Er.
          rewrite filter_app. rewrite (proj2 (filter_nil_iff _ _)).
          - cbn [app filter]. rewrite O3 by exact Ho'. cbn [negb map]. eexists. reflexivity.
          - intros j Hj. apply In_range in Hj. rewrite O2 by lia. reflexivity. }
        destruct E as (t & ->). reflexivity. }
  intros (Hl & Hf). unfold lowest_unset. rewrite H by exact Hf. unfold sel_unset. rewrite sel_set_0idx, Hl. fold total. reflexivity.
Qed.
Lemma indices_clean s (f : bool -> bool) : clean s -> f false = false -> indices_where total (fun i => f (ab s i)) = indices_where n (fun i => f (ab s i)).
Proof.
  intros Hc Hf. rewrite <- !sel_set_0idx. apply sel_set_shrink; [apply n_le_total|]. intros i H1 H2. rewrite Hc by assumption. exact Hf.
Qed.

Lemma tab_in f x : In x (tab n f) <-> exists i, i < n /\ f i = x.
Proof.
  rewrite tab_alt, in_map_iff. split.
  - intros (i & E & Hi). apply In_range in Hi. exists i. split; [lia|exact E].
  - intros (i & Hi & E). exists i. split; [exact E|]. apply In_range. lia.
Qed.
Lemma none_tab f : (len (indices_where n f) =? 0) = forallb negb (tab n f).
Proof.
  apply eq_true_iff_eq. rewrite N.eqb_eq, forallb_forall. split.
  - intros H x Hx. apply tab_in in Hx as (i & Hi & <-). destruct (f i) eqn:E; [|reflexivity]. exfalso.
    assert (Hin : In i (indices_where n f)) by (apply filter_In; split; [apply In_range; lia|exact E]).
    destruct (indices_where n f); [destruct Hin|]. rewrite len_cons in H. lia.
  - intros H. unfold indices_where. rewrite (proj2 (filter_nil_iff _ _)); [reflexivity|]. intros i Hi. apply In_range in Hi.
    assert (Ht : In (f i) (tab n f)) by (apply tab_in; exists i; split; [lia|reflexivity]).
    specialize (H _ Ht). destruct (f i); [discriminate|reflexivity].
Qed.
Lemma any_tab f : negb (len (indices_where n f) =? 0) = existsb (fun b => b) (tab n f).
Proof.
  rewrite none_tab. generalize (tab n f). induction l as [|x l IH]; [reflexivity|]. cbn [forallb existsb]. rewrite negb_andb, negb_involutive, IH. reflexivity.
Qed.
Lemma filter_length_le' {A} (f : A -> bool) l : (length (filter f l) <= length l)%nat.
Proof. induction l as [|a l IH]; cbn [filter length]; [lia|]. destruct (f a); cbn [length]; lia. Qed.
Lemma filter_full {A} (f : A -> bool) l : length (filter f l) = length l -> forall x, In x l -> f x = true.
Proof.
  induction l as [|a l IH]; intros H x; [intros []|]. cbn [filter] in H. destruct (f a) eqn:E.
  - cbn [length] in H. intros [<-|Hx]; [exact E|]. apply IH; [lia|exact Hx].
  - pose proof (filter_length_le' f l). cbn [length] in H. lia.
Qed.
Lemma all_tab f : (len (indices_where n f) =? n) = forallb (fun b => b) (tab n f).
Proof.
  apply eq_true_iff_eq. rewrite N.eqb_eq, forallb_forall. unfold indices_where, len. split.
  - intros H x Hx. apply tab_in in Hx as (i & Hi & <-).
    apply (filter_full f (map N.of_nat (seq 0 (N.to_nat n)))); [rewrite map_length, seq_length; lia|apply In_range; lia].
  - intros H. rewrite filter_all; [rewrite map_length, seq_length; lia|]. intros i Hi. apply In_range in Hi.
    apply H. apply tab_in. exists i. split; [lia|reflexivity].
Qed.
Lemma eq_tab a b r : (r = true <-> forall i, i < n -> ab a i = ab b i) ->
  r = forallb (fun i => eqb (bit (tab n (ab a)) i) (bit (tab n (ab b)) i)) (map N.of_nat (seq 0 (N.to_nat n))).
Proof.
  intros H. apply eq_true_iff_eq. rewrite H, forallb_forall. split.
  - intros E i Hi. apply In_range in Hi. rewrite !bit_tab by lia. rewrite E by lia. apply eqb_reflx.
  - intros E i Hi. specialize (E i). rewrite !bit_tab in E by lia. apply eqb_prop. apply E. apply In_range. lia.
Qed.

(** ** programs *)
Definition V (c : bool) (s : storage) (b : list bool) : Prop := wf s /\ b = tab n (ab s) /\ (c = true -> clean s).
Definition R (c : bool) (st : list storage) (m : regs) : Prop := Forall2 (V c) st m.

Lemma Forall2_len {A B} (P : A -> B -> Prop) l m : Forall2 P l m -> len l = len m.
Proof. intros H. induction H; [reflexivity|]. rewrite !len_cons, IHForall2. reflexivity. Qed.
Lemma Forall2_rd {A B} (P : A -> B -> Prop) l m : Forall2 P l m -> forall i, i < len m -> exists x y, rd l i = Some x /\ rd m i = Some y /\ P x y.
Proof.
  intros H. induction H as [|x y l m Hxy H IH]; intros i Hi; [change (len (@nil B)) with 0 in Hi; lia|].
  destruct (N.eq_dec i 0) as [->|Hne].
  - exists x, y. rewrite !rd_cons0. auto.
  - rewrite !rd_cons_pos by lia. apply IH. rewrite len_cons in Hi. lia.
Qed.
Lemma Forall2_set_nth {A B} (P : A -> B -> Prop) l m x y : P x y -> Forall2 P l m -> forall k, Forall2 P (set_nth k x l) (set_nth k y m).
Proof. intros Hxy H. induction H as [|a b l m Hab H IH]; intros [|k]; cbn [set_nth]; constructor; auto. Qed.
Lemma R_get c st m r : R c st m -> has m r -> exists s, rd st r = Some s /\ wf s /\ reg m r = tab n (ab s) /\
  (forall i, i < n -> bit (reg m r) i = ab s i) /\ (c = true -> clean s).
Proof.
  intros HR Hr. destruct (Forall2_rd _ _ _ HR r Hr) as (s & b & E1 & E2 & Hwf & Eb & Hc).
  exists s. split; [exact E1|]. split; [exact Hwf|]. unfold reg. rewrite E2. split; [exact Eb|]. split; [|exact Hc].
  intros i Hi. rewrite Eb. apply bit_tab. exact Hi.
Qed.
Lemma R_put c st m r s F : R c st m -> has m r -> wf s -> (forall i, i < n -> ab s i = F i) -> (c = true -> clean s) ->
  exists st' m', wr st r s = Some st' /\ wr m r (tab n F) = Some m' /\ R c st' m'.
Proof.
  intros HR Hr Hs HF Hc. pose proof (Forall2_len _ _ _ HR) as El. unfold has in Hr. unfold wr.
  destruct (N.ltb_spec r (len st)); [|lia]. destruct (N.ltb_spec r (len m)); [|lia].
  eexists _, _. split; [reflexivity|]. split; [reflexivity|]. apply Forall2_set_nth; [|exact HR].
  split; [exact Hs|]. split; [|exact Hc]. apply tab_ext. intros i Hi. symmetry. apply HF. exact Hi.
Qed.

Lemma upd_sim c st m r (f : storage -> option storage) F : R c st m -> has m r ->
  (forall s, wf s -> (forall i, i < n -> bit (reg m r) i = ab s i) -> (c = true -> clean s) ->
     exists s', f s = Some s' /\ wf s' /\ (forall i, i < n -> ab s' i = F i) /\ (c = true -> clean s')) ->
  exists st' m', upd st r f = Done st' BUnit [] /\ wr m r (tab n F) = Some m' /\ R c st' m'.
Proof.
  intros HR Hr H. destruct (R_get c st m r HR Hr) as (s & E & Hs & _ & Hb & Hc).
  destruct (H s Hs Hb Hc) as (s' & E' & Hs' & HF & Hc').
  destruct (R_put c st m r s' F HR Hr Hs' HF Hc') as (st' & m' & W1 & W2 & HR').
  exists st', m'. unfold upd, done. rewrite E, E', W1. auto.
Qed.
Lemma put_sim c st m r o F : R c st m -> has m r ->
  (exists s', o = Some s' /\ wf s' /\ (forall i, i < n -> ab s' i = F i) /\ (c = true -> clean s')) ->
  exists st' m', put st r o = Done st' BUnit [] /\ wr m r (tab n F) = Some m' /\ R c st' m'.
Proof.
  intros HR Hr (s' & -> & Hs' & HF & Hc').
  destruct (R_put c st m r s' F HR Hr Hs' HF Hc') as (st' & m' & W1 & W2 & HR').
  exists st', m'. unfold put, done. rewrite W1. auto.
Qed.
Lemma ask_sim c st m r {A} (f : storage -> option A) k out : R c st m -> has m r ->
  (forall s, wf s -> reg m r = tab n (ab s) -> (forall i, i < n -> bit (reg m r) i = ab s i) -> (c = true -> clean s) ->
     exists a, f s = Some a /\ k a = out) ->
  ask st r f k = Done st out [].
Proof.
  intros HR Hr H. destruct (R_get c st m r HR Hr) as (s & E & Hs & Er & Hb & Hc).
  destruct (H s Hs Er Hb Hc) as (a & E' & <-). unfold ask, done. rewrite E, E'. reflexivity.
Qed.
Lemma wrote c m (op : bop) (step : outcome Empty_set (list storage) bout) r F st' m' : beffect n m op = (Some (r, F), BUnit) ->
  step = Done st' BUnit [] -> wr m r (tab n F) = Some m' -> R c st' m' ->
  exists s1 o m1, step = Done s1 o [] /\ bspec n m op o m1 /\ R c s1 m1.
Proof. intros E H1 H2 H3. exists st', BUnit, m'. split; [exact H1|]. split; [|exact H3]. unfold bspec. rewrite E. auto. Qed.
Lemma asked c st m (op : bop) (step : outcome Empty_set (list storage) bout) out : beffect n m op = (None, out) -> R c st m ->
  step = Done st out [] -> exists s1 o m1, step = Done s1 o [] /\ bspec n m op o m1 /\ R c s1 m1.
Proof. intros E H1 H2. exists st, out, m. split; [exact H2|]. split; [|exact H1]. unfold bspec. rewrite E. auto. Qed.

Lemma total_full : n mod w = 0 -> total = n.
Proof.
  intros H. unfold total, storage_size. pose proof (N.div_mod n w ltac:(lia)) as E. rewrite H, N.add_0_r in E.
  assert (Eq : (n + w - 1) / w = n / w).
  { symmetry. apply (N.div_unique _ _ _ (w - 1)); lia. }
  rewrite Eq, N.mul_comm. lia.
Qed.
Lemma clean_full s : n mod w = 0 -> clean s.
Proof. intros H i H1 H2. rewrite (total_full H) in H2. lia. Qed.

Lemma bstep_sim same64 c st m op : (same64 = true -> w = 64) -> R c st m -> bpre n w same64 m op ->
  (c = false -> sensitive op = false) -> (c = true -> untidy n w op = false) ->
  exists st' o m', bstep pl n w same64 st op = Done st' o [] /\ bspec n m op o m' /\ R c st' m'.
Proof.
  intros H64 HR Hp Hsens Hunt. pose proof n_le_total as Hnt.
  assert (Hcl : c = true -> untidy n w op = true -> forall s, clean s).
  { intros Ec Hu. rewrite (Hunt Ec) in Hu. discriminate. }
  assert (Hfull : c = true -> n mod w = 0 \/ n mod w =? 0 = false).
  { intros _. destruct (N.eqb_spec (n mod w) 0); auto. }
  destruct op; cbn [bpre] in Hp; cbn [bstep];
    repeat match goal with H : _ /\ _ |- _ => destruct H end;
    repeat match goal with H : has _ _ |- _ => let H' := fresh "Hs" in pose proof H as H'; apply (R_get c st m _ HR) in H' as (? & ? & ? & ? & ? & ?); revert H end; intros.
  - (* default *) edestruct (put_sim c st m r) as (st' & m' & E1 & E2 & HR'); [exact HR|eassumption| |eapply wrote; [reflexivity|exact E1|exact E2|exact HR']].
    destruct make_ok as (A & B). eexists. split; [reflexivity|]. split; [exact A|]. split; [intros; apply B; lia|intros _ i _ Hi; apply B; exact Hi].
  - (* u64 *) edestruct (put_sim c st m r) as (st' & m' & E1 & E2 & HR'); [exact HR|eassumption| |eapply wrote; [reflexivity|exact E1|exact E2|exact HR']].
    destruct (of_u64_ok same64 v H64 ltac:(assumption) ltac:(assumption)) as (s' & E & Hs' & B).
    exists s'. split; [exact E|]. split; [exact Hs'|]. split; [intros; apply B; lia|].
    intros Ec. destruct (Hfull Ec) as [Hz|Hz]; [apply clean_full; exact Hz|]. specialize (Hunt Ec). unfold untidy in Hunt. rewrite Hz in Hunt.
    apply negb_false_iff, N.ltb_lt in Hunt. intros i K1 K2. rewrite B by exact K2. apply (testbit_high v n); assumption.
  - (* place *) edestruct (put_sim c st m r) as (st' & m' & E1 & E2 & HR'); [exact HR|eassumption| |eapply wrote; [reflexivity|exact E1|exact E2|exact HR']].
    destruct (place_ok ps) as (s' & E & Hs' & B); [eapply Forall_impl; [|eassumption]; cbn; intros; lia|].
    exists s'. split; [exact E|]. split; [exact Hs'|]. split; [intros; apply B; lia|].
    intros _ i K1 K2. rewrite B by exact K2. destruct (existsb (N.eqb i) ps) eqn:Ex; [|reflexivity].
    apply existsb_exists in Ex as (p & Hin & Heq). apply N.eqb_eq in Heq. subst p.
    match goal with H : Forall _ ps |- _ => rewrite Forall_forall in H; specialize (H i Hin) end. lia.
  - (* all_bits *) edestruct (put_sim c st m r) as (st' & m' & E1 & E2 & HR'); [exact HR|eassumption| |eapply wrote; [reflexivity|exact E1|exact E2|exact HR']].
    destruct all_ones_ok as (s' & E & Hs' & B). exists s'. split; [exact E|]. split; [exact Hs'|]. split.
    + intros i Hi. rewrite B by lia. apply N.ltb_lt. exact Hi.
    + intros _ i K1 K2. rewrite B by lia. apply N.ltb_ge. exact K1.
  - (* string *) edestruct (put_sim c st m r) as (st' & m' & E1 & E2 & HR'); [exact HR|eassumption| |eapply wrote; [reflexivity|exact E1|exact E2|exact HR']].
    destruct (of_string_ok str pos cnt one ltac:(assumption)) as (s' & E & Hs' & B). exists s'. split; [exact E|]. split; [exact Hs'|]. split.
    + intros i Hi. apply B. lia.
    + intros _ i K1 K2. rewrite B by lia. ncmp; [lia|reflexivity].
  - (* copy *) edestruct (put_sim c st m d) as (st' & m' & E1 & E2 & HR'); [exact HR|eassumption| |eapply wrote; [reflexivity|exact E1|exact E2|exact HR']].
    eexists. split; [eassumption|]. split; [assumption|]. split; [|assumption]. intros i Hi. symmetry. auto.
  - (* set *) edestruct (upd_sim c st m r) as (st' & m' & E1 & E2 & HR'); [exact HR|eassumption| |eapply wrote; [reflexivity|exact E1|exact E2|exact HR']].
    intros s Hs Hb Hc. destruct (set_one_ok s i v Hs ltac:(lia)) as (s' & E & Hs' & B). exists s'. split; [exact E|]. split; [exact Hs'|]. split.
    + intros j Hj. cbn beta. rewrite B, Hb by lia. reflexivity.
    + intros Ec j K1 K2. rewrite B by lia. destruct (N.eqb_spec j i); [lia|]. apply Hc; assumption.
  - (* set range *) edestruct (upd_sim c st m r) as (st' & m' & E1 & E2 & HR'); [exact HR|eassumption| |eapply wrote; [reflexivity|exact E1|exact E2|exact HR']].
    intros s Hs Hb Hc. destruct (set_range_ok s l m0 v Hs ltac:(assumption) ltac:(lia)) as (s' & E & Hs' & B). exists s'. split; [exact E|]. split; [exact Hs'|]. split.
    + intros j Hj. cbn beta. rewrite B, Hb by lia. reflexivity.
    + intros Ec j K1 K2. rewrite B by lia. ncmp; try lia; apply Hc; assumption.
  - (* set length *) edestruct (upd_sim c st m r) as (st' & m' & E1 & E2 & HR'); [exact HR|eassumption| |eapply wrote; [reflexivity|exact E1|exact E2|exact HR']].
    intros s Hs Hb Hc. destruct (set_len_ok s l length v Hs ltac:(assumption) ltac:(lia) ltac:(assumption)) as (s' & E & Hs' & B). exists s'. split; [exact E|]. split; [exact Hs'|]. split.
    + intros j Hj. cbn beta. rewrite B, Hb by lia. reflexivity.
    + intros Ec j K1 K2. rewrite B by lia. ncmp; try lia; apply Hc; assumption.
  - (* set all *) edestruct (upd_sim c st m r) as (st' & m' & E1 & E2 & HR'); [exact HR|eassumption| |eapply wrote; [reflexivity|exact E1|exact E2|exact HR']].
    intros s Hs Hb Hc. destruct (set_all_ok s Hs) as (A & B). eexists. split; [reflexivity|]. split; [exact A|]. split; [intros; apply B; lia|].
    intros Ec. destruct (Hfull Ec) as [Hz|Hz]; [apply clean_full; exact Hz|]. apply (Hcl Ec). unfold untidy. rewrite Hz. reflexivity.
  - (* reset *) edestruct (upd_sim c st m r) as (st' & m' & E1 & E2 & HR'); [exact HR|eassumption| |eapply wrote; [reflexivity|exact E1|exact E2|exact HR']].
    intros s Hs Hb Hc. destruct (reset_one_ok s i Hs ltac:(lia)) as (s' & E & Hs' & B). exists s'. split; [exact E|]. split; [exact Hs'|]. split.
    + intros j Hj. cbn beta. rewrite B, Hb by lia. reflexivity.
    + intros Ec j K1 K2. rewrite B by lia. destruct (N.eqb_spec j i); [lia|]. apply Hc; assumption.
  - (* reset all *) edestruct (upd_sim c st m r) as (st' & m' & E1 & E2 & HR'); [exact HR|eassumption| |eapply wrote; [reflexivity|exact E1|exact E2|exact HR']].
    intros s Hs Hb Hc. destruct (reset_all_ok s Hs) as (A & B). eexists. split; [reflexivity|]. split; [exact A|]. split; [intros; apply B; lia|].
    intros _ i K1 K2. apply B. exact K2.
  - (* flip *) edestruct (upd_sim c st m r) as (st' & m' & E1 & E2 & HR'); [exact HR|eassumption| |eapply wrote; [reflexivity|exact E1|exact E2|exact HR']].
    intros s Hs Hb Hc. destruct (flip_one_ok s i Hs ltac:(lia)) as (s' & E & Hs' & B). exists s'. split; [exact E|]. split; [exact Hs'|]. split.
    + intros j Hj. cbn beta. rewrite B, Hb by lia. reflexivity.
    + intros Ec j K1 K2. rewrite B by lia. destruct (N.eqb_spec j i); [lia|]. apply Hc; assumption.
  - (* flip all *) edestruct (upd_sim c st m r) as (st' & m' & E1 & E2 & HR'); [exact HR|eassumption| |eapply wrote; [reflexivity|exact E1|exact E2|exact HR']].
    intros s Hs Hb Hc. destruct (flip_all_ok s Hs) as (A & B). eexists. split; [reflexivity|]. split; [exact A|]. split; [intros; cbn beta; rewrite B, Hb by lia; reflexivity|].
    intros Ec. destruct (Hfull Ec) as [Hz|Hz]; [apply clean_full; exact Hz|]. apply (Hcl Ec). unfold untidy. rewrite Hz. reflexivity.
  - (* not *) edestruct (put_sim c st m d) as (st' & m' & E1 & E2 & HR'); [exact HR|eassumption| |eapply wrote; [reflexivity|exact E1|exact E2|exact HR']].
    match goal with Ha : has m a |- _ => destruct (R_get c st m a HR Ha) as (s & Es & Hs & _ & Hb & Hc) end.
    rewrite Es. destruct (complement_ok s Hs) as (A & B). eexists. split; [reflexivity|]. split; [exact A|]. split; [intros; cbn beta; rewrite B, Hb by lia; reflexivity|].
    intros Ec. destruct (Hfull Ec) as [Hz|Hz]; [apply clean_full; exact Hz|]. apply (Hcl Ec). unfold untidy. rewrite Hz. reflexivity.
  - (* or *) edestruct (upd_sim c st m d) as (st' & m' & E1 & E2 & HR'); [exact HR|eassumption| |eapply wrote; [reflexivity|exact E1|exact E2|exact HR']].
    match goal with Ha : has m a |- _ => destruct (R_get c st m a HR Ha) as (t & Et & Ht & _ & Htb & Htc) end.
    intros s Hs Hb Hc. rewrite Et. destruct (or_ok s t Hs Ht) as (A & B). eexists. split; [reflexivity|]. split; [exact A|]. split.
    + intros j Hj. cbn beta. rewrite B, Hb, Htb by lia. reflexivity.
    + intros Ec j K1 K2. rewrite B, (Hc Ec), (Htc Ec) by assumption. reflexivity.
  - (* and *) edestruct (upd_sim c st m d) as (st' & m' & E1 & E2 & HR'); [exact HR|eassumption| |eapply wrote; [reflexivity|exact E1|exact E2|exact HR']].
    match goal with Ha : has m a |- _ => destruct (R_get c st m a HR Ha) as (t & Et & Ht & _ & Htb & Htc) end.
    intros s Hs Hb Hc. rewrite Et. destruct (and_ok s t Hs Ht) as (A & B). eexists. split; [reflexivity|]. split; [exact A|]. split.
    + intros j Hj. cbn beta. rewrite B, Hb, Htb by lia. reflexivity.
    + intros Ec j K1 K2. rewrite B, (Hc Ec), (Htc Ec) by assumption. reflexivity.
  - (* xor *) edestruct (upd_sim c st m d) as (st' & m' & E1 & E2 & HR'); [exact HR|eassumption| |eapply wrote; [reflexivity|exact E1|exact E2|exact HR']].
    match goal with Ha : has m a |- _ => destruct (R_get c st m a HR Ha) as (t & Et & Ht & _ & Htb & Htc) end.
    intros s Hs Hb Hc. rewrite Et. destruct (xor_ok s t Hs Ht) as (A & B). eexists. split; [reflexivity|]. split; [exact A|]. split.
    + intros j Hj. cbn beta. rewrite B, Hb, Htb by lia. reflexivity.
    + intros Ec j K1 K2. rewrite B, (Hc Ec), (Htc Ec) by assumption. reflexivity.
  - (* minus *) edestruct (put_sim c st m d) as (st' & m' & E1 & E2 & HR'); [exact HR|eassumption| |eapply wrote; [reflexivity|exact E1|exact E2|exact HR']].
    match goal with Ha : has m a |- _ => destruct (R_get c st m a HR Ha) as (s & Es & Hs & _ & Hb & Hc) end.
    match goal with Ha : has m b |- _ => destruct (R_get c st m b HR Ha) as (t & Et & Ht & _ & Htb & Htc) end.
    rewrite Es, Et. destruct (minus_ok s t Hs Ht) as (A & B). eexists. split; [reflexivity|]. split; [exact A|]. split.
    + intros j Hj. cbn beta. rewrite B, Hb, Htb by lia. reflexivity.
    + intros Ec j K1 K2. rewrite B, (Hc Ec) by assumption. reflexivity.
  - (* shl *) edestruct (upd_sim c st m r) as (st' & m' & E1 & E2 & HR'); [exact HR|eassumption| |eapply wrote; [reflexivity|exact E1|exact E2|exact HR']].
    intros s Hs Hb Hc. destruct (shl_ok s k Hs ltac:(assumption)) as (s' & E & Hs' & B). exists s'. split; [exact E|]. split; [exact Hs'|]. split.
    + intros j Hj. cbn beta. rewrite B, Hb by lia. reflexivity.
    + intros Ec. destruct (Hfull Ec) as [Hz|Hz]; [apply clean_full; exact Hz|]. apply (Hcl Ec). unfold untidy. rewrite Hz. reflexivity.
  - (* shr *) destruct c; [|discriminate (Hsens eq_refl)].
    edestruct (upd_sim true st m r) as (st' & m' & E1 & E2 & HR'); [exact HR|eassumption| |eapply wrote; [reflexivity|exact E1|exact E2|exact HR']].
    intros s Hs Hb Hc. specialize (Hc eq_refl). destruct (shr_ok s k Hs ltac:(assumption)) as (s' & E & Hs' & B). exists s'. split; [exact E|]. split; [exact Hs'|]. split.
    + intros j Hj. cbn beta. rewrite B by lia.
      match goal with Hr : has m r |- _ => destruct (R_get true st m r HR Hr) as (s0 & Es0 & Hs0 & Er & _ & _) end.
      destruct (N.lt_ge_cases (j + k) n) as [Hlt|Hge].
      * rewrite Hb by exact Hlt. destruct (N.ltb_spec (j + k) total); [reflexivity|lia].
      * rewrite Er, bit_tab_out by exact Hge. destruct (N.ltb_spec (j + k) total); [|reflexivity]. apply Hc; assumption.
    + intros _ j K1 K2. rewrite B by assumption. destruct (N.ltb_spec (j + k) total); [|reflexivity]. apply Hc; lia.
  - (* get *) eapply asked; [reflexivity|exact HR|]. eapply (ask_sim c st m r); [exact HR|assumption|]. intros s Hs Er Hb Hc.
    rewrite get_ok by (assumption || lia). eexists. split; [reflexivity|]. cbn beta. rewrite Hb by assumption. reflexivity.
  - (* count *) eapply asked; [reflexivity|exact HR|]. eapply (ask_sim c st m r); [exact HR|assumption|]. intros s Hs Er Hb Hc.
    rewrite count_ok by assumption. eexists. split; [reflexivity|]. cbn beta. rewrite (indices_ext n _ (ab s) Hb). reflexivity.
  - (* empty *) eapply asked; [reflexivity|exact HR|]. eapply (ask_sim c st m r); [exact HR|assumption|]. intros s Hs Er Hb Hc.
    unfold empty. rewrite count_ok by assumption. eexists. split; [reflexivity|]. cbn beta. rewrite none_tab, Er. reflexivity.
  - (* all *) eapply asked; [reflexivity|exact HR|]. eapply (ask_sim c st m r); [exact HR|assumption|]. intros s Hs Er Hb Hc.
    unfold all. rewrite count_ok by assumption. eexists. split; [reflexivity|]. cbn beta. rewrite all_tab, Er. reflexivity.
  - (* any *) eapply asked; [reflexivity|exact HR|]. eapply (ask_sim c st m r); [exact HR|assumption|]. intros s Hs Er Hb Hc.
    unfold any. rewrite count_ok by assumption. eexists. split; [reflexivity|]. cbn beta. rewrite any_tab, Er. reflexivity.
  - (* none *) eapply asked; [reflexivity|exact HR|]. eapply (ask_sim c st m r); [exact HR|assumption|]. intros s Hs Er Hb Hc.
    unfold none, empty. rewrite count_ok by assumption. eexists. split; [reflexivity|]. cbn beta. rewrite none_tab, Er. reflexivity.
  - (* eq *) eapply asked; [reflexivity|exact HR|]. 
    match goal with Ha : has m b |- _ => destruct (R_get c st m b HR Ha) as (t & Et & Ht & Etr & Htb & Htc) end.
    eapply (ask_sim c st m a); [exact HR|assumption|]. intros s Hs Er Hb Hc.
    rewrite Et. destruct (eq_ok s t Hs Ht) as (q & Eq & Hq). exists q. split; [exact Eq|]. rewrite Er, Etr. f_equal. apply eq_tab. exact Hq.
  - (* to *) eapply asked; [reflexivity|exact HR|]. eapply (ask_sim c st m r); [exact HR|assumption|]. intros s Hs Er Hb Hc.
    rewrite to_uint_ok by assumption. eexists. split; [reflexivity|]. cbn beta. rewrite Er. reflexivity.
  - (* each set *) eapply asked; [reflexivity|exact HR|]. eapply (ask_sim c st m r); [exact HR|assumption|]. intros s Hs Er Hb Hc.
    rewrite for_each_set_ok by assumption. eexists. split; [reflexivity|]. cbn beta. rewrite (indices_ext n _ (ab s) Hb). reflexivity.
  - (* each unset *) eapply asked; [reflexivity|exact HR|]. eapply (ask_sim c st m r); [exact HR|assumption|]. intros s Hs Er Hb Hc.
    rewrite for_each_unset_ok by assumption. eexists. split; [reflexivity|]. cbn beta. f_equal. apply indices_ext. intros i Hi. rewrite Hb by exact Hi. reflexivity.
  - (* each bit *) eapply asked; [reflexivity|exact HR|]. eapply (ask_sim c st m r); [exact HR|assumption|]. intros s Hs Er Hb Hc.
    rewrite for_each_bit_ok by assumption. eexists. split; [reflexivity|]. cbn beta. f_equal. apply map_ext_in. intros i Hi. apply In_range in Hi. rewrite Hb by lia. reflexivity.
  - (* lowest unset *) destruct c; [|discriminate (Hsens eq_refl)].
    eapply asked; [reflexivity|exact HR|]. eapply (ask_sim true st m r); [exact HR|assumption|]. intros s Hs Er Hb Hc. specialize (Hc eq_refl).
    rewrite lowest_unset_total by assumption. eexists. split; [reflexivity|]. cbn beta. f_equal.
    replace total with (n + (total - n)) by lia. rewrite indices_split. rewrite (indices_ext n (fun i => negb (bit (reg m r) i)) (fun i => negb (ab s i)));
      [|intros i Hi; rewrite Hb by exact Hi; reflexivity].
    destruct (indices_where n (fun i => negb (ab s i))) as [|x0 l0]; [|reflexivity]. cbn [app].
    destruct (N.eq_dec (total - n) 0) as [Ez|Ez].
    + rewrite Ez. change (indices_where 0 (fun i => negb (ab s (n + i)))) with (@nil N). cbn [map]. lia.
    + unfold indices_where. replace (N.to_nat (total - n)) with (S (N.to_nat (total - n - 1))) by lia. cbn [seq map filter].
      change (N.of_nat 0) with 0. rewrite N.add_0_r, Hc by lia. cbn [negb map]. lia.
  - (* reduce *) destruct c; [|discriminate (Hsens eq_refl)].
    eapply asked; [reflexivity|exact HR|]. eapply (ask_sim true st m r); [exact HR|assumption|]. intros s Hs Er Hb Hc. specialize (Hc eq_refl).
    rewrite transform_reduce_total by assumption. eexists. split; [reflexivity|]. cbn beta. f_equal.
    assert (Ei : indices_where total (ab s) = indices_where n (ab s)) by exact (indices_clean s (fun b => b) Hc eq_refl).
    rewrite Ei, (indices_ext n _ (ab s) Hb). generalize (indices_where n (ab s)). intros l.
    assert (G : forall l a, fold_left (fun (a : list N) j => a ++ [j]) l a = a ++ l).
    { clear. induction l as [|x l IH]; intros a; cbn [fold_left]; [symmetry; apply app_nil_r|]. rewrite IH, <- app_assoc. reflexivity. }
    apply G.
Qed.
End Bits.
