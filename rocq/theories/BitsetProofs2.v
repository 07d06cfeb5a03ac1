(** Whole-program statements about bitset, refutations, and per-call forms. *)
From Verif Require Import Base BaseLemmas BitModel BitSpec BitLemmas BitProofs BitProofs2 BitsetModel BitsetSpec BitsetProofs TypeBitsetModel TypeBitsetSpec TypeBitsetProofs.
Open Scope N_scope.

Lemma conforms_sim_on {P S M Op O} (step : S -> Op -> outcome P S O)
  (pre : M -> Op -> Prop) (spec : M -> Op -> O -> M -> Prop) (R : S -> M -> Prop) (Q : Op -> Prop) :
  (forall s m op, R s m -> pre m op -> Q op ->
     exists s' o m', step s op = Done s' o [] /\ spec m op o m' /\ R s' m') ->
  forall ops s m, Forall Q ops -> R s m -> conforms step pre spec s m ops.
Proof.
  intros H ops. induction ops as [|op ops IH]; intros s m HQ HR; cbn [conforms]; [exact I|].
  inversion HQ; subst. intros Hp. destruct (H s m op HR Hp ltac:(assumption)) as (s' & o & m' & E & Hs & HR').
  exists s', o, m'. repeat split; auto.
Qed.

Lemma nth_error_rev' {A} (l : list A) k : (k < length l)%nat -> nth_error (rev l) k = nth_error l (length l - S k).
Proof.
  intros H. destruct l as [|d l0] eqn:E; [cbn in H; lia|]. rewrite <- E in *.
  rewrite (nth_error_nth' (rev l) d) by (rewrite rev_length; exact H). rewrite (nth_error_nth' l d) by lia. f_equal. apply rev_nth. exact H.
Qed.

Section Bits2.
Context (pl : platform) (n w : N).
Context (Hpl : good_platform pl) (Hw : 0 < w) (Hwl : w <= llong_w pl) (Hn : 0 < n) (HnM : n < size_mod).

Lemma tab_false f : (forall i, i < n -> f i = false) -> tab n f = tab n (fun _ => false).
Proof. intros H. apply tab_ext. exact H. Qed.
Lemma initial c k : R n w c (repeat (make n w) k) (repeat (tab n (fun _ => false)) k).
Proof.
  destruct (make_ok pl n w Hw Hwl Hn HnM) as (A & B). pose proof (n_le_total pl n w Hw Hwl Hn HnM).
  unfold R. induction k as [|k IH]; cbn [repeat]; constructor; [|exact IH].
  split; [exact A|]. split; [|intros _ i _ Hi; apply B; exact Hi]. symmetry. apply tab_false. intros i Hi. apply B. lia.
Qed.
Lemma programs_conform same64 k ops : (same64 = true -> w = 64) -> Forall (fun op => sensitive op = false) ops ->
  conforms (bstep pl n w same64) (bpre n w same64) (bspec n) (repeat (make n w) k) (repeat (tab n (fun _ => false)) k) ops.
Proof.
  intros H64 Hf. apply (conforms_sim_on _ _ _ (R n w false) (fun op => sensitive op = false)); [|exact Hf|apply initial].
  intros s m op HR Hp Hq. apply (bstep_sim pl n w Hpl Hw Hwl Hn HnM same64 false s m op H64 HR Hp); [auto|discriminate].
Qed.
Lemma tidy_programs_conform same64 k ops : (same64 = true -> w = 64) -> Forall (fun op => untidy n w op = false) ops ->
  conforms (bstep pl n w same64) (bpre n w same64) (bspec n) (repeat (make n w) k) (repeat (tab n (fun _ => false)) k) ops.
Proof.
  intros H64 Hf. apply (conforms_sim_on _ _ _ (R n w true) (fun op => untidy n w op = false)); [|exact Hf|apply initial].
  intros s m op HR Hp Hq. apply (bstep_sim pl n w Hpl Hw Hwl Hn HnM same64 true s m op H64 HR Hp); [discriminate|auto].
Qed.

Notation tot := (capacity n w).
Ltac tt := change (total n w) with (capacity n w) in *.
Lemma n_tot : n <= tot.
Proof. exact (n_le_total pl n w Hw Hwl Hn HnM). Qed.
Lemma valid_get s i : valid n w s -> i < tot -> get w s i = Some (ab w s i).
Proof. intros Hs Hi. exact (get_ok pl n w Hw Hwl Hn HnM s i Hs Hi). Qed.
Lemma holds_ab s f : valid n w s -> holds n w s f -> forall i, i < n -> ab w s i = f i.
Proof. intros Hs H i Hi. pose proof n_tot. specialize (H i Hi). rewrite valid_get in H by (assumption || lia). injection H as ->. reflexivity. Qed.
Lemma ab_holds s f : valid n w s -> (forall i, i < n -> ab w s i = f i) -> holds n w s f.
Proof. intros Hs H i Hi. pose proof n_tot. rewrite valid_get, H by (assumption || lia). reflexivity. Qed.
Lemma tidy_ab s : valid n w s -> tidy n w s <-> clean n w s.
Proof.
  intros Hs. split; intros H i H1 H2; specialize (H i H1 H2); [rewrite valid_get in H by (assumption || lia); injection H as ->; reflexivity|].
  rewrite valid_get, H by (assumption || lia). reflexivity.
Qed.

Lemma shl_get s k : valid n w s -> k < tot ->
  exists s', shl_assign n w s k = Some s' /\ valid n w s' /\
  forall i, i < n -> get w s' i = if i <? k then Some false else get w s (i - k).
Proof.
  intros Hs Hk. destruct (shl_ok pl n w Hw Hwl Hn HnM s k Hs Hk) as (s' & E & Hs' & B). exists s'. split; [exact E|]. split; [exact Hs'|].
  pose proof n_tot. intros i Hi. rewrite !valid_get by (assumption || lia). rewrite B by (tt; lia).
  destruct (N.ltb_spec i k), (N.leb_spec k i); try lia; reflexivity.
Qed.
Lemma shr_get s k : valid n w s -> tidy n w s -> k < tot ->
  exists s', shr_assign n w s k = Some s' /\ valid n w s' /\ tidy n w s' /\
  forall i, i < n -> get w s' i = if i + k <? n then get w s (i + k) else Some false.
Proof.
  intros Hs Ht Hk. destruct (shr_ok pl n w Hw Hwl Hn HnM s k Hs Hk) as (s' & E & Hs' & B). exists s'. split; [exact E|]. split; [exact Hs'|].
  pose proof n_tot. apply (tidy_ab s Hs) in Ht. tt. split.
  - apply (tidy_ab s' Hs'). intros i H1 H2. rewrite B by exact H2. destruct (N.ltb_spec (i + k) tot); [|reflexivity]. apply Ht; [lia|assumption].
  - intros i Hi. rewrite (valid_get s' i) by (assumption || lia). rewrite B by lia. destruct (N.ltb_spec (i + k) n).
    + rewrite (valid_get s) by (assumption || lia). destruct (N.ltb_spec (i + k) tot); [reflexivity|lia].
    + destruct (N.ltb_spec (i + k) tot); [|reflexivity]. rewrite Ht by assumption. reflexivity.
Qed.
(** Without tidiness the whole storage shifts. *)
Lemma shr_get_any s k : valid n w s -> k < tot ->
  exists s', shr_assign n w s k = Some s' /\ valid n w s' /\
  forall i, i < n -> get w s' i = if i + k <? tot then get w s (i + k) else Some false.
Proof.
  intros Hs Hk. destruct (shr_ok pl n w Hw Hwl Hn HnM s k Hs Hk) as (s' & E & Hs' & B). exists s'. split; [exact E|]. split; [exact Hs'|].
  pose proof n_tot. tt. intros i Hi. rewrite (valid_get s' i) by (assumption || lia). rewrite B by lia.
  destruct (N.ltb_spec (i + k) tot); [rewrite valid_get by assumption; reflexivity|reflexivity].
Qed.
Lemma set_all_valid s : valid n w s -> valid n w (set_all w s) /\ forall i, i < tot -> get w (set_all w s) i = Some true.
Proof.
  intros Hs. destruct (set_all_ok pl n w Hw Hwl Hn HnM s Hs) as (A & B). split; [exact A|]. intros i Hi.
  rewrite valid_get by assumption. rewrite B by exact Hi. reflexivity.
Qed.
Lemma make_valid : valid n w (make n w) /\ tidy n w (make n w) /\ holds n w (make n w) (fun _ => false).
Proof.
  destruct (make_ok pl n w Hw Hwl Hn HnM) as (A & B). split; [exact A|]. split.
  - apply (tidy_ab _ A). intros i _ Hi. apply B. exact Hi.
  - apply ab_holds; [exact A|]. intros i Hi. apply B. pose proof n_tot. tt. lia.
Qed.
Lemma n_lt_tot : n mod w <> 0 -> n < tot.
Proof.
  intros H. pose proof n_tot. destruct (N.eq_dec n tot) as [E|]; [|lia]. exfalso. apply H. rewrite E. unfold capacity. apply N.mod_mul. lia.
Qed.
Lemma shr_leak : n mod w <> 0 ->
  exists s', shr_assign n w (set_all w (make n w)) 1 = Some s' /\ get w s' (n - 1) = Some true.
Proof.
  intros H. pose proof (n_lt_tot H). destruct make_valid as (A & _ & _). destruct (set_all_valid _ A) as (A' & B).
  destruct (shr_get_any _ 1 A' ltac:(lia)) as (s' & E & _ & G). exists s'. split; [exact E|].
  rewrite G by lia. replace (n - 1 + 1) with n by lia. destruct (N.ltb_spec n tot); [|lia]. apply B. assumption.
Qed.
Lemma equal_but_different : n mod w <> 0 ->
  exists a, all_ones n w = Some a /\ eq n w a (set_all w (make n w)) = Some true /\
  lowest_unset pl w a = Some n /\ lowest_unset pl w (set_all w (make n w)) = Some tot /\ n < tot.
Proof.
  intros H. pose proof (n_lt_tot H) as Hlt. destruct make_valid as (A & _ & _). destruct (set_all_ok pl n w Hw Hwl Hn HnM _ A) as (A' & B).
  destruct (all_ones_ok pl n w Hw Hwl Hn HnM) as (a & E & Ha & Ba). exists a. split; [exact E|]. split; [|split; [|split; [|exact Hlt]]].
  - destruct (eq_ok pl n w Hw Hwl Hn HnM a _ Ha A') as (r & -> & Hr). f_equal. apply Hr. intros i Hi.
    tt. rewrite Ba, B by lia. apply N.ltb_lt. exact Hi.
  - rewrite (lowest_unset_total pl n w Hpl Hw Hwl Hn HnM a Ha). tt. f_equal.
    replace tot with (n + (tot - n)) by lia. rewrite indices_split.
    replace (indices_where n (fun i => negb (ab w a i))) with (@nil N).
    + cbn [app]. unfold indices_where. replace (N.to_nat (tot - n)) with (S (N.to_nat (tot - n - 1))) by lia. cbn [seq map filter].
      change (N.of_nat 0) with 0. rewrite N.add_0_r, Ba by lia. destruct (N.ltb_spec n n); [lia|]. cbn [negb map]. lia.
    + symmetry. apply filter_nil_iff. intros i Hi. apply In_range in Hi. rewrite Ba by lia. destruct (N.ltb_spec i n); [reflexivity|lia].
  - rewrite (lowest_unset_total pl n w Hpl Hw Hwl Hn HnM _ A'). tt. f_equal.
    replace (indices_where tot (fun i => negb (ab w (set_all w (make n w)) i))) with (@nil N); [reflexivity|].
    symmetry. apply filter_nil_iff. intros i Hi. apply In_range in Hi. rewrite B by lia. reflexivity.
Qed.
Lemma reduce_phantom : n mod w <> 0 ->
  transform_reduce pl w (fun i => i) (fun l i => l ++ [i]) [] (set_all w (make n w)) = Some (map N.of_nat (seq 0 (N.to_nat tot))).
Proof.
  intros H. destruct make_valid as (A & _ & _). destruct (set_all_ok pl n w Hw Hwl Hn HnM _ A) as (A' & B).
  rewrite (transform_reduce_total pl n w Hpl Hw Hwl Hn HnM _ _ _ _ A'). f_equal.
  assert (G : forall l a, fold_left (fun (a : list N) j => a ++ [j]) l a = a ++ l).
  { clear. induction l as [|x l IH]; intros a; cbn [fold_left]; [symmetry; apply app_nil_r|]. rewrite IH, <- app_assoc. reflexivity. }
  rewrite G. cbn [app]. unfold indices_where. apply filter_all. intros i Hi. apply In_range in Hi. apply B. tt. lia.
Qed.

Lemma shl_far s k : tot <= k -> shl_assign n w s k = None.
Proof.
  intros Hk. unfold shl_assign. destruct (N.eqb_spec n 0); [lia|]. pose proof (sz_pos pl n w Hw Hwl Hn HnM) as Hsz.
  assert (storage_size n w <= k / w) by (apply N.div_le_lower_bound; unfold capacity in Hk; lia).
  destruct (N.ltb_spec (storage_size n w - 1) (k / w)); [reflexivity|lia].
Qed.
Lemma shr_far s : valid n w s -> exists s', shr_assign n w s tot = Some s' /\
  forall i, i < w -> get w s' i = get w s (tot - w + i).
Proof.
  intros Hs. unfold shr_assign. destruct (N.eqb_spec n 0); [lia|]. pose proof (sz_pos pl n w Hw Hwl Hn HnM) as Hsz.
  assert (Ed : tot / w = storage_size n w) by (unfold capacity; apply N.div_mul; lia).
  assert (Em : tot mod w = 0) by (unfold capacity; apply N.mod_mul; lia).
  rewrite Ed, Em. replace (N.to_nat (storage_size n w - 1 - storage_size n w)) with 0%nat by lia. cbn [shr_loop].
  rewrite (back_word pl n w Hw Hwl Hn HnM s Hs). rewrite N.shiftr_0_r. unfold wrap. rewrite N.mod_small by (apply (word_lt n w); assumption).
  destruct (wf_wr pl n w Hw Hwl Hn HnM s 0 (word s (storage_size n w - 1)) Hs Hsz) as (s1 & E1 & Hs1); [apply (word_lt n w); assumption|]. rewrite E1.
  destruct (zero_from_ok pl n w Hw Hwl Hn HnM (N.to_nat (storage_size n w - (0 + 1))) s1 (0 + 1) Hs1) as (s2 & E2 & Hs2 & W2); [lia|].
  rewrite E2. exists s2. split; [reflexivity|]. intros i Hi. assert (Hcap : tot = storage_size n w * w) by reflexivity.
  assert (w <= tot) by nia.
  rewrite !valid_get by (assumption || lia). f_equal.
  replace i with (0 * w + i) at 1 by lia. replace (tot - w + i) with ((storage_size n w - 1) * w + i) by nia.
  rewrite !(ab_at w) by assumption. rewrite W2. destruct (N.leb_spec (0 + 1) 0); [lia|]. cbn [andb].
  unfold word at 1. rewrite (rd_wr _ _ _ _ 0 E1), N.eqb_refl. reflexivity.
Qed.
Lemma shr_far_any s k : tot <= k -> tot - w + k mod w < tot /\ shr_assign n w s k = shr_assign n w s (tot - w + k mod w).
Proof.
  intros Hk. pose proof (sz_pos pl n w Hw Hwl Hn HnM) as Hsz. assert (Hc : tot = storage_size n w * w) by reflexivity.
  assert (Hm : k mod w < w) by (apply N.mod_lt; lia). set (p := k mod w) in *.
  assert (w <= tot) by nia. split; [lia|].
  replace (tot - w + p) with (p + (storage_size n w - 1) * w) by nia.
  unfold shr_assign. destruct (N.eqb_spec n 0); [lia|].
  rewrite N.mod_add, N.div_add by lia. rewrite (N.mod_small p w Hm), (N.div_small p w Hm). fold p.
  assert (storage_size n w <= k / w) by (apply N.div_le_lower_bound; lia).
  replace (N.to_nat (storage_size n w - 1 - k / w)) with 0%nat by lia.
  replace (N.to_nat (storage_size n w - 1 - (0 + (storage_size n w - 1)))) with 0%nat by lia. reflexivity.
Qed.
Lemma shr_far_set k : tot <= k -> exists s', shr_assign n w (set_all w (make n w)) k = Some s' /\ get w s' 0 = Some true.
Proof.
  intros Hk. destruct (shr_far_any (set_all w (make n w)) k Hk) as (L & ->).
  destruct (set_all_valid _ (proj1 make_valid)) as (V & A).
  destruct (shr_get_any _ _ V L) as (s' & E & _ & G). exists s'. split; [exact E|]. rewrite G by exact Hn. rewrite N.add_0_l.
  destruct (N.ltb_spec (tot - w + k mod w) tot); [|lia]. apply A. exact L.
Qed.
Lemma shr_far_all : exists a s', all_ones n w = Some a /\ shr_assign n w a tot = Some s' /\ get w s' 0 = Some true.
Proof.
  destruct (all_ones_ok pl n w Hw Hwl Hn HnM) as (a & E & Ha & Ba). destruct (shr_far a Ha) as (s' & E' & G). exists a, s'.
  split; [exact E|]. split; [exact E'|]. rewrite G by exact Hw. pose proof (sz_pos pl n w Hw Hwl Hn HnM).
  assert (tot = storage_size n w * w) by reflexivity. assert (w <= tot) by nia.
  rewrite N.add_0_r. rewrite valid_get by (assumption || lia). rewrite Ba by (tt; lia). f_equal. apply N.ltb_lt.
  destruct (rbits_range pl n w Hw Hwl Hn HnM) as (R1 & R2 & R3). replace (tot - w) with ((storage_size n w - 1) * w) by nia. lia.
Qed.

Lemma of_u64_holds (same64 : bool) v : (same64 = true -> w = 64) -> v < 2 ^ 64 -> (same64 = true \/ w < 64) ->
  exists s, of_u64 n w same64 v = Some s /\ valid n w s /\ holds n w s (N.testbit v).
Proof.
  intros H64 Hv Hc. destruct (of_u64_ok pl n w Hw Hwl Hn HnM same64 v H64 Hv Hc) as (s & E & Hs & B). exists s. split; [exact E|]. split; [exact Hs|].
  apply ab_holds; [exact Hs|]. intros i Hi. apply B. pose proof n_tot. tt. lia.
Qed.
Lemma to_value s (same : bool) uw v : valid n w s -> n <= uw -> (if same then uw = w else w <= uw) ->
  (to_uint n w same uw s = Some v <-> v < 2 ^ n /\ holds n w s (N.testbit v)).
Proof.
  intros Hs Hu Hsame. rewrite (to_uint_ok pl n w Hw Hwl Hn HnM s same uw Hs Hu Hsame).
  assert (Hbit : forall i, N.testbit (value_of (tab n (ab w s))) i = (i <? n) && ab w s i).
  { intros i. rewrite (value_of_bit pl n w Hw Hwl Hn HnM). destruct (N.ltb_spec i n); [apply bit_tab; assumption|apply bit_tab_out; assumption]. }
  split.
  - intros E. apply (f_equal (fun o => match o with Some a => a | None => 0 end)) in E. cbv beta iota in E. subst v. split.
    + apply bits_lt. intros i Hi. rewrite Hbit. destruct (N.ltb_spec i n); [lia|reflexivity].
    + apply ab_holds; [exact Hs|]. intros i Hi. rewrite Hbit. destruct (N.ltb_spec i n); [reflexivity|lia].
  - intros (Hv & Hh). f_equal. apply N.bits_inj. intros i. rewrite Hbit. destruct (N.ltb_spec i n).
    + apply (holds_ab s _ Hs Hh). assumption.
    + symmetry. apply (testbit_high v n); assumption.
Qed.
Lemma u64_roundtrip (same64 : bool) v (same : bool) uw : (same64 = true -> w = 64) -> v < 2 ^ 64 -> (same64 = true \/ w < 64) ->
  n <= uw -> (if same then uw = w else w <= uw) ->
  exists s, of_u64 n w same64 v = Some s /\ to_uint n w same uw s = Some (v mod 2 ^ n).
Proof.
  intros H64 Hv Hc Hu Hsame. destruct (of_u64_holds same64 v H64 Hv Hc) as (s & E & Hs & Hh). exists s. split; [exact E|].
  apply (to_value s same uw _ Hs Hu Hsame). split; [apply mod_pow2_lt|]. intros i Hi. rewrite (Hh i Hi), testbit_mod.
  destruct (N.ltb_spec i n); [reflexivity|lia].
Qed.
Lemma place_holds ps : Forall (fun p => p < n) ps ->
  exists s, place n w ps = Some s /\ valid n w s /\ tidy n w s /\ holds n w s (fun i => existsb (N.eqb i) ps).
Proof.
  intros Hps. pose proof n_tot as Ht. destruct (place_ok pl n w Hw Hwl Hn HnM ps) as (s & E & Hs & B).
  { eapply Forall_impl; [|exact Hps]. cbn beta. intros p Hp. tt. lia. }
  change (total n w) with tot in B. exists s. split; [exact E|]. split; [exact Hs|]. split.
  - apply (tidy_ab s Hs). intros i H1 H2. rewrite B by exact H2. destruct (existsb (N.eqb i) ps) eqn:Ex; [|reflexivity].
    apply existsb_exists in Ex as (p & Hin & Heq). apply N.eqb_eq in Heq. subst p. rewrite Forall_forall in Hps. specialize (Hps i Hin). lia.
  - apply ab_holds; [exact Hs|]. intros i Hi. apply B. lia.
Qed.
Lemma all_holds : exists s, all_ones n w = Some s /\ valid n w s /\ tidy n w s /\ holds n w s (fun _ => true).
Proof.
  destruct (all_ones_ok pl n w Hw Hwl Hn HnM) as (a & E & Ha & Ba). pose proof n_tot. change (total n w) with tot in Ba.
  exists a. split; [exact E|]. split; [exact Ha|]. split.
  - apply (tidy_ab a Ha). intros i H1 H2. rewrite Ba by exact H2. apply N.ltb_ge. exact H1.
  - apply ab_holds; [exact Ha|]. intros i Hi. rewrite Ba by lia. apply N.ltb_lt. exact Hi.
Qed.
Lemma string_holds str pos cnt one : pos <= len str ->
  let sub := firstn (N.to_nat (N.min cnt n)) (skipn (N.to_nat pos) str) in
  exists s, of_string n w str pos cnt one = Some s /\ valid n w s /\ tidy n w s /\
  holds n w s (fun i => match nth_error (rev sub) (N.to_nat i) with Some c => c =? one | None => false end).
Proof.
  intros Hp sub. destruct (of_string_ok pl n w Hw Hwl Hn HnM str pos cnt one Hp) as (s & E & Hs & B). pose proof n_tot. change (total n w) with tot in B.
  exists s. split; [exact E|]. split; [exact Hs|]. split.
  - apply (tidy_ab s Hs). intros i H1 H2. rewrite B by exact H2. ncmp; [lia|reflexivity].
  - apply ab_holds; [exact Hs|]. intros i Hi. rewrite B by lia. unfold sub. clear sub B E Hs s.
    set (used := N.min (N.min cnt (len str - pos)) n).
    assert (Hl : length (firstn (N.to_nat (N.min cnt n)) (skipn (N.to_nat pos) str)) = N.to_nat used).
    { rewrite firstn_length, skipn_length. unfold used, len. lia. }
    destruct (N.ltb_spec i used) as [Hlt|Hge].
    + cbn [andb]. rewrite nth_error_rev' by (rewrite Hl; lia). rewrite Hl.
      rewrite nth_error_firstn' by (unfold used in *; lia). rewrite nth_error_skipn', rd_nth_error.
      replace (N.to_nat (pos + (used - 1 - i))) with (N.to_nat pos + (N.to_nat used - S (N.to_nat i)))%nat by lia. reflexivity.
    + cbn [andb]. replace (nth_error _ (N.to_nat i)) with (@None N); [reflexivity|]. symmetry. apply nth_error_None. rewrite rev_length, Hl. lia.
Qed.

Lemma each_exact s f : valid n w s -> holds n w s f ->
  for_each_set pl n w s = Some (indices_where n f) /\
  for_each_unset pl n w s = Some (indices_where n (fun i => negb (f i))) /\
  for_each_bit pl n w s = Some (map (fun i => (i, f i)) (map N.of_nat (seq 0 (N.to_nat n)))).
Proof.
  intros Hs Hh. pose proof (holds_ab s f Hs Hh) as Hb.
  rewrite (for_each_set_ok pl n w Hpl Hw Hwl Hn HnM s Hs), (for_each_unset_ok pl n w Hpl Hw Hwl Hn HnM s Hs), (for_each_bit_ok pl n w Hpl Hw Hwl Hn HnM s Hs).
  split; [f_equal; apply indices_ext; exact Hb|]. split; [f_equal; apply indices_ext; intros i Hi; rewrite Hb by exact Hi; reflexivity|].
  f_equal. apply map_ext_in. intros i Hi. apply In_range in Hi. rewrite Hb by lia. reflexivity.
Qed.
Lemma lowest_tidy s f : valid n w s -> tidy n w s -> holds n w s f ->
  exists k, lowest_unset pl w s = Some k /\ k <= n /\ (forall i, i < k -> f i = true) /\ (k < n -> f k = false).
Proof.
  intros Hs Ht Hh. pose proof (holds_ab s f Hs Hh) as Hb. apply (tidy_ab s Hs) in Ht. pose proof n_tot.
  rewrite (lowest_unset_total pl n w Hpl Hw Hwl Hn HnM s Hs). change (total n w) with tot.
  replace tot with (n + (tot - n)) by lia. rewrite indices_split.
  rewrite (indices_ext n (fun i => negb (ab w s i)) (fun i => negb (f i))) by (intros i Hi; rewrite Hb by exact Hi; reflexivity).
  destruct (indices_where n (fun i => negb (f i))) as [|x l] eqn:E; cbn [app].
  - assert (Hall : forall i, i < n -> f i = true).
    { intros i Hi. apply filter_nil_iff with (x := i) in E; [destruct (f i); [reflexivity|discriminate]|apply In_range; lia]. }
    exists n. split; [|split; [lia|split; [exact Hall|lia]]]. f_equal.
    destruct (N.eq_dec (tot - n) 0) as [Ez|Ez].
    + rewrite Ez. cbn. lia.
    + unfold indices_where. replace (N.to_nat (tot - n)) with (S (N.to_nat (tot - n - 1))) by lia. cbn [seq map filter].
      change (N.of_nat 0) with 0. rewrite N.add_0_r, Ht by (lia || (tt; lia)). cbn [negb map]. lia.
  - exists x. split; [reflexivity|].
    assert (Hin : In x (indices_where n (fun i => negb (f i)))) by (rewrite E; left; reflexivity).
    apply filter_In in Hin as (Hx & Hfx). apply In_range in Hx. split; [lia|]. split; [|intros _; destruct (f x); [discriminate|reflexivity]].
    intros i Hi. destruct (f i) eqn:Fi; [reflexivity|]. exfalso.
    pose proof (indices_split i (n - i) (fun j => negb (f j))) as Es. replace (i + (n - i)) with n in Es by lia. rewrite E in Es.
    destruct (indices_where i (fun j => negb (f j))) as [|y l'] eqn:Ey.
    + cbn [app] in Es. unfold indices_where in Es. replace (N.to_nat (n - i)) with (S (N.to_nat (n - i - 1))) in Es by lia. cbn [seq map filter] in Es.
      change (N.of_nat 0) with 0 in Es. rewrite N.add_0_r, Fi in Es. cbn [negb map] in Es. injection Es as Es _. lia.
    + cbn [app] in Es. injection Es as Es _. subst y. assert (Hy : In x (indices_where i (fun j => negb (f j)))) by (rewrite Ey; left; reflexivity).
      apply filter_In in Hy as (Hy & _). apply In_range in Hy.
      lia.
Qed.
Lemma reduce_tidy {T U} s f (g : N -> U) (r : T -> U -> T) init : valid n w s -> tidy n w s -> holds n w s f ->
  transform_reduce pl w g r init s = Some (fold_left (fun a i => r a (g i)) (indices_where n f) init).
Proof.
  intros Hs Ht Hh. pose proof (holds_ab s f Hs Hh) as Hb. apply (tidy_ab s Hs) in Ht.
  rewrite (transform_reduce_total pl n w Hpl Hw Hwl Hn HnM g r init s Hs). do 2 f_equal.
  assert (Ei : indices_where (total n w) (ab w s) = indices_where n (ab w s)) by exact (indices_clean pl n w Hw Hwl Hn HnM s (fun b => b) Ht eq_refl).
  rewrite Ei. apply indices_ext. exact Hb.
Qed.
Lemma set_len_zero s l v : 0 < l -> l mod w = 0 -> l < 2 ^ 32 -> set_len w s l 0 v = None.
Proof.
  intros H0 Hm H32. unfold set_len. rewrite N.add_0_r.
  replace ((l + 2 ^ 32 - 1) mod 2 ^ 32) with (l - 1).
  2:{ replace (l + 2 ^ 32 - 1) with (l - 1 + 1 * 2 ^ 32) by lia. rewrite N.mod_add by lia. symmetry. apply N.mod_small. lia. }
  unfold set_range. pose proof (N.div_mod l w ltac:(lia)) as E. rewrite Hm, N.add_0_r in E.
  assert ((l - 1) / w < l / w) by (apply N.div_lt_upper_bound; lia).
  destruct (N.eqb_spec (l / w) ((l - 1) / w)); [lia|]. destruct (N.ltb_spec ((l - 1) / w) (l / w)); [reflexivity|lia].
Qed.
End Bits2.

Lemma u64_wide n v : 0 < n -> 0 < v -> of_u64 n 64 false v = None.
Proof.
  intros Hn Hv. unfold of_u64, make. assert (Hs : 0 < storage_size n 64) by (apply N.div_str_pos; lia).
  replace (N.to_nat (storage_size n 64)) with (S (N.to_nat (storage_size n 64 - 1))) by lia. cbn [repeat u64_words].
  destruct (N.eqb_spec v 0); [lia|]. reflexivity.
Qed.
Lemma each_empty pl w s : 0 < w -> for_each_set pl 0 w s = None.
Proof.
  intros Hw. unfold for_each_set, for_each_with. replace (storage_size 0 w) with 0; [reflexivity|].
  unfold storage_size. symmetry. apply N.div_small. lia.
Qed.

(** ** type_bitset *)
Section TB2.
Context (pl : platform) (ts : list N) (w : N).
Context (Hpl : good_platform pl) (Hw : 0 < w) (Hwl : w <= llong_w pl) (Hne : ts <> []) (Hlen : len ts < size_mod).

Lemma listed_in t us : listed t us = true <-> In t us.
Proof.
  unfold listed. rewrite existsb_exists. split; [intros (y & Hy & E); apply N.eqb_eq in E; subst; exact Hy|intros H; exists t; split; [exact H|apply N.eqb_refl]].
Qed.
Lemma in_cap t : In t ts -> index_of t (list_t ts) < total (tb_N ts) w.
Proof.
  intros Ht. pose proof (NN_cap pl ts w Hw Hwl Hne Hlen).
  assert (In t (list_t ts)) as H1 by (apply mp_unique_in; exact Ht). apply index_of_lt in H1. unfold tb_N in *. lia.
Qed.
Lemma nodup_list : NoDup ts -> list_t ts = ts.
Proof. apply mp_unique_id. Qed.
Lemma guard us : NoDup ts -> Forall (fun u => In u ts) us ->
  forallb (fun u => index_of u ts <? tb_N ts) us = true /\ Forall (fun u => index_of u ts < tb_N ts) us.
Proof.
  intros Hd Hu. unfold tb_N. rewrite (nodup_list Hd).
  assert (F : Forall (fun u => index_of u ts < len ts) us) by (eapply Forall_impl; [|exact Hu]; cbn beta; intros u; apply index_of_lt).
  split; [|exact F]. apply forallb_forall. rewrite Forall_forall in F. intros u Hin. apply N.ltb_lt. apply F. exact Hin.
Qed.
Lemma exists_index t us : In t ts -> Forall (fun u => In u ts) us ->
  existsb (fun u => index_of u ts =? index_of t ts) us = listed t us.
Proof.
  intros Ht Hu. unfold listed. induction Hu as [|u us Hin Hu IH]; [reflexivity|]. cbn [existsb]. rewrite IH. f_equal.
  apply eq_true_iff_eq. rewrite !N.eqb_eq. split; [intros E; symmetry; apply (index_of_inj u t ts); assumption|intros ->; reflexivity].
Qed.

Lemma tb_set_ok s us v : NoDup ts -> valid (tb_N ts) w s -> us <> [] -> Forall (fun u => In u ts) us ->
  exists s', tb_set ts w s us v = Some s' /\ valid (tb_N ts) w s' /\
  forall t, In t ts -> tb_get ts w s' t = if listed t us then Some v else tb_get ts w s t.
Proof.
  intros Hd Hs Hus Hu. destruct (guard us Hd Hu) as (G1 & G2). unfold tb_set. rewrite G1.
  destruct (set_loop_ok pl ts w Hw Hwl Hne Hlen v us s Hs G2) as (s' & E & Hs' & B).
  exists s'. split; [destruct us; [contradiction|exact E]|]. split; [exact Hs'|]. intros t Ht.
  rewrite !(tb_get_ok pl ts w Hw Hwl Hne Hlen) by assumption. rewrite B by (apply in_cap; exact Ht).
  rewrite (nodup_list Hd), exists_index by assumption. destruct (listed t us); reflexivity.
Qed.
Lemma tb_reset_ok s us : NoDup ts -> valid (tb_N ts) w s -> us <> [] -> Forall (fun u => In u ts) us ->
  exists s', tb_reset ts w s us = Some s' /\ valid (tb_N ts) w s' /\
  forall t, In t ts -> tb_get ts w s' t = if listed t us then Some false else tb_get ts w s t.
Proof.
  intros Hd Hs Hus Hu. destruct (guard us Hd Hu) as (G1 & G2). unfold tb_reset. rewrite G1.
  destruct (reset_loop_ok pl ts w Hw Hwl Hne Hlen us s Hs G2) as (s' & E & Hs' & B).
  exists s'. split; [destruct us; [contradiction|exact E]|]. split; [exact Hs'|]. intros t Ht.
  rewrite !(tb_get_ok pl ts w Hw Hwl Hne Hlen) by assumption. rewrite B by (apply in_cap; exact Ht).
  rewrite (nodup_list Hd), exists_index by assumption. destruct (listed t us); reflexivity.
Qed.
Lemma fold_flip t us : In t ts -> Forall (fun u => In u ts) us -> forall b,
  fold_left (fun b u => if index_of u ts =? index_of t ts then negb b else b) us b = xorb (odd_times t us) b.
Proof.
  intros Ht Hu. unfold odd_times. induction Hu as [|u us Hin Hu IH]; intros b; cbn [fold_left fold_right]; [destruct b; reflexivity|].
  rewrite IH. assert (E : (index_of u ts =? index_of t ts) = (t =? u)).
  { apply eq_true_iff_eq. rewrite !N.eqb_eq. split; [intros E; symmetry; apply (index_of_inj u t ts); assumption|intros ->; reflexivity]. }
  rewrite E. destruct (t =? u), (fold_right _ false us), b; reflexivity.
Qed.
Lemma tb_flip_ok s us : NoDup ts -> valid (tb_N ts) w s -> us <> [] -> Forall (fun u => In u ts) us ->
  exists s', tb_flip ts w s us = Some s' /\ valid (tb_N ts) w s' /\
  forall t b, In t ts -> tb_get ts w s t = Some b -> tb_get ts w s' t = Some (xorb (odd_times t us) b).
Proof.
  intros Hd Hs Hus Hu. destruct (guard us Hd Hu) as (G1 & G2). unfold tb_flip. rewrite G1.
  destruct (flip_loop_ok pl ts w Hw Hwl Hne Hlen us s Hs G2) as (s' & E & Hs' & B).
  exists s'. split; [destruct us; [contradiction|exact E]|]. split; [exact Hs'|]. intros t b Ht.
  rewrite !(tb_get_ok pl ts w Hw Hwl Hne Hlen) by assumption. rewrite B by (apply in_cap; exact Ht).
  rewrite (nodup_list Hd), fold_flip by assumption. intros [= ->]. reflexivity.
Qed.
Lemma tb_whole_ok s : valid (tb_N ts) w s ->
  (forall v, exists s', tb_set ts w s [] v = Some s' /\ valid (tb_N ts) w s' /\ forall t, In t ts -> tb_get ts w s' t = Some true) /\
  (exists s', tb_reset ts w s [] = Some s' /\ valid (tb_N ts) w s' /\ forall t, In t ts -> tb_get ts w s' t = Some false) /\
  (exists s', tb_flip ts w s [] = Some s' /\ valid (tb_N ts) w s' /\ forall t b, In t ts -> tb_get ts w s t = Some b -> tb_get ts w s' t = Some (negb b)).
Proof.
  intros Hs. pose proof (NN_pos pl ts w Hw Hwl Hne Hlen) as P. pose proof (NN_lt pl ts w Hw Hwl Hlen) as L.
  destruct (set_all_ok pl (tb_N ts) w Hw Hwl P L s Hs) as (A1 & A2). destruct (reset_all_ok pl (tb_N ts) w Hw Hwl P L s Hs) as (B1 & B2). destruct (flip_all_ok pl (tb_N ts) w Hw Hwl P L s Hs) as (C1 & C2).
  split; [|split].
  - intros v. eexists. split; [reflexivity|]. split; [exact A1|]. intros t Ht. rewrite (tb_get_ok pl ts w Hw Hwl Hne Hlen) by assumption. f_equal. apply A2, in_cap, Ht.
  - eexists. split; [reflexivity|]. split; [exact B1|]. intros t Ht. rewrite (tb_get_ok pl ts w Hw Hwl Hne Hlen) by assumption. f_equal. apply B2, in_cap, Ht.
  - eexists. split; [reflexivity|]. split; [exact C1|]. intros t b Ht. rewrite !(tb_get_ok pl ts w Hw Hwl Hne Hlen) by assumption. intros [= <-]. f_equal. apply C2, in_cap, Ht.
Qed.
Lemma tb_ctor_ok us : Forall (fun u => In u ts) us ->
  exists s, tb_of_types ts w us = Some s /\ valid (tb_N ts) w s /\ forall t, In t ts -> tb_get ts w s t = Some (listed t us).
Proof.
  intros Hu. unfold tb_of_types.
  assert (Hu' : Forall (fun u => In u (list_t ts)) us) by (eapply Forall_impl; [|exact Hu]; cbn beta; intros u; apply mp_unique_in).
  assert (G : forallb (fun u => index_of u (list_t ts) <? tb_N ts) us = true).
  { apply forallb_forall. rewrite Forall_forall in Hu'. intros u Hin. apply N.ltb_lt, index_of_lt, Hu', Hin. }
  rewrite G. destruct (place_ok pl (tb_N ts) w Hw Hwl (NN_pos pl ts w Hw Hwl Hne Hlen) (NN_lt pl ts w Hw Hwl Hlen) (map (fun u => index_of u (list_t ts)) us)) as (s & E & Hs & B).
  { apply Forall_forall. intros i Hi. apply in_map_iff in Hi as (u & <- & Hin). apply in_cap. rewrite Forall_forall in Hu. apply Hu. exact Hin. }
  exists s. split; [exact E|]. split; [exact Hs|]. intros t Ht. rewrite (tb_get_ok pl ts w Hw Hwl Hne Hlen) by assumption. f_equal.
  rewrite B by (apply in_cap; exact Ht). apply mp_unique_in in Ht. fold (list_t ts) in Ht. clear E B G Hu. unfold listed.
  induction Hu' as [|u us Hin Hu IH]; [reflexivity|]. cbn [map existsb]. rewrite IH. f_equal.
  apply eq_true_iff_eq. rewrite !N.eqb_eq. split; [intros Eq; apply (index_of_inj t u (list_t ts)); assumption|intros ->; reflexivity].
Qed.
Lemma tb_each_ok s : valid (tb_N ts) w s ->
  tb_for_each_set pl ts w s = Some (filter (fun t => match tb_get ts w s t with Some b => b | None => false end) (mp_unique ts)).
Proof.
  intros Hs. rewrite (each_type pl ts w Hpl Hw Hwl Hne Hlen s Hs). f_equal. apply filter_ext_in. intros t Ht.
  apply (proj1 (mp_unique_in ts t)) in Ht. rewrite (tb_get_ok pl ts w Hw Hwl Hne Hlen) by assumption. reflexivity.
Qed.
Lemma tb_wrong s s' t v : valid (tb_N ts) w s -> In t ts -> index_of t ts <> index_of t (mp_unique ts) ->
  tb_set ts w s [t] v = Some s' ->
  tb_get ts w s' t = tb_get ts w s t /\ exists u, In u ts /\ u <> t /\ tb_get ts w s' u = Some v.
Proof.
  intros Hs Ht Hne' E. unfold tb_set in E. cbn [forallb] in E. rewrite andb_true_r in E.
  destruct (N.ltb_spec (index_of t ts) (tb_N ts)) as [Hlt|]; [|discriminate].
  destruct (set_loop_ok pl ts w Hw Hwl Hne Hlen v [t] s Hs ltac:(repeat constructor; assumption)) as (s1 & E1 & Hs1 & B).
  rewrite E1 in E. injection E as <-. pose proof (NN_cap pl ts w Hw Hwl Hne Hlen).
  rewrite !(tb_get_ok pl ts w Hw Hwl Hne Hlen) by assumption. split.
  - f_equal. rewrite B by (apply in_cap; exact Ht). cbn [existsb]. rewrite orb_false_r. destruct (N.eqb_spec (index_of t ts) (index_of t (list_t ts))); [contradiction|reflexivity].
  - destruct (rd_lt_Some (list_t ts) (index_of t ts) Hlt) as (u & Eu).
    assert (Hu : In u (list_t ts)) by (rewrite rd_nth_error in Eu; eapply nth_error_In; exact Eu).
    assert (Ei : index_of u (list_t ts) = index_of t ts).
    { pose proof (rd_index_of u _ Hu) as Er. pose proof (proj1 (index_of_lt u _) Hu) as L1. unfold tb_N in Hlt.
      rewrite rd_nth_error in Er, Eu. unfold len in *.
      apply N2Nat.inj. apply (proj1 (NoDup_nth_error (list_t ts)) (unique_nodup ts []) (N.to_nat (index_of u (list_t ts))) (N.to_nat (index_of t ts))); [lia|]. rewrite Er, Eu. reflexivity. }
    exists u. assert (Hut : In u ts) by (apply mp_unique_in; exact Hu). split; [exact Hut|]. split.
    + intros ->. apply Hne'. symmetry. exact Ei.
    + rewrite (tb_get_ok pl ts w Hw Hwl Hne Hlen) by assumption. rewrite Ei, B by lia. cbn [existsb]. rewrite N.eqb_refl. reflexivity.
Qed.
End TB2.
