(** Proofs about atomic_bitset. *)
From Verif Require Import Base BaseLemmas BitModel BitSpec BitLemmas BitProofs BitProofs2 BitsetModel BitsetSpec BitsetProofs BitsetProofs2.
From Verif Require Import ConcModel ConcSpec ConcProofs AtomicBitsetModel AtomicBitsetSpec.
From Coq Require Import Permutation.
Open Scope N_scope.

Section AB.
Context (pl : platform) (n w sw : N) (same64 : bool).
Context (Hpl : good_platform pl) (Hw : 0 < w) (Hwl : w <= llong_w pl) (Hn : 0 < n) (HnM : n < size_mod).
Context (Hnw : n <= w) (H64 : same64 = true -> w = 64) (Hc : same64 = true \/ w < 64).

Lemma size_one : storage_size n w = 1.
Proof. unfold storage_size. symmetry. apply (N.div_unique _ _ 1 (n - 1)); lia. Qed.
Lemma cap_w : capacity n w = w.
Proof. unfold capacity. rewrite size_one. lia. Qed.
Lemma get_word x i : i < w -> get w [x] i = Some (N.testbit x i).
Proof.
  intros Hi. unfold get. rewrite N.div_small, N.mod_small by exact Hi. change (rd [x] 0) with (Some x). cbv iota beta.
  rewrite (land_bit w) by exact Hi. reflexivity.
Qed.
Lemma of_u64_word x : x < 2 ^ w -> of_u64 n w same64 x = Some [x].
Proof.
  intros Hx. unfold of_u64, make. rewrite size_one. change (repeat 0 (N.to_nat 1)) with [0].
  destruct same64; [reflexivity|]. destruct Hc as [?|Hlt]; [discriminate|]. cbn [u64_words].
  destruct (N.eqb_spec x 0) as [->|]; [reflexivity|]. destruct (N.ltb_spec w 64); [|lia]. cbv beta iota.
  do 2 f_equal. unfold allbits. rewrite N.land_ones. apply N.mod_small. exact Hx.
Qed.
Lemma pow_nw : 2 ^ n <= 2 ^ w.
Proof. apply npow2_le. exact Hnw. Qed.
Lemma as_bits mem : mem < 2 ^ n -> exists s, as_bitset n w same64 mem = Ret (RBits s) /\
  valid n w s /\ tidy n w s /\ holds n w s (bit (tab n (N.testbit mem))).
Proof.
  intros Hm. pose proof pow_nw. unfold as_bitset. rewrite of_u64_word by lia. exists [mem]. split; [reflexivity|]. split.
  - split; [rewrite size_one; reflexivity|]. constructor; [lia|constructor].
  - split.
    + intros i H1 H2. rewrite cap_w in H2. rewrite get_word by exact H2. f_equal. apply (testbit_high _ n); assumption.
    + intros i Hi. rewrite get_word by lia. rewrite bit_tab by exact Hi. reflexivity.
Qed.
Lemma word_mask_ok l m : l <= m -> m < w -> exists v, word_mask pl w m l = Some v /\ v < 2 ^ w /\
  forall i, N.testbit v i = (l <=? i) && (i <=? m).
Proof.
  intros H1 H2. destruct (bit_mask_ok pl (Word w) m l Hw H1 H2) as (x & E & Hl & Hf & Hb).
  unfold word_mask, one_word. rewrite E. destruct x as [|v [|y x]]; try discriminate Hl. exists v. split; [reflexivity|].
  inversion Hf; subst. split; [assumption|]. intros i. destruct (N.lt_ge_cases i w) as [Hi|Hi].
  - specialize (Hb i Hi). unfold array_bit in Hb. cbn [word_w] in Hb. rewrite N.div_small, N.mod_small in Hb by exact Hi.
    change (rd [v] 0) with (Some v) in Hb. exact Hb.
  - cbn [word_w] in H3. rewrite (testbit_high _ w) by assumption. symmetry. apply andb_false_iff. right. apply N.leb_gt. lia.
Qed.
Lemma ab_mask_ok : ab_mask pl n w = Some (N.ones n).
Proof.
  destruct (word_mask_ok 0 (n - 1)) as (v & E & Hv & Hb); [lia|lia|]. unfold ab_mask. rewrite E. f_equal.
  apply N.bits_inj. intros i. rewrite Hb, testbit_ones. ncmp; try lia; reflexivity.
Qed.
Lemma bit_pos_ok i : i < w -> bit_pos pl w i = Some (2 ^ i).
Proof.
  intros Hi. unfold bit_pos, shl. assert (i < promoted_w pl w) by (unfold promoted_w; lia).
  destruct (N.ltb_spec i (promoted_w pl w)); [|lia]. f_equal. unfold wrap. rewrite N.shiftl_1_l.
  rewrite (N.mod_small (2 ^ i) (2 ^ promoted_w pl w)) by (apply npow2_lt; lia). apply N.mod_small, npow2_lt. exact Hi.
Qed.

(** ** The primitives used *)
Lemma stored mem mem' (f : N -> bool -> bool) :
  (forall i, i < n -> N.testbit mem' i = f i (N.testbit mem i)) -> (forall i, n <= i -> N.testbit mem' i = false) ->
  stores n mem' (tab n (fun j => f j (bit (tab n (N.testbit mem)) j))).
Proof.
  intros H1 H2. split; [apply bits_lt; exact H2|]. apply tab_ext. intros i Hi. rewrite bit_tab by exact Hi. symmetry. apply H1. exact Hi.
Qed.
Lemma same_state mem : mem < 2 ^ n -> stores n mem (tab n (fun j => bit (tab n (N.testbit mem)) j)).
Proof. intros H. split; [exact H|]. apply tab_ext. intros i Hi. rewrite bit_tab by exact Hi. reflexivity. Qed.
Lemma or_state mem v (c : N -> bool) : mem < 2 ^ n -> (forall i, N.testbit v i = c i) -> v < 2 ^ n ->
  stores n (fst (exec_prim w (POr v) mem)) (tab n (fun j => if c j then true else bit (tab n (N.testbit mem)) j)).
Proof.
  intros Hm Hv Hlt. pose proof pow_nw. cbn [exec_prim fst]. unfold wrap. rewrite (N.mod_small v) by lia.
  apply (stored mem _ (fun j b => if c j then true else b)); intros i Hi; rewrite N.lor_spec, Hv.
  - destruct (c i), (N.testbit mem i); reflexivity.
  - rewrite (testbit_high mem n) by assumption. rewrite <- Hv. apply (testbit_high v n); assumption.
Qed.
Lemma and_state mem v (c : N -> bool) : mem < 2 ^ n -> (forall i, N.testbit v i = c i) -> v < 2 ^ w ->
  stores n (fst (exec_prim w (PAnd (tnot w v)) mem)) (tab n (fun j => if c j then false else bit (tab n (N.testbit mem)) j)).
Proof.
  intros Hm Hv Hlt. cbn [exec_prim fst]. unfold wrap, tnot. rewrite (N.mod_small (N.lnot v w)) by (apply lnot_lt; exact Hlt).
  apply (stored mem _ (fun j b => if c j then false else b)); intros i Hi; rewrite N.land_spec.
  - rewrite testbit_lnot, Hv. destruct (N.ltb_spec i w); [|lia]. destruct (c i), (N.testbit mem i); reflexivity.
  - rewrite (testbit_high mem n) by assumption. reflexivity.
Qed.
Lemma xor_state mem v (c : N -> bool) : mem < 2 ^ n -> (forall i, N.testbit v i = c i) -> v < 2 ^ n ->
  stores n (fst (exec_prim w (PXor v) mem)) (tab n (fun j => if c j then negb (bit (tab n (N.testbit mem)) j) else bit (tab n (N.testbit mem)) j)).
Proof.
  intros Hm Hv Hlt. pose proof pow_nw. cbn [exec_prim fst]. unfold wrap. rewrite (N.mod_small v) by lia.
  apply (stored mem _ (fun j b => if c j then negb b else b)); intros i Hi; rewrite N.lxor_spec, Hv.
  - destruct (c i), (N.testbit mem i); reflexivity.
  - rewrite (testbit_high mem n) by assumption. rewrite <- Hv. rewrite (testbit_high v n) by assumption. reflexivity.
Qed.
Lemma store_state mem v (c : N -> bool) : (forall i, i < n -> N.testbit v i = c i) -> v < 2 ^ n ->
  stores n (fst (exec_prim w (PStore v) mem)) (tab n c).
Proof.
  intros Hv Hlt. pose proof pow_nw. cbn [exec_prim fst]. unfold wrap. rewrite (N.mod_small v) by lia. split; [exact Hlt|].
  apply tab_ext. intros i Hi. symmetry. apply Hv. exact Hi.
Qed.
Lemma salient_ok r k : r < 2 ^ n -> salient pl n w r k = k r.
Proof.
  intros H. unfold salient, need. rewrite ab_mask_ok, N.land_ones, N.mod_small by exact H. reflexivity.
Qed.
Lemma range_lt l m v : m < n -> (forall i, N.testbit v i = (l <=? i) && (i <=? m)) -> v < 2 ^ n.
Proof. intros Hm H. apply bits_lt. intros i Hi. rewrite H. apply andb_false_iff. right. apply N.leb_gt. lia. Qed.
Lemma last_of_ok l k : n <= 2 ^ 32 -> 0 < k -> l + k <= n -> last_of l k = l + k - 1.
Proof.
  intros H H0 H1. unfold last_of. replace (l + k + 2 ^ 32 - 1) with (l + k - 1 + 1 * 2 ^ 32) by lia.
  rewrite N.mod_add by lia. apply N.mod_small. lia.
Qed.
Lemma in_len l k i : 0 < k -> ((l <=? i) && (i <=? l + k - 1)) = ((l <=? i) && (i <? l + k)).
Proof. intros H. f_equal. ncmp; try lia; reflexivity. Qed.
Lemma value_tab mem : mem < 2 ^ n -> value_of (tab n (N.testbit mem)) = mem.
Proof.
  intros H. apply N.bits_inj. intros i. rewrite (value_of_bit pl n w Hw Hwl Hn HnM). destruct (N.lt_ge_cases i n) as [Hi|Hi].
  - apply bit_tab. exact Hi.
  - rewrite bit_tab_out by exact Hi. symmetry. apply (testbit_high _ n); assumption.
Qed.
Lemma pop_tab mem : mem < 2 ^ n -> popcount pl w mem = len (indices_where n (N.testbit mem)).
Proof.
  intros H. pose proof pow_nw. rewrite (popcount_len pl w) by (assumption || lia).
  replace w with (n + (w - n)) at 1 by lia. rewrite indices_split, len_app.
  replace (indices_where (w - n) (fun i => N.testbit mem (n + i))) with (@nil N); [change (len (map (fun i => n + i) [])) with 0; lia|].
  symmetry. unfold indices_where. induction (map N.of_nat (seq 0 (N.to_nat (w - n)))) as [|a l IH]; [reflexivity|].
  cbn [filter]. rewrite (testbit_high mem n) by (assumption || lia). exact IH.
Qed.
Lemma none_word mem : mem < 2 ^ n -> (mem =? 0) = (len (indices_where n (N.testbit mem)) =? 0).
Proof.
  intros H. destruct (N.eqb_spec mem 0) as [->|Hz].
  - symmetry. apply N.eqb_eq. unfold indices_where. induction (map N.of_nat (seq 0 (N.to_nat n))) as [|a l IH]; [reflexivity|].
    cbn [filter]. rewrite N.bits_0. exact IH.
  - symmetry. apply N.eqb_neq. intros E. apply Hz. apply (bits_eq _ _ n H (npow2_pos n)). intros i Hi. rewrite N.bits_0.
    destruct (N.testbit mem i) eqn:Eb; [|reflexivity]. exfalso.
    assert (Hin : In i (indices_where n (N.testbit mem))) by (apply filter_In; split; [apply In_range; lia|exact Eb]).
    destruct (indices_where n (N.testbit mem)); [contradiction|]. rewrite len_cons in E. lia.
Qed.
Lemma all_word mem : mem < 2 ^ n -> (mem =? N.ones n) = forallb (fun b => b) (tab n (N.testbit mem)).
Proof.
  intros H. apply eq_true_iff_eq. rewrite N.eqb_eq, forallb_forall. split.
  - intros -> x Hx. rewrite tab_alt in Hx. apply in_map_iff in Hx as (i & <- & Hi). apply In_range in Hi. rewrite testbit_ones. apply N.ltb_lt. lia.
  - intros Hall. apply (bits_eq _ _ n H (ones_lt n)). intros i Hi. rewrite testbit_ones. destruct (N.ltb_spec i n); [|lia].
    apply Hall. rewrite tab_alt. apply in_map, In_range. lia.
Qed.

Definition ok_op (op : abop) : Prop := abpre n w sw op.
Context (Hn32 : n <= 2 ^ 32).

Ltac fin E := do 2 eexists; split; [exact E|]; split.

Lemma rmw p op (mem : N) (st : list bool) : (forall m, snd (exec_prim w p m) = m) ->
  mem < 2 ^ n ->
  (forall o, is_bits n w (tab n (N.testbit mem)) o -> returns n w (tab n (N.testbit mem)) op o) ->
  stores n (fst (exec_prim w p mem)) st -> st = tab n (fun j => becomes w op j (bit (tab n (N.testbit mem)) j)) ->
  exists o m', as_bitset n w same64 (snd (exec_prim w p mem)) = Ret o /\
    abspec n w (tab n (N.testbit mem)) op o m' /\ stores n (fst (exec_prim w p mem)) m'.
Proof.
  intros Hp Hm Hr Hs ->. rewrite Hp. destruct (as_bits mem Hm) as (s & E & V & T & Hh). exists (RBits s). eexists. split; [exact E|].
  split; [|exact Hs]. split; [reflexivity|]. apply Hr. exists s. split; [reflexivity|]. split; [exact V|]. split; assumption.
Qed.

Lemma ab_single op : ok_op op -> exists p k, abcode pl n w sw same64 op = Do p k /\
  forall mem m, stores n mem m -> exists o m', k (snd (exec_prim w p mem)) = Ret o /\ abspec n w m op o m' /\ stores n (fst (exec_prim w p mem)) m'.
Proof.
  pose proof pow_nw as Pnw. unfold ok_op. intros Hp. destruct op; cbn [abpre] in Hp; cbn [abcode];
    unfold set_range_code, reset_range_code, flip_range_code.
  - (* set *) rewrite bit_pos_ok by lia. cbn [need]. pose proof (npow2_lt i n Hp). destruct v; do 2 eexists; (split; [reflexivity|]); intros mem m (Hm & ->).
    + eapply (rmw (POr (2 ^ i)) (OSet i true)); [reflexivity|exact Hm|intros o H0; exact H0|apply (or_state mem _ (fun j => j =? i)); [exact Hm|intros; apply testbit_pow2|lia]|reflexivity].
    + eapply (rmw (PAnd (tnot w (2 ^ i))) (OSet i false)); [reflexivity|exact Hm|intros o H0; exact H0|apply (and_state mem _ (fun j => j =? i)); [exact Hm|intros; apply testbit_pow2|lia]|reflexivity].
  - destruct Hp as (H1 & H2). destruct (word_mask_ok l m H1 ltac:(lia)) as (x & -> & X1 & X2). pose proof (range_lt l m x H2 X2). cbn [need].
    destruct v; do 2 eexists; (split; [reflexivity|]); intros mem st (Hm & ->).
    + eapply (rmw (POr x) (OSetRange l m true)); [reflexivity|exact Hm|intros o H0; exact H0|apply (or_state mem _ _ Hm X2); lia|reflexivity].
    + eapply (rmw (PAnd (tnot w x)) (OSetRange l m false)); [reflexivity|exact Hm|intros o H0; exact H0|apply (and_state mem _ _ Hm X2); lia|reflexivity].
  - destruct Hp as (H1 & H2). rewrite last_of_ok by assumption. destruct (word_mask_ok l (l + k - 1) ltac:(lia) ltac:(lia)) as (x & -> & X1 & X2).
    pose proof (range_lt l (l + k - 1) x ltac:(lia) X2). cbn [need]. assert (X3 : forall i, N.testbit x i = (l <=? i) && (i <? l + k)) by (intros i; rewrite X2; apply in_len; exact H1).
    destruct v; do 2 eexists; (split; [reflexivity|]); intros mem st (Hm & ->).
    + eapply (rmw (POr x) (OSetLen l k true)); [reflexivity|exact Hm|intros o H0; exact H0|apply (or_state mem _ _ Hm X3); lia|reflexivity].
    + eapply (rmw (PAnd (tnot w x)) (OSetLen l k false)); [reflexivity|exact Hm|intros o H0; exact H0|apply (and_state mem _ _ Hm X3); lia|reflexivity].
  - rewrite ab_mask_ok. cbn [need]. do 2 eexists. split; [reflexivity|]. intros mem m (Hm & ->). exists RUnit. eexists. split; [reflexivity|]. split; [split; [reflexivity|reflexivity]|].
    apply (store_state mem (N.ones n) (fun _ => true)); [|apply ones_lt]. intros i Hi. rewrite testbit_ones. apply N.ltb_lt. exact Hi.
  - rewrite bit_pos_ok by lia. cbn [need]. pose proof (npow2_lt i n Hp). do 2 eexists; (split; [reflexivity|]); intros mem m (Hm & ->).
    eapply (rmw (PAnd (tnot w (2 ^ i))) (OReset i)); [reflexivity|exact Hm|intros o H0; exact H0|apply (and_state mem _ (fun j => j =? i)); [exact Hm|intros; apply testbit_pow2|lia]|reflexivity].
  - destruct Hp as (H1 & H2). destruct (word_mask_ok l m H1 ltac:(lia)) as (x & -> & X1 & X2). pose proof (range_lt l m x H2 X2). cbn [need].
    do 2 eexists; (split; [reflexivity|]); intros mem st (Hm & ->).
    eapply (rmw (PAnd (tnot w x)) (OResetRange l m)); [reflexivity|exact Hm|intros o H0; exact H0|apply (and_state mem _ _ Hm X2); lia|reflexivity].
  - destruct Hp as (H1 & H2). rewrite last_of_ok by assumption. destruct (word_mask_ok l (l + k - 1) ltac:(lia) ltac:(lia)) as (x & -> & X1 & X2).
    pose proof (range_lt l (l + k - 1) x ltac:(lia) X2). cbn [need]. assert (X3 : forall i, N.testbit x i = (l <=? i) && (i <? l + k)) by (intros i; rewrite X2; apply in_len; exact H1).
    do 2 eexists; (split; [reflexivity|]); intros mem st (Hm & ->).
    eapply (rmw (PAnd (tnot w x)) (OResetLen l k)); [reflexivity|exact Hm|intros o H0; exact H0|apply (and_state mem _ _ Hm X3); lia|reflexivity].
  - do 2 eexists. split; [reflexivity|]. intros mem m (Hm & ->). exists RUnit. eexists. split; [reflexivity|]. split; [split; [reflexivity|reflexivity]|].
    apply (store_state mem 0 (fun _ => false)); [|apply npow2_pos]. intros i Hi. apply N.bits_0.
  - rewrite bit_pos_ok by lia. cbn [need]. pose proof (npow2_lt i n Hp). do 2 eexists; (split; [reflexivity|]); intros mem m (Hm & ->).
    eapply (rmw (PXor (2 ^ i)) (OFlip i)); [reflexivity|exact Hm|intros o H0; exact H0|apply (xor_state mem _ (fun j => j =? i)); [exact Hm|intros; apply testbit_pow2|lia]|reflexivity].
  - destruct Hp as (H1 & H2). destruct (word_mask_ok l m H1 ltac:(lia)) as (x & -> & X1 & X2). pose proof (range_lt l m x H2 X2). cbn [need].
    do 2 eexists; (split; [reflexivity|]); intros mem st (Hm & ->).
    eapply (rmw (PXor x) (OFlipRange l m)); [reflexivity|exact Hm|intros o H0; exact H0|apply (xor_state mem _ _ Hm X2); lia|reflexivity].
  - destruct Hp as (H1 & H2). rewrite last_of_ok by assumption. destruct (word_mask_ok l (l + k - 1) ltac:(lia) ltac:(lia)) as (x & -> & X1 & X2).
    pose proof (range_lt l (l + k - 1) x ltac:(lia) X2). cbn [need]. assert (X3 : forall i, N.testbit x i = (l <=? i) && (i <? l + k)) by (intros i; rewrite X2; apply in_len; exact H1).
    do 2 eexists; (split; [reflexivity|]); intros mem st (Hm & ->).
    eapply (rmw (PXor x) (OFlipLen l k)); [reflexivity|exact Hm|intros o H0; exact H0|apply (xor_state mem _ _ Hm X3); lia|reflexivity].
  - rewrite ab_mask_ok. cbn [need]. do 2 eexists; (split; [reflexivity|]); intros mem st (Hm & ->).
    eapply (rmw (PXor (N.ones n)) OFlipAll); [reflexivity|exact Hm|intros o H0; exact H0|apply (xor_state mem _ (fun j => j <? n) Hm); [intros; apply testbit_ones|apply ones_lt]|].
    apply tab_ext. intros i Hi. cbn [becomes]. destruct (N.ltb_spec i n); [reflexivity|lia].
  - (* load *) do 2 eexists; (split; [reflexivity|]); intros mem st (Hm & ->). cbn [exec_prim fst snd]. rewrite salient_ok by exact Hm.
    destruct (as_bits mem Hm) as (s & E & V & T & Hh). exists (RBits s). eexists. split; [exact E|]. split; [|apply same_state; exact Hm].
    split; [reflexivity|]. exists s. split; [reflexivity|]. split; [exact V|]. split; assumption.
  - (* store *) destruct (to_uint n w true w b) as [v|] eqn:Ev.
    2:{ exfalso. rewrite (to_uint_ok pl n w Hw Hwl Hn HnM b true w Hp Hnw eq_refl) in Ev. discriminate. }
    apply (to_value pl n w Hw Hwl Hn HnM b true w v Hp Hnw eq_refl) in Ev as (Hv & Hh). cbn [need].
    do 2 eexists. split; [reflexivity|]. intros mem m (Hm & ->). exists RUnit. eexists. split; [reflexivity|]. split; [split; [reflexivity|reflexivity]|].
    apply (store_state mem v); [|exact Hv]. intros i Hi. cbn [becomes]. rewrite (Hh i Hi). reflexivity.
  - do 2 eexists; (split; [reflexivity|]); intros mem st (Hm & ->). cbn [exec_prim fst snd]. rewrite salient_ok by exact Hm.
    rewrite of_u64_word by lia. cbn [need]. rewrite get_word by lia. cbn [need]. do 2 eexists. split; [reflexivity|]. split; [|apply same_state; exact Hm].
    split; [reflexivity|]. cbn [returns]. rewrite bit_tab by exact Hp. reflexivity.
  - destruct (N.ltb_spec uw n); [lia|]. do 2 eexists; (split; [reflexivity|]); intros mem st (Hm & ->). cbn [exec_prim fst snd]. rewrite salient_ok by exact Hm.
    do 2 eexists. split; [reflexivity|]. split; [|apply same_state; exact Hm]. split; [reflexivity|]. cbn [returns]. rewrite value_tab by exact Hm.
    f_equal. apply N.mod_small. pose proof (npow2_le n uw Hp). lia.
  - do 2 eexists; (split; [reflexivity|]); intros mem st (Hm & ->). cbn [exec_prim fst snd]. rewrite salient_ok by exact Hm.
    do 2 eexists. split; [reflexivity|]. split; [|apply same_state; exact Hm]. split; [reflexivity|]. cbn [returns]. rewrite value_tab by exact Hm.
    f_equal. apply N.mod_small. pose proof (npow2_le n sw Hp). lia.
  - do 2 eexists; (split; [reflexivity|]); intros mem st (Hm & ->). cbn [exec_prim fst snd]. rewrite salient_ok by exact Hm. rewrite ab_mask_ok. cbn [need].
    do 2 eexists. split; [reflexivity|]. split; [|apply same_state; exact Hm]. split; [reflexivity|]. cbn [returns]. f_equal. apply all_word. exact Hm.
  - do 2 eexists; (split; [reflexivity|]); intros mem st (Hm & ->). cbn [exec_prim fst snd]. rewrite salient_ok by exact Hm.
    do 2 eexists. split; [reflexivity|]. split; [|apply same_state; exact Hm]. split; [reflexivity|]. cbn [returns]. f_equal.
    rewrite none_word by exact Hm. apply (any_tab pl n w Hw Hwl Hn HnM).
  - do 2 eexists; (split; [reflexivity|]); intros mem st (Hm & ->). cbn [exec_prim fst snd]. rewrite salient_ok by exact Hm.
    do 2 eexists. split; [reflexivity|]. split; [|apply same_state; exact Hm]. split; [reflexivity|]. cbn [returns]. f_equal.
    rewrite none_word by exact Hm. apply (none_tab pl n w Hw Hwl Hn HnM).
  - do 2 eexists; (split; [reflexivity|]); intros mem st (Hm & ->). cbn [exec_prim fst snd]. rewrite salient_ok by exact Hm.
    do 2 eexists. split; [reflexivity|]. split; [|apply same_state; exact Hm]. split; [reflexivity|]. cbn [returns]. f_equal.
    rewrite pop_tab by exact Hm. f_equal. apply indices_ext. intros i Hi. symmetry. apply bit_tab. exact Hi.
Qed.

(** ** Constructors *)
Lemma place_word_ok ps : Forall (fun p => p < n) ps -> forall acc, exists v, place_word pl w acc ps = Some v /\
  forall i, N.testbit v i = N.testbit acc i || existsb (N.eqb i) ps.
Proof.
  intros H. induction H as [|p ps Hp H IH]; intros acc; cbn [place_word existsb].
  - exists acc. split; [reflexivity|]. intros i. rewrite orb_false_r. reflexivity.
  - rewrite bit_pos_ok by lia. destruct (IH (N.lor acc (2 ^ p))) as (v & E & Hv). exists v. split; [exact E|]. intros i.
    rewrite Hv, N.lor_spec, testbit_pow2, orb_assoc. reflexivity.
Qed.
Lemma string_word_ok one cs : forall acc k, k + len cs <= w -> acc < 2 ^ k ->
  let v := string_word w acc (wrap w (2 ^ k)) cs one in
  forall i, N.testbit v i = if i <? k then N.testbit acc i else match rd cs (i - k) with Some c => c =? one | None => false end.
Proof.
  induction cs as [|c cs IH]; intros acc k Hk Ha v i; subst v; cbn [string_word].
  - destruct (N.ltb_spec i k); [reflexivity|]. rewrite rd_ge_None by (change (len (@nil N)) with 0; lia). apply (testbit_high _ k); assumption.
  - rewrite len_cons in Hk. assert (Hkw : 2 ^ k < 2 ^ w) by (apply npow2_lt; lia). assert (E : wrap w (2 ^ k) = 2 ^ k) by (apply N.mod_small; exact Hkw).
    rewrite E. replace (N.shiftl (2 ^ k) 1) with (2 ^ (k + 1)) by (rewrite N.shiftl_mul_pow2, N.pow_add_r; reflexivity).
    assert (Hp : 2 ^ (k + 1) = 2 * 2 ^ k) by (rewrite N.add_comm, N.pow_add_r; reflexivity).
    rewrite IH.
    + destruct (N.ltb_spec i (k + 1)) as [H1|H1].
      * destruct (N.ltb_spec i k) as [H2|H2].
        -- destruct (c =? one); [|reflexivity]. rewrite N.lor_spec, testbit_pow2. destruct (N.eqb_spec i k); [lia|]. apply orb_false_r.
        -- assert (i = k) by lia. subst i. rewrite N.sub_diag, rd_cons0. destruct (c =? one); [|apply (testbit_high _ k); [assumption|lia]].
           rewrite N.lor_spec, testbit_pow2, N.eqb_refl. apply orb_true_r.
      * destruct (N.ltb_spec i k); [lia|]. rewrite rd_cons_pos by lia. replace (i - k - 1) with (i - (k + 1)) by lia. reflexivity.
    + lia.
    + destruct (c =? one); [|lia]. apply lor_lt; [lia|]. apply npow2_lt. lia.
Qed.
Lemma ab_init_ok c : ab_ctor_pre n c -> exists mem, ab_init pl n w c = Some mem /\ stores n mem (ab_initial n c).
Proof.
  pose proof pow_nw. destruct c; cbn [ab_ctor_pre ab_init ab_initial]; intros Hp.
  - exists 0. split; [reflexivity|]. split; [apply npow2_pos|]. apply tab_ext. intros i _. rewrite N.bits_0. reflexivity.
  - rewrite ab_mask_ok. eexists. split; [reflexivity|]. rewrite N.land_ones. unfold wrap.
    rewrite (N.mod_small (v mod 2 ^ n)) by (pose proof (mod_pow2_lt v n); lia).
    split; [apply mod_pow2_lt|]. apply tab_ext. intros i Hi. rewrite testbit_mod. destruct (N.ltb_spec i n); [reflexivity|lia].
  - destruct (place_word_ok ps Hp 0) as (v & E & Hv). exists v. split; [exact E|].
    assert (Hv' : forall i, N.testbit v i = existsb (N.eqb i) ps) by (intros i; rewrite Hv, N.bits_0; reflexivity).
    split; [|apply tab_ext; intros i _; symmetry; apply Hv'].
    apply bits_lt. intros i Hi. rewrite Hv'. destruct (existsb (N.eqb i) ps) eqn:Ee; [|reflexivity]. apply existsb_exists in Ee as (p & Hin & Heq).
    apply N.eqb_eq in Heq. subst p. rewrite Forall_forall in Hp. specialize (Hp i Hin). lia.
  - exists (N.ones n). split; [apply ab_mask_ok|]. split; [apply ones_lt|]. apply tab_ext. intros i Hi. rewrite testbit_ones. symmetry. apply N.ltb_lt. exact Hi.
  - destruct (N.ltb_spec (len str) pos); [lia|]. eexists. split; [reflexivity|]. set (used := N.min (N.min cnt (len str - pos)) n).
    set (sub := firstn (N.to_nat used) (skipn (N.to_nat pos) str)).
    assert (Hl : length sub = N.to_nat used) by (unfold sub; rewrite firstn_length, skipn_length; unfold used, len; lia).
    assert (Hlr : len (rev sub) = used) by (unfold len; rewrite rev_length, Hl; lia).
    assert (B : forall i, N.testbit (string_word w 0 1 (rev sub) one) i = (i <? used) && match rd str (pos + (used - 1 - i)) with Some c => c =? one | None => false end).
    { intros i. assert (E1 : wrap w (2 ^ 0) = 1) by (apply N.mod_small; apply N.pow_gt_1; lia). rewrite <- E1 at 1.
      rewrite string_word_ok; [|rewrite Hlr; unfold used; lia|reflexivity]. destruct (N.ltb_spec i 0); [lia|]. rewrite N.sub_0_r.
      destruct (N.ltb_spec i used) as [Hi|Hi]; cbn [andb].
      - rewrite rd_nth_error, nth_error_rev' by (rewrite Hl; lia). rewrite Hl. unfold sub. rewrite nth_error_firstn' by lia.
        rewrite nth_error_skipn', rd_nth_error. replace (N.to_nat (pos + (used - 1 - i))) with (N.to_nat pos + (N.to_nat used - S (N.to_nat i)))%nat by lia. reflexivity.
      - rewrite rd_ge_None by (rewrite Hlr; exact Hi). reflexivity. }
    split; [apply bits_lt; intros i Hi; rewrite B; destruct (N.ltb_spec i used); [unfold used in *; lia|reflexivity]|].
    apply tab_ext. intros i _. symmetry. apply B.
Qed.

(** ** Test and set *)
Lemma sets_becomes i op : sets i op = true -> forall b, becomes w op i b = true.
Proof.
  destruct op as [j v|l m v|l k v| | | | | | | | | | | | | | | | | |]; cbn [sets]; try discriminate; destruct v; try discriminate; intros H b; cbn [becomes].
  - rewrite N.eqb_sym, H. reflexivity.
  - rewrite H. reflexivity.
  - rewrite H. reflexivity.
Qed.
Lemma sets_returns i op m o : i < n -> sets i op = true -> returns n w m op o -> saw_clear w i o = negb (bit m i).
Proof.
  intros Hi. destruct op as [j v|l u v|l k v| | | | | | | | | | | | | | | | | |]; cbn [sets]; try discriminate; destruct v; try discriminate; intros _ (s & -> & V & T & Hh);
    cbn [saw_clear]; rewrite (Hh i Hi); reflexivity.
Qed.
Lemma tas i : i < n -> forall order m m', Forall (fun x => sets i (fst x) = true \/ leaves w i (fst x)) order -> legal (abspec n w) m order m' ->
  (bit m i = true -> winners w i order = [] /\ bit m' i = true) /\
  (bit m i = false -> (existsb (sets i) (map fst order) = true -> length (winners w i order) = 1%nat /\ bit m' i = true) /\
                      (existsb (sets i) (map fst order) = false -> winners w i order = [] /\ bit m' i = false)).
Proof.
  intros Hi. induction order as [|(op, o) order IH]; intros m m' Ha Hl; cbn [legal] in Hl.
  - subst m'. unfold winners. cbn [filter map existsb]. repeat split; intros; try assumption; discriminate.
  - destruct Hl as (m1 & (Em & Hr) & Hl). inversion Ha as [|? ? H1 Ha']; subst. cbn [fst] in H1. set (m1 := tab n (fun j => becomes w op j (bit m j))) in *.
    assert (B1 : bit m1 i = becomes w op i (bit m i)) by (apply bit_tab; exact Hi).
    destruct (IH m1 m' Ha' Hl) as (I1 & I2). unfold winners in *. cbn [filter map existsb fst snd].
    destruct (sets i op) eqn:Es; cbn [andb orb].
    + rewrite (sets_becomes i op Es) in B1. destruct (I1 B1) as (W & Fin). rewrite (sets_returns i op m o Hi Es Hr), W.
      split; intros Hb; rewrite Hb; cbn [negb length]; [split; [reflexivity|exact Fin]|]. split; intros Hex; [split; [reflexivity|exact Fin]|discriminate].
    + destruct H1 as [?|Hlv]; [discriminate|]. rewrite Hlv in B1. rewrite <- B1. split; assumption.
Qed.
End AB.
