(** Proofs about byterators. *)
From Verif Require Import Base BaseLemmas BitLemmas BitModel BitSpec BitProofs BitProofs2 BitsetProofs BitsetProofs2 ByteratorModel ByteratorSpec.
Open Scope N_scope.

(** ** Alignment *)
Lemma align_ok aw k p : p + 2 ^ k - 1 < 2 ^ aw -> next_multiple (2 ^ k) p (align_up aw (2 ^ k) p).
Proof.
  intros H. pose proof (npow2_pos k) as Pk. unfold align_up, wrap. rewrite N.mod_small by lia.
  assert (E : N.land (p + (2 ^ k - 1)) (N.lnot (2 ^ k - 1) aw) = (p + (2 ^ k - 1)) / 2 ^ k * 2 ^ k).
  { rewrite <- N.shiftr_div_pow2, <- N.shiftl_mul_pow2. apply N.bits_inj. intros i.
    replace (2 ^ k - 1) with (N.ones k) at 2 by (rewrite N.ones_equiv; lia).
    rewrite N.land_spec, testbit_lnot, testbit_ones, testbit_shl.
    destruct (N.leb_spec k i) as [H1|H1].
    - rewrite testbit_shr. replace (i - k + k) with i by lia. destruct (N.ltb_spec i k); [lia|].
      destruct (N.ltb_spec i aw) as [H2|H2]; cbn [xorb andb]; [apply andb_true_r|].
      rewrite (testbit_high (p + (2 ^ k - 1)) aw) by lia. reflexivity.
    - cbn [andb]. destruct (N.ltb_spec i k); [|lia]. cbn [xorb]. destruct (N.ltb_spec i aw) as [H2|H2]; [apply andb_false_r|].
      rewrite (testbit_high (p + (2 ^ k - 1)) aw) by lia. reflexivity. }
  rewrite E. set (q := (p + (2 ^ k - 1)) / 2 ^ k).
  pose proof (N.div_mod (p + (2 ^ k - 1)) (2 ^ k) ltac:(lia)) as D. fold q in D. pose proof (N.mod_lt (p + (2 ^ k - 1)) (2 ^ k) ltac:(lia)) as L.
  split; [apply N.mod_mul; lia|]. split; lia.
Qed.
Lemma next_multiple_unique sz p q1 q2 : 0 < sz -> next_multiple sz p q1 -> next_multiple sz p q2 -> q1 = q2.
Proof.
  intros Hs (A1 & A2 & A3) (B1 & B2 & B3). apply N.mod_divide in A1, B1; try lia. destruct A1 as (x & ->), B1 as (y & ->).
  assert (x = y) by nia. subst. reflexivity.
Qed.
Lemma align_not_power aw sz : 1 < sz -> sz < 2 ^ aw -> (forall k, sz <> 2 ^ k) -> align_up aw sz 1 mod sz <> 0.
Proof.
  intros H1 H2 Hk. unfold align_up, wrap. replace (1 + (sz - 1)) with sz by lia. rewrite (N.mod_small sz (2 ^ aw)) by exact H2.
  assert (E : N.land sz (N.lnot (sz - 1) aw) = N.ldiff sz (sz - 1)).
  { apply N.bits_inj. intros i. rewrite N.land_spec, N.ldiff_spec, testbit_lnot. destruct (N.ltb_spec i aw); [rewrite xorb_true_r; reflexivity|].
    rewrite (testbit_high sz aw) by assumption. reflexivity. }
  rewrite E. set (x := N.ldiff sz (sz - 1)).
  assert (Hd : x + N.land sz (sz - 1) = sz).
  { unfold x. rewrite N.add_nocarry_lxor.
    - apply N.bits_inj. intros i. rewrite N.lxor_spec, N.ldiff_spec, N.land_spec. destruct (N.testbit sz i), (N.testbit (sz - 1) i); reflexivity.
    - apply N.bits_inj. intros i. rewrite N.land_spec, N.ldiff_spec, N.land_spec, N.bits_0. destruct (N.testbit sz i), (N.testbit (sz - 1) i); reflexivity. }
  assert (Hx0 : x <> 0). { intros E0. apply N.ldiff_le in E0. lia. }
  assert (Hx1 : N.land sz (sz - 1) <> 0).
  { intros E0. assert (Hs : has_single_bit sz = true) by (unfold has_single_bit; rewrite E0; destruct (N.eqb_spec sz 0); [lia|reflexivity]).
    apply has_single_bit_ok in Hs as (k & Ek). exact (Hk k Ek). }
  rewrite N.mod_small by lia. exact Hx0.
Qed.

(** ** Loads and stores *)
Lemma byte_mod v k j : j < k -> byte (v mod 2 ^ (8 * k)) j = byte v j.
Proof.
  intros H. unfold byte. apply N.bits_inj. intros i. change 256 with (2 ^ 8). rewrite !testbit_mod, !testbit_div, testbit_mod.
  destruct (N.ltb_spec i 8); [|reflexivity]. destruct (N.ltb_spec (i + 8 * j) (8 * k)); [reflexivity|lia].
Qed.
Lemma inside_ok r p k : inside r p k = true <-> base r <= p /\ p + k <= base r + len (bytes r).
Proof. unfold inside. rewrite andb_true_iff, !N.leb_le. reflexivity. Qed.

Definition cellr (r : region) (a : N) : N := if base r <=? a then match rd (bytes r) (a - base r) with Some b => b | None => 0 end else 0.

Lemma load_ok r p k : base r <= p -> p + k <= base r + len (bytes r) ->
  exists l, load_bytes r p k = Some l /\ len l = k /\ (forall j, j < k -> rd l j = Some (cellr r (p + j))) /\
  (Forall (fun b => b < 256) (bytes r) -> Forall (fun b => b < 256) l).
Proof.
  intros H1 H2. unfold load_bytes. rewrite (proj2 (inside_ok r p k)) by auto. eexists. split; [reflexivity|].
  assert (Hl : length (firstn (N.to_nat k) (skipn (N.to_nat (p - base r)) (bytes r))) = N.to_nat k).
  { rewrite firstn_length, skipn_length. unfold len in *. lia. }
  split; [unfold len; rewrite Hl; lia|]. split.
  - intros j Hj. unfold cellr. destruct (N.leb_spec (base r) (p + j)); [|lia].
    destruct (rd_lt_Some (bytes r) (p + j - base r) ltac:(lia)) as (b & Eb). rewrite Eb. rewrite rd_nth_error in *.
    rewrite nth_error_firstn' by lia. rewrite nth_error_skipn'. rewrite <- Eb. f_equal. lia.
  - intros Hf. apply Forall_forall. intros x Hx. rewrite Forall_forall in Hf. apply Hf.
    rewrite <- (firstn_skipn (N.to_nat (p - base r)) (bytes r)). apply in_or_app. right.
    rewrite <- (firstn_skipn (N.to_nat k) (skipn (N.to_nat (p - base r)) (bytes r))). apply in_or_app. left. exact Hx.
Qed.
Ltac same_nth := match goal with |- match nth_error ?l ?x with Some _ => _ | None => _ end = match nth_error ?l ?y with Some _ => _ | None => _ end => replace x with y; [reflexivity|] end.
Lemma store_ok r p l : base r <= p -> p + len l <= base r + len (bytes r) ->
  exists r', store_bytes r p l = Some r' /\ base r' = base r /\ len (bytes r') = len (bytes r) /\
  (forall a, cellr r' a = if (p <=? a) && (a <? p + len l) then match rd l (a - p) with Some b => b | None => 0 end else cellr r a) /\
  (Forall (fun b => b < 256) (bytes r) -> Forall (fun b => b < 256) l -> Forall (fun b => b < 256) (bytes r')).
Proof.
  intros H1 H2. unfold store_bytes. rewrite (proj2 (inside_ok r p (len l))) by auto. eexists. split; [reflexivity|]. cbn [base bytes].
  set (o := N.to_nat (p - base r)). assert (Ho : (o + length l <= length (bytes r))%nat) by (unfold o, len in *; lia).
  assert (L1 : length (firstn o (bytes r)) = o) by (rewrite firstn_length; lia).
  assert (L2 : len (firstn o (bytes r) ++ l ++ skipn (o + length l) (bytes r)) = len (bytes r)).
  { unfold len. rewrite !app_length, L1, skipn_length. lia. }
  split; [reflexivity|]. split; [exact L2|]. split.
  - intros a. unfold cellr at 1. cbn [base bytes]. destruct (N.leb_spec (base r) a) as [Ha|Ha].
    + destruct (N.leb_spec p a) as [Hp|Hp]; cbn [andb].
      * destruct (N.ltb_spec a (p + len l)) as [Hq|Hq].
        -- rewrite !rd_nth_error. rewrite nth_error_app2 by (rewrite L1; unfold o; lia). rewrite L1. rewrite nth_error_app1 by (unfold o, len in *; lia).
           same_nth. unfold o. lia.
        -- unfold cellr. destruct (N.leb_spec (base r) a); [|lia]. rewrite !rd_nth_error. unfold len in *.
           rewrite nth_error_app2 by (rewrite L1; unfold o; lia). rewrite L1. rewrite nth_error_app2 by (unfold o; lia).
           rewrite nth_error_skipn'. same_nth. unfold o. lia.
      * unfold cellr. destruct (N.leb_spec (base r) a); [|lia]. rewrite !rd_nth_error. rewrite nth_error_app1 by (rewrite L1; unfold o; lia).
        rewrite nth_error_firstn' by (unfold o; lia). reflexivity.
    + destruct (N.leb_spec p a); [lia|]. cbn [andb]. unfold cellr. destruct (N.leb_spec (base r) a); [lia|]. reflexivity.
  - intros Hb Hl. apply Forall_app. split; [|apply Forall_app; split; [exact Hl|]].
    + apply Forall_forall. intros x Hx. rewrite Forall_forall in Hb. apply Hb. rewrite <- (firstn_skipn o (bytes r)). apply in_or_app. left. exact Hx.
    + apply Forall_forall. intros x Hx. rewrite Forall_forall in Hb. apply Hb. rewrite <- (firstn_skipn (o + length l) (bytes r)). apply in_or_app. right. exact Hx.
Qed.
Lemma advance_by_ok r p d : (Z.of_N (base r) <= Z.of_N p + d <= Z.of_N (base r + len (bytes r)))%Z -> advance_by r p d = Some (Z.to_N (Z.of_N p + d)).
Proof.
  intros (H1 & H2). unfold advance_by. destruct (Z.leb_spec (Z.of_N (base r)) (Z.of_N p + d)); [|lia].
  destruct (Z.leb_spec (Z.of_N p + d) (Z.of_N (base r + len (bytes r)))); [|lia]. reflexivity.
Qed.
Lemma mem_of_length e w v : length (mem_of e w v) = N.to_nat (w / 8).
Proof. destruct e; cbn [mem_of]; [|rewrite rev_length]; apply to_bytes_length. Qed.
Lemma mem_of_bound e w v : Forall (fun b => b < 256) (mem_of e w v).
Proof. destruct e; cbn [mem_of]; [|apply Forall_rev]; apply to_bytes_bound. Qed.
Lemma nth_mem_of e w v a : a < w / 8 -> rd (mem_of e w v) a = Some (byte v (place_of e (w / 8) a)).
Proof.
  intros H. rewrite rd_nth_error. destruct e; cbn [mem_of place_of].
  - rewrite nth_to_bytes by lia. rewrite N2Nat.id. reflexivity.
  - rewrite nth_error_rev' by (rewrite to_bytes_length; lia). rewrite to_bytes_length, nth_to_bytes by lia. do 2 f_equal. lia.
Qed.
Lemma of_mem_integer e r p k l : len l = k -> Forall (fun b => b < 256) l -> (forall j, j < k -> rd l j = Some (cellr r (p + j))) ->
  of_mem e l < 2 ^ (8 * k) /\ forall j, j < k -> byte (of_mem e l) j = cellr r (p + place_of e k j).
Proof.
  intros Hl Hb Hr. destruct e; cbn [of_mem place_of].
  - split; [rewrite <- Hl; apply of_bytes_lt; exact Hb|]. intros j Hj. specialize (Hr j Hj). rewrite rd_nth_error in Hr.
    rewrite <- (to_of_bytes l Hb) in Hr. rewrite nth_to_bytes in Hr by (unfold len in Hl; lia). rewrite N2Nat.id in Hr.
    apply (f_equal (fun o => match o with Some a => a | None => 0 end)) in Hr. exact Hr.
  - assert (Hb' : Forall (fun b => b < 256) (rev l)) by (apply Forall_rev; exact Hb).
    assert (Hl' : len (rev l) = k) by (unfold len; rewrite rev_length; exact Hl).
    split; [rewrite <- Hl'; apply of_bytes_lt; exact Hb'|]. intros j Hj. specialize (Hr (k - 1 - j) ltac:(lia)). rewrite rd_nth_error in Hr.
    assert (Hn : nth_error (rev l) (N.to_nat j) = Some (cellr r (p + (k - 1 - j)))).
    { rewrite nth_error_rev' by (unfold len in Hl; lia). rewrite <- Hr. f_equal. unfold len in Hl. lia. }
    rewrite <- (to_of_bytes (rev l) Hb') in Hn. rewrite nth_to_bytes in Hn by (unfold len in Hl'; lia). rewrite N2Nat.id in Hn.
    apply (f_equal (fun o => match o with Some a => a | None => 0 end)) in Hn. exact Hn.
Qed.
