From Verif Require Import Base BaseLemmas BitLemmas BitModel BitSpec BitProofs.
Open Scope N_scope.

(** ** bytes *)
Lemma nth_error_list_ext {A} : forall l1 l2 : list A, (forall i, nth_error l1 i = nth_error l2 i) -> l1 = l2.
Proof.
  induction l1 as [|a l1 IH]; intros [|b l2] H; [reflexivity|discriminate (H 0%nat)|discriminate (H 0%nat)|].
  pose proof (H 0%nat) as H0. injection H0 as ->. f_equal. apply IH. intros i. apply (H (S i)).
Qed.
Lemma firstn_app_len' {A} n (l1 l2 : list A) : length l1 = n -> firstn n (l1 ++ l2) = l1.
Proof. intros <-. apply firstn_app_len. Qed.
Lemma skipn_app_len' {A} n (l1 l2 : list A) : length l1 = n -> skipn n (l1 ++ l2) = l2.
Proof. intros <-. apply skipn_app_len. Qed.
Lemma to_bytes_length k : forall x, length (to_bytes k x) = k.
Proof. induction k as [|k IH]; intros x; cbn [to_bytes length]; [reflexivity|]. rewrite IH. reflexivity. Qed.
Lemma to_bytes_bound k : forall x, Forall (fun b => b < 256) (to_bytes k x).
Proof. induction k as [|k IH]; intros x; cbn [to_bytes]; constructor; [apply N.mod_lt; discriminate|apply IH]. Qed.
Lemma pow256 k : 2 ^ (8 * N.of_nat (S k)) = 256 * 2 ^ (8 * N.of_nat k).
Proof. replace (8 * N.of_nat (S k)) with (8 + 8 * N.of_nat k) by lia. rewrite N.pow_add_r. reflexivity. Qed.
Lemma of_to_bytes k : forall x, of_bytes (to_bytes k x) = x mod 2 ^ (8 * N.of_nat k).
Proof.
  induction k as [|k IH]; intros x; cbn [to_bytes of_bytes].
  - symmetry. apply N.mod_1_r.
  - rewrite IH, pow256. rewrite N.mod_mul_r; [reflexivity|discriminate|apply npow2_nz].
Qed.
Lemma to_of_bytes l : Forall (fun b => b < 256) l -> to_bytes (length l) (of_bytes l) = l.
Proof.
  induction 1 as [|b l Hb Hl IH]; [reflexivity|]. cbn [length of_bytes to_bytes].
  rewrite (N.mul_comm 256), N.mod_add, N.div_add, N.mod_small, N.div_small by (assumption || discriminate).
  rewrite N.add_0_l, IH. reflexivity.
Qed.
Lemma of_bytes_lt l : Forall (fun b => b < 256) l -> of_bytes l < 2 ^ (8 * len l).
Proof.
  induction 1 as [|b l Hb Hl IH]; [reflexivity|]. cbn [of_bytes]. unfold len in *. cbn [length]. rewrite pow256. lia.
Qed.
Lemma to_bytes_app a b : forall x,
  to_bytes (a + b) x = to_bytes a x ++ to_bytes b (x / 2 ^ (8 * N.of_nat a)).
Proof.
  induction a as [|a IH]; intros x; cbn [to_bytes app Nat.add].
  - rewrite N.div_1_r. reflexivity.
  - rewrite IH, pow256, N.div_div by (discriminate || apply npow2_nz). reflexivity.
Qed.
Lemma nth_to_bytes k : forall x i, (i < k)%nat -> nth_error (to_bytes k x) i = Some (byte x (N.of_nat i)).
Proof.
  induction k as [|k IH]; intros x i Hi; [lia|]. destruct i as [|i]; cbn [to_bytes nth_error].
  - unfold byte. rewrite N.mul_0_r, N.div_1_r. reflexivity.
  - rewrite IH by lia. f_equal. unfold byte. rewrite pow256, N.div_div by (discriminate || apply npow2_nz). reflexivity.
Qed.
Lemma to_bytes_map k x : to_bytes k x = map (fun i => byte x (N.of_nat i)) (seq 0 k).
Proof.
  apply nth_error_list_ext. intros i. destruct (Nat.lt_ge_cases i k).
  - rewrite nth_to_bytes by assumption. symmetry. rewrite nth_error_map.
    rewrite (nth_error_nth' _ 0%nat) by (rewrite seq_length; assumption).
    rewrite seq_nth by assumption. reflexivity.
  - rewrite (proj2 (nth_error_None _ _)) by (rewrite to_bytes_length; assumption).
    symmetry. apply nth_error_None. rewrite map_length, seq_length. assumption.
Qed.


Lemma wbits_div k : N.to_nat (wbits k / 8) = k.
Proof. unfold wbits. rewrite N.mul_comm, N.div_mul by discriminate. lia. Qed.

Lemma byteswap_bytes k x : std_width k -> x < 2 ^ wbits k ->
  byteswap (wbits k) x = of_bytes (rev (to_bytes k x)).
Proof.
  intros Hk Hx. unfold byteswap, builtin_bswap.
  assert (Hone : k = 1%nat -> x = of_bytes (rev (to_bytes k x))).
  { intros ->. cbn [to_bytes rev app of_bytes]. change (2 ^ wbits 1) with 256 in Hx. rewrite N.mod_small by exact Hx. lia. }
  destruct Hk as [->|[->|[->| ->]]].
  - apply Hone. reflexivity.
  - change (wbits 2 =? 16) with true. cbv iota. change (N.to_nat (16 / 8)) with 2%nat.
    unfold wrap. rewrite N.mod_small by exact Hx. reflexivity.
  - change (wbits 4 =? 16) with false. change (wbits 4 =? 32) with true. cbv iota. change (N.to_nat (32 / 8)) with 4%nat.
    unfold wrap. rewrite N.mod_small by exact Hx. reflexivity.
  - change (wbits 8 =? 16) with false. change (wbits 8 =? 32) with false. change (wbits 8 =? 64) with true.
    cbv iota. change (N.to_nat (64 / 8)) with 8%nat.
    unfold wrap. rewrite N.mod_small by exact Hx. reflexivity.
Qed.

Lemma rev_bound l : Forall (fun b => b < 256) l -> Forall (fun b => b < 256) (rev l).
Proof. intros H. apply Forall_rev. exact H. Qed.

Lemma to_bytes_byteswap k x : std_width k -> x < 2 ^ wbits k ->
  to_bytes k (byteswap (wbits k) x) = rev (to_bytes k x).
Proof.
  intros Hk Hx. rewrite byteswap_bytes by assumption.
  rewrite <- (to_of_bytes (rev (to_bytes k x))) at 2 by apply rev_bound, to_bytes_bound.
  rewrite rev_length, to_bytes_length. reflexivity.
Qed.
Lemma byteswap_lt k x : std_width k -> x < 2 ^ wbits k -> byteswap (wbits k) x < 2 ^ wbits k.
Proof.
  intros Hk Hx. rewrite byteswap_bytes by assumption.
  pose proof (of_bytes_lt (rev (to_bytes k x)) (rev_bound _ (to_bytes_bound _ _))) as H.
  unfold len in H. rewrite rev_length, to_bytes_length in H. exact H.
Qed.
Lemma byteswap_involutive k x : std_width k -> x < 2 ^ wbits k ->
  byteswap (wbits k) (byteswap (wbits k) x) = x.
Proof.
  intros Hk Hx. rewrite byteswap_bytes by (assumption || apply byteswap_lt; assumption).
  rewrite to_bytes_byteswap, rev_involutive, of_to_bytes by assumption. apply N.mod_small. exact Hx.
Qed.
Lemma byteswap_byte k x i : std_width k -> x < 2 ^ wbits k -> i < N.of_nat k ->
  byte (byteswap (wbits k) x) i = byte x (N.of_nat k - 1 - i).
Proof.
  intros Hk Hx Hi.
  assert (E : nth_error (to_bytes k (byteswap (wbits k) x)) (N.to_nat i) = nth_error (rev (to_bytes k x)) (N.to_nat i))
    by (rewrite to_bytes_byteswap by assumption; reflexivity).
  rewrite nth_to_bytes in E by lia.
  rewrite (nth_error_nth' (rev (to_bytes k x)) 0) in E by (rewrite rev_length, to_bytes_length; lia).
  rewrite rev_nth in E by (rewrite to_bytes_length; lia).
  rewrite to_bytes_length in E.
  pose proof (nth_to_bytes k x (k - S (N.to_nat i)) ltac:(lia)) as E2.
  rewrite (nth_error_nth' _ 0) in E2 by (rewrite to_bytes_length; lia).
  rewrite E2 in E. injection E as E. rewrite N2Nat.id in E. rewrite E. f_equal. lia.
Qed.

Lemma endian_roundtrip e k x : std_width k -> x < 2 ^ wbits k ->
  from_be e (wbits k) (to_be e (wbits k) x) = x /\ from_le e (wbits k) (to_le e (wbits k) x) = x /\
  to_be e (wbits k) (from_be e (wbits k) x) = x /\ to_le e (wbits k) (from_le e (wbits k) x) = x.
Proof. intros Hk Hx. destruct e; cbn; repeat split; try reflexivity; apply byteswap_involutive; assumption. Qed.

Lemma mem_to_be e k x : std_width k -> x < 2 ^ wbits k ->
  mem_of e (wbits k) (to_be e (wbits k) x) = map (fun i => byte x (N.of_nat i)) (rev (seq 0 k)).
Proof.
  intros Hk Hx. rewrite map_rev, <- to_bytes_map. destruct e; cbn [mem_of to_be]; rewrite wbits_div; [|reflexivity].
  apply to_bytes_byteswap; assumption.
Qed.
Lemma mem_to_le e k x : std_width k -> x < 2 ^ wbits k ->
  mem_of e (wbits k) (to_le e (wbits k) x) = map (fun i => byte x (N.of_nat i)) (seq 0 k).
Proof.
  intros Hk Hx. rewrite <- to_bytes_map. destruct e; cbn [mem_of to_le]; rewrite wbits_div; [reflexivity|].
  rewrite to_bytes_byteswap, rev_involutive by assumption. reflexivity.
Qed.

(** ** pack / unpack *)
Lemma unpack_chunk e kt c : std_width kt -> length c = kt -> Forall (fun b => b < 256) c ->
  from_be e (wbits kt) (of_mem e c) = of_bytes (rev c).
Proof.
  intros Hk Hl Hc. destruct e; cbn [from_be of_mem]; [|reflexivity].
  rewrite byteswap_bytes; [|exact Hk|].
  - rewrite <- Hl, to_of_bytes by exact Hc. reflexivity.
  - unfold wbits. rewrite <- Hl. apply of_bytes_lt. exact Hc.
Qed.

Lemma be_digits_S w count x :
  be_digits w (S count) x = (x / 2 ^ (w * N.of_nat count)) mod 2 ^ w :: be_digits w count x.
Proof. unfold be_digits. rewrite seq_S, rev_app_distr. reflexivity. Qed.

Lemma unpack_digits e kt sz : std_width kt -> forall x,
  map (fun c => from_be e (wbits kt) (of_mem e c)) (chunks sz kt (rev (to_bytes (sz * kt) x)))
  = be_digits (wbits kt) sz x.
Proof.
  intros Hk. induction sz as [|sz IH]; intros x; [reflexivity|].
  replace (S sz * kt)%nat with (sz * kt + kt)%nat by lia.
  rewrite to_bytes_app, rev_app_distr, be_digits_S. cbn [chunks map].
  assert (Hl : length (rev (to_bytes kt (x / 2 ^ (8 * N.of_nat (sz * kt))))) = kt)
    by (rewrite rev_length, to_bytes_length; reflexivity).
  rewrite firstn_app_len', skipn_app_len', IH by exact Hl.
  rewrite (unpack_chunk e kt) by (assumption || apply rev_bound, to_bytes_bound).
  rewrite rev_involutive, of_to_bytes. f_equal. unfold wbits. f_equal. f_equal. f_equal. lia.
Qed.

Lemma bit_unpack_ok e kt sz x : std_width kt -> std_width (sz * kt) -> x < 2 ^ wbits (sz * kt) ->
  bit_unpack e (wbits (sz * kt)) (wbits kt) x = Some (be_digits (wbits kt) sz x).
Proof.
  intros Hk Hf Hx. unfold bit_unpack.
  assert (Hsz : sz <> 0%nat) by (intros ->; destruct Hf as [|[|[|]]]; discriminate).
  assert (Hk0 : kt <> 0%nat) by (destruct Hk as [->|[->|[->| ->]]]; discriminate).
  assert (E8 : forall k, wbits k / 8 = N.of_nat k) by (intros k; unfold wbits; rewrite N.mul_comm, N.div_mul by discriminate; reflexivity).
  rewrite !E8.
  assert (Esz : size_conversion (N.of_nat (sz * kt)) (N.of_nat kt) 1 = N.of_nat sz).
  { unfold size_conversion. rewrite Nat2N.inj_mul. destruct (N.eqb_spec (N.of_nat sz * N.of_nat kt) (N.of_nat kt)) as [E|E]; [nia|].
    destruct (N.ltb_spec (N.of_nat kt) (N.of_nat sz * N.of_nat kt)); [|nia].
    rewrite N.mul_1_l, N.div_mul, N.mod_mul by lia. cbn. lia. }
  rewrite Esz. rewrite Nat2N.inj_mul, N.eqb_refl. f_equal.
  rewrite mem_to_be by assumption. rewrite map_rev, <- to_bytes_map. rewrite !Nat2N.id.
  apply unpack_digits. exact Hk.
Qed.

Definition be_value (w : N) (l : list N) : N := fold_left (fun a d => a * 2 ^ w + d) l 0.

Lemma be_value_snoc w l d : be_value w (l ++ [d]) = be_value w l * 2 ^ w + d.
Proof. unfold be_value. rewrite fold_left_app. reflexivity. Qed.
Lemma be_digits_high w count x : be_digits w (S count) x = be_digits w count (x / 2 ^ w) ++ [x mod 2 ^ w].
Proof.
  unfold be_digits. rewrite <- cons_seq. cbn [rev]. rewrite map_app. f_equal.
  - rewrite <- seq_shift, <- map_rev, map_map. apply map_ext. intros i.
    rewrite N.div_div by apply npow2_nz. rewrite <- N.pow_add_r.
    replace (w + w * N.of_nat i) with (w * N.of_nat (S i)) by lia. reflexivity.
  - cbn [map]. rewrite N.mul_0_r, N.div_1_r. reflexivity.
Qed.
Lemma be_digits_value w l : Forall (fun d => d < 2 ^ w) l -> be_digits w (length l) (be_value w l) = l.
Proof.
  induction l as [|d l IH] using rev_ind; intros H; [reflexivity|].
  apply Forall_app in H as (H1 & H2). inversion H2; subst.
  rewrite app_length, Nat.add_1_r, be_digits_high, be_value_snoc.
  rewrite N.div_add_l, N.div_small, N.add_0_r by (assumption || apply npow2_nz).
  rewrite IH by exact H1. rewrite N.add_comm, N.mod_add, N.mod_small by (assumption || apply npow2_nz). reflexivity.
Qed.
Lemma be_value_digits w count : forall x, be_value w (be_digits w count x) = x mod 2 ^ (w * N.of_nat count).
Proof.
  induction count as [|count IH]; intros x.
  - rewrite N.mul_0_r. symmetry. apply N.mod_1_r.
  - rewrite be_digits_high, be_value_snoc, IH.
    replace (w * N.of_nat (S count)) with (w + w * N.of_nat count) by lia.
    rewrite N.pow_add_r, N.mod_mul_r by apply npow2_nz. lia.
Qed.
Lemma be_digits_length w count x : length (be_digits w count x) = count.
Proof. unfold be_digits. rewrite map_length, rev_length, seq_length. reflexivity. Qed.
Lemma be_digits_bound w count x : Forall (fun d => d < 2 ^ w) (be_digits w count x).
Proof. apply Forall_forall. intros d Hd. apply in_map_iff in Hd as (i & <- & _). apply mod_pow2_lt. Qed.

Lemma lor_add k q b : b < 2 ^ k -> N.lor (q * 2 ^ k) b = q * 2 ^ k + b.
Proof.
  intros H. rewrite <- N.lxor_lor, <- N.add_nocarry_lxor; try reflexivity.
  all: apply N.bits_inj; intros i; rewrite N.land_spec, N.bits_0, <- N.shiftl_mul_pow2, testbit_shl;
    destruct (N.leb_spec k i); [|reflexivity]; rewrite (testbit_high b k) by assumption; apply andb_false_r.
Qed.
Lemma lor_add' k a b : a mod 2 ^ k = 0 -> b < 2 ^ k -> N.lor a b = a + b.
Proof.
  intros Ha Hb. pose proof (N.div_mod a (2 ^ k) (npow2_nz k)) as E. rewrite Ha, N.add_0_r, N.mul_comm in E.
  rewrite E. apply lor_add. exact Hb.
Qed.
Lemma wrap_shiftl w x k j : x < 2 ^ j -> j + k <= w -> wrap w (N.shiftl x k) = x * 2 ^ k.
Proof.
  intros H Hw. unfold wrap. rewrite N.shiftl_mul_pow2. apply N.mod_small.
  apply N.lt_le_trans with (2 ^ (j + k)); [|apply npow2_le; exact Hw].
  rewrite N.pow_add_r. apply N.mul_lt_mono_pos_r; [apply npow2_pos|exact H].
Qed.

Ltac Zify.zify_post_hook ::= Z.div_mod_to_equations.
Ltac pows := repeat match goal with |- context [2 ^ ?k] => let v := eval vm_compute in (2 ^ k) in change (2 ^ k) with v end.
Ltac powsin := repeat match goal with H : context [2 ^ ?k] |- _ => let v := eval vm_compute in (2 ^ k) in change (2 ^ k) with v in H end.

Lemma pack_body_value wto wt args v : pack_body wto wt args = Some v ->
  Forall (fun d => d < 2 ^ wt) args -> v = be_value wt args /\ wto = wt * len args.
Proof.
  unfold pack_body. intros H Hf.
  destruct args as [|a0 [|a1 [|a2 [|a3 [|a4 [|a5 [|a6 [|a7 [|a8 args]]]]]]]]]; try discriminate.
  all: repeat match goal with
       | H : (if (?a =? ?b) && (?c =? ?d) then _ else _) = Some _ |- _ =>
           destruct (N.eqb_spec a b) as [?|?], (N.eqb_spec c d) as [?|?]; cbn [andb] in H
       end; try discriminate; try lia.
  all: subst wto wt.
  all: apply (f_equal (fun o => match o with Some a => a | None => 0 end)) in H; cbv beta iota in H; subst v.
  all: repeat match goal with H : Forall _ (_ :: _) |- _ => inversion H; clear H; subst end.
  all: split; [|reflexivity]; unfold be_value; cbn [fold_left].
  - rewrite N.shiftl_mul_pow2, lor_add by assumption. unfold wrap. apply N.mod_small. powsin. pows. lia.
  - rewrite (wrap_shiftl 32 a0 16 16) by (assumption || lia). rewrite lor_add by assumption. lia.
  - rewrite (wrap_shiftl 64 a0 32 32) by (assumption || lia). rewrite lor_add by assumption. lia.
  - rewrite (wrap_shiftl 32 a0 24 8), (wrap_shiftl 32 a1 16 8), (wrap_shiftl 32 a2 8 8) by (assumption || lia).
    rewrite (lor_add' 24 (a0 * 2 ^ 24)), (lor_add' 16 (_ + _)), (lor_add' 8 (_ + _)); powsin; pows; lia.
  - rewrite (wrap_shiftl 64 a0 48 16), (wrap_shiftl 64 a1 32 16), (wrap_shiftl 64 a2 16 16) by (assumption || lia).
    rewrite (lor_add' 48 (a0 * 2 ^ 48)), (lor_add' 32 (_ + _)), (lor_add' 16 (_ + _)); powsin; pows; lia.
  - rewrite (wrap_shiftl 64 a0 56 8), (wrap_shiftl 64 a1 48 8), (wrap_shiftl 64 a2 40 8), (wrap_shiftl 64 a3 32 8),
      (wrap_shiftl 64 a4 24 8), (wrap_shiftl 64 a5 16 8), (wrap_shiftl 64 a6 8 8) by (assumption || lia).
    rewrite (lor_add' 56 (a0 * 2 ^ 56)), (lor_add' 48 (_ + _)), (lor_add' 40 (_ + _)), (lor_add' 32 (_ + _)),
      (lor_add' 24 (_ + _)), (lor_add' 16 (_ + _)), (lor_add' 8 (_ + _)); powsin; pows; lia.
Qed.

Ltac Zify.zify_post_hook ::= idtac.

Lemma pack_body_exists kt sz args : std_width kt -> std_width (sz * kt) -> (2 <= sz)%nat -> length args = sz ->
  exists v, pack_body (wbits (sz * kt)) (wbits kt) args = Some v.
Proof.
  intros Hk Hf Hs Hl.
  assert (Hc : (kt = 1 /\ (sz = 2 \/ sz = 4 \/ sz = 8) \/ kt = 2 /\ (sz = 2 \/ sz = 4) \/ kt = 4 /\ sz = 2)%nat).
  { destruct Hk as [->|[->|[->| ->]]], Hf as [H|[H|[H|H]]]; lia. }
  destruct Hc as [(-> & [->|[->| ->]])|[(-> & [->| ->])|(-> & ->)]];
    (destruct args as [|a0 [|a1 [|a2 [|a3 [|a4 [|a5 [|a6 [|a7 [|a8 args]]]]]]]]]; try discriminate Hl; eexists; reflexivity).
Qed.

Lemma pack_unpack e kt sz args v : std_width kt -> std_width (sz * kt) -> length args = sz ->
  Forall (fun d => d < 2 ^ wbits kt) args ->
  pack_body (wbits (sz * kt)) (wbits kt) args = Some v ->
  v < 2 ^ wbits (sz * kt) /\ bit_unpack e (wbits (sz * kt)) (wbits kt) v = Some args.
Proof.
  intros Hk Hf Hl Hb Hp. destruct (pack_body_value _ _ _ _ Hp Hb) as (-> & Ew).
  assert (Hv : be_value (wbits kt) args < 2 ^ wbits (sz * kt)).
  { rewrite Ew. rewrite <- (be_digits_value _ _ Hb) at 1. rewrite be_value_digits. apply mod_pow2_lt. }
  split; [exact Hv|]. rewrite bit_unpack_ok by assumption. rewrite <- Hl, be_digits_value by exact Hb. reflexivity.
Qed.

Lemma unpack_pack e kt sz x : std_width kt -> std_width (sz * kt) -> (2 <= sz)%nat -> x < 2 ^ wbits (sz * kt) ->
  exists l, bit_unpack e (wbits (sz * kt)) (wbits kt) x = Some l /\
            Forall (fun d => d < 2 ^ wbits kt) l /\ length l = sz /\
            pack_body (wbits (sz * kt)) (wbits kt) l = Some x.
Proof.
  intros Hk Hf Hs Hx. exists (be_digits (wbits kt) sz x).
  split; [apply bit_unpack_ok; assumption|]. split; [apply be_digits_bound|]. split; [apply be_digits_length|].
  destruct (pack_body_exists kt sz (be_digits (wbits kt) sz x) Hk Hf Hs (be_digits_length _ _ _)) as (v & Hv).
  rewrite Hv. destruct (pack_body_value _ _ _ _ Hv (be_digits_bound _ _ _)) as (-> & _).
  rewrite be_value_digits. f_equal. apply N.mod_small.
  replace (wbits kt * N.of_nat sz) with (wbits (sz * kt)); [exact Hx|]. unfold wbits. lia.
Qed.

Lemma bit_pack_body kt sz (zs : list Z) : (1 <= sz)%nat -> length zs = sz ->
  bit_pack (wbits (sz * kt)) zs = pack_body (wbits (sz * kt)) (wbits kt) (map (to_unsigned (wbits kt)) zs).
Proof.
  intros Hs Hl. unfold bit_pack, len. rewrite Hl. replace (wbits (sz * kt) / N.of_nat sz) with (wbits kt); [reflexivity|].
  unfold wbits. rewrite Nat2N.inj_mul. replace (8 * (N.of_nat sz * N.of_nat kt)) with (8 * N.of_nat kt * N.of_nat sz) by lia.
  symmetry. apply N.div_mul. lia.
Qed.
Lemma unsigned_of w x : x < 2 ^ w -> to_unsigned w (Z.of_N x) = x.
Proof.
  intros H. unfold to_unsigned. rewrite Z.mod_small; [apply N2Z.id|]. split; [apply N2Z.is_nonneg|].
  change 2%Z with (Z.of_N 2). rewrite <- N2Z.inj_pow. apply N2Z.inj_lt. exact H.
Qed.
Lemma unsigned_lt w z : to_unsigned w z < 2 ^ w.
Proof.
  unfold to_unsigned. assert (P : (0 < 2 ^ Z.of_N w)%Z) by (apply Z.pow_pos_nonneg; lia). pose proof (Z.mod_pos_bound z _ P) as [A B].
  apply N2Z.inj_lt. rewrite Z2N.id by exact A. rewrite N2Z.inj_pow. exact B.
Qed.
Lemma unsigned_all w l : Forall (fun d => d < 2 ^ w) l -> map (to_unsigned w) (map Z.of_N l) = l.
Proof. induction 1 as [|x l H _ IH]; [reflexivity|]. cbn [map]. rewrite IH, unsigned_of by exact H. reflexivity. Qed.
Lemma pack_any e kt sz zs : std_width kt -> std_width (sz * kt) -> (2 <= sz)%nat -> length zs = sz ->
  exists v, bit_pack (wbits (sz * kt)) zs = Some v /\ v < 2 ^ wbits (sz * kt) /\
            bit_unpack e (wbits (sz * kt)) (wbits kt) v = Some (map (to_unsigned (wbits kt)) zs).
Proof.
  intros Hk Hf Hs Hl. rewrite bit_pack_body by (assumption || lia).
  destruct (pack_body_exists kt sz (map (to_unsigned (wbits kt)) zs) Hk Hf Hs) as (v & Hv); [rewrite map_length; exact Hl|].
  exists v. split; [exact Hv|]. apply (pack_unpack e kt sz _ v Hk Hf); [rewrite map_length; exact Hl| |exact Hv].
  apply Forall_forall. intros x Hx. apply in_map_iff in Hx. destruct Hx as (z & <- & _). apply unsigned_lt.
Qed.
Lemma unpack_then_pack e kt sz x : std_width kt -> std_width (sz * kt) -> (2 <= sz)%nat -> x < 2 ^ wbits (sz * kt) ->
  exists l, bit_unpack e (wbits (sz * kt)) (wbits kt) x = Some l /\
            Forall (fun d => d < 2 ^ wbits kt) l /\ length l = sz /\
            bit_pack (wbits (sz * kt)) (map Z.of_N l) = Some x.
Proof.
  intros Hk Hf Hs Hx. destruct (unpack_pack e kt sz x Hk Hf Hs Hx) as (l & A & B & C & D). exists l. repeat split; try assumption.
  rewrite (bit_pack_body kt sz) by (rewrite ?map_length; lia || assumption). rewrite unsigned_all by exact B. exact D.
Qed.
Lemma pack_counts w_to zs v : bit_pack w_to zs = Some v ->
  w_to = 16 /\ length zs = 2%nat \/ w_to = 32 /\ (length zs = 2 \/ length zs = 4)%nat \/
  w_to = 64 /\ (length zs = 2 \/ length zs = 4 \/ length zs = 8)%nat.
Proof.
  unfold bit_pack. generalize (w_to / len zs) as k. intros k. unfold pack_body.
  destruct zs as [|a0 [|a1 [|a2 [|a3 [|a4 [|a5 [|a6 [|a7 [|a8 zs]]]]]]]]]; cbn [map]; try discriminate; cbn [length].
  all: destruct (N.eqb_spec w_to 16), (N.eqb_spec w_to 32), (N.eqb_spec w_to 64); cbn [andb]; try discriminate; tauto.
Qed.

(** ** bit_mask *)

Lemma positive_word_w s : positive_shape s -> 0 < word_w s.
Proof. induction s as [w|n s IH]; cbn; tauto. Qed.
Lemma num_digits_words s : num_digits s = N.of_nat (num_words s) * word_w s.
Proof. induction s as [w|n s IH]; cbn [num_digits num_words word_w]; [lia|]. rewrite IH. lia. Qed.
Lemma positive_digits s : positive_shape s -> 0 < num_digits s.
Proof. induction s as [w|n s IH]; cbn [positive_shape num_digits]; [tauto|]. intros (Hn & Hs). specialize (IH Hs). nia. Qed.

Lemma array_bit_app w l1 l2 i : 0 < w ->
  array_bit w (l1 ++ l2) i = if i <? len l1 * w then array_bit w l1 i else array_bit w l2 (i - len l1 * w).
Proof.
  intros Hw. unfold array_bit. destruct (N.ltb_spec i (len l1 * w)) as [H|H].
  - rewrite rd_app1; [reflexivity|]. apply N.div_lt_upper_bound; lia.
  - rewrite rd_app2 by (apply N.div_le_lower_bound; lia).
    assert (E : i = len l1 * w + (i - len l1 * w)) by lia.
    generalize dependent (i - len l1 * w). intros j E. rewrite E in *. clear E.
    rewrite N.div_add_l by lia. rewrite (N.add_comm _ j), N.mod_add by lia.
    rewrite N.add_comm, N.add_sub. reflexivity.
Qed.
Lemma array_bit_zeros w n i : array_bit w (repeat 0 n) i = false.
Proof.
  unfold array_bit. rewrite rd_nth_error. destruct (nth_error (repeat 0 n) _) as [x|] eqn:E; [|reflexivity].
  apply nth_error_In, repeat_spec in E. subst x. apply N.bits_0.
Qed.

Definition mask_like (s : shape) (l : list N) (f : N -> bool) : Prop :=
  length l = num_words s /\ Forall (fun x => x < 2 ^ word_w s) l /\
  forall i, i < num_digits s -> array_bit (word_w s) l i = f i.

Lemma array_bit_repeat_full s full q : positive_shape s -> mask_like s full (fun _ => true) ->
  forall i, i < N.of_nat q * num_digits s -> array_bit (word_w s) (concat (repeat full q)) i = true.
Proof.
  intros Hs (Hl & Hb & Hi). induction q as [|q IH]; intros i H; [lia|].
  cbn [repeat concat]. rewrite array_bit_app by (apply positive_word_w; exact Hs).
  unfold len. rewrite Hl. rewrite <- num_digits_words.
  destruct (N.ltb_spec i (num_digits s)); [apply Hi; assumption|]. apply IH. lia.
Qed.
Lemma length_concat_repeat {A} (l : list A) q : length (concat (repeat l q)) = (q * length l)%nat.
Proof. induction q as [|q IH]; [reflexivity|]. cbn [repeat concat]. rewrite app_length, IH. lia. Qed.
Lemma Forall_concat_repeat {A} (P : A -> Prop) l q : Forall P l -> Forall P (concat (repeat l q)).
Proof. intros H. induction q as [|q IH]; cbn [repeat concat]; [constructor|]. apply Forall_app. split; assumption. Qed.

Lemma mask_bits_ok pl s : positive_shape s -> forall b, b <= num_digits s ->
  exists l, mask_bits pl s b = Some l /\ mask_like s l (fun i => i <? b).
Proof.
  induction s as [w|n s IH]; intros Hs b Hb; cbn [positive_shape num_digits mask_bits word_w] in *.
  - destruct (N.eqb_spec b w) as [->|E].
    + eexists. split; [reflexivity|]. split; [reflexivity|]. cbn [word_w num_digits].
      split; [repeat constructor; apply ones_lt|]. intros i Hi. unfold array_bit.
      rewrite N.div_small, N.mod_small by exact Hi. change (rd [N.ones w] 0) with (Some (N.ones w)). cbv iota.
      apply testbit_ones.
    + unfold shl. assert (Hp : b <? promoted_w pl w = true) by (unfold promoted_w; apply N.ltb_lt; lia).
      rewrite Hp. eexists. split; [reflexivity|]. split; [reflexivity|]. cbn [word_w num_digits].
      assert (Ev : wrap w (wrap w (wrap (promoted_w pl w) (N.shiftl 1 b)) + (2 ^ w - 1)) = N.ones b).
      { assert (P1 : 2 ^ b < 2 ^ w) by (apply npow2_lt; lia).
        assert (P2 : 2 ^ w <= 2 ^ promoted_w pl w) by (apply npow2_le; unfold promoted_w; lia).
        pose proof (npow2_pos b) as P3.
        unfold wrap. rewrite N.shiftl_mul_pow2, N.mul_1_l.
        rewrite (N.mod_small (2 ^ b) (2 ^ promoted_w pl w)) by lia. rewrite (N.mod_small (2 ^ b) (2 ^ w)) by lia.
        replace (2 ^ b + (2 ^ w - 1)) with (2 ^ b - 1 + 1 * 2 ^ w) by lia.
        rewrite N.mod_add by apply npow2_nz. rewrite N.mod_small by lia. rewrite N.ones_equiv. lia. }
      rewrite Ev. split.
      * repeat constructor. pose proof (ones_lt b). pose proof (npow2_lt b w ltac:(lia)). lia.
      * intros i Hi. unfold array_bit. rewrite N.div_small, N.mod_small by exact Hi.
        change (rd [N.ones b] 0) with (Some (N.ones b)). cbv iota. apply testbit_ones.
  - destruct Hs as (Hn & Hs). pose proof (positive_digits s Hs) as HD. pose proof (positive_word_w s Hs) as Hw.
    set (D := num_digits s) in *.
    destruct (IH Hs D (N.le_refl _)) as (full & -> & Hfull).
    assert (Hdm : b = D * (b / D) + b mod D) by (apply N.div_mod; lia).
    assert (Hrem : b mod D < D) by (apply N.mod_lt; lia).
    assert (Hfull' : mask_like s full (fun _ => true)).
    { destruct Hfull as (F1 & F2 & F3). split; [exact F1|split; [exact F2|]]. intros i Hi. rewrite F3 by exact Hi. apply N.ltb_lt. exact Hi. }
    set (q := b / D) in *. set (r := b mod D) in *.
    assert (Hlast : exists last, (if r =? 0 then Some [] else mask_bits pl s r) = Some last /\
      (length last = (if (r =? 0)%N then 0 else 1) * num_words s)%nat /\ Forall (fun x => x < 2 ^ word_w s) last /\
      (r <> 0 -> forall i, i < D -> array_bit (word_w s) last i = (i <? r))).
    { destruct (N.eqb_spec r 0) as [E|E].
      - exists []. split; [reflexivity|split; [reflexivity|split; [constructor|]]]. intros; lia.
      - destruct (IH Hs r ltac:(lia)) as (last & E1 & E2 & E3 & E4). exists last. split; [exact E1|].
        split; [rewrite E2; lia|]. split; [exact E3|]. intros _ i Hi. apply E4. exact Hi. }
    destruct Hlast as (last & -> & Hll & Hlb & Hli).
    assert (Hu : (N.to_nat q + (if (r =? 0)%N then 0 else 1) <=? n)%nat = true).
    { apply Nat.leb_le. destruct (N.eqb_spec r 0); nia. }
    rewrite Hu. apply Nat.leb_le in Hu. set (u := (if (r =? 0)%N then 0 else 1)%nat) in *.
    destruct Hfull' as (F1 & F2 & F3).
    eexists. split; [reflexivity|]. split.
    { rewrite !app_length, length_concat_repeat, repeat_length, Hll, F1. cbn [num_words]. nia. }
    split.
    { cbn [word_w]. apply Forall_app. split; [apply Forall_concat_repeat; exact F2|]. apply Forall_app. split; [exact Hlb|].
      apply Forall_forall. intros x Hx. apply repeat_spec in Hx. subst x. apply npow2_pos. }
    intros i Hi. cbn [num_digits word_w] in *. fold D in Hi.
    rewrite array_bit_app by exact Hw.
    assert (E1 : len (concat (repeat full (N.to_nat q))) * word_w s = q * D).
    { unfold len. rewrite length_concat_repeat, F1. unfold D. rewrite num_digits_words. lia. }
    rewrite E1. destruct (N.ltb_spec i (q * D)) as [Hlt|Hge].
    { rewrite (array_bit_repeat_full s full (N.to_nat q)); [|exact Hs|split; [exact F1|split; [exact F2|exact F3]]|fold D; lia].
      symmetry. apply N.ltb_lt. lia. }
    rewrite array_bit_app by exact Hw. rewrite array_bit_zeros.
    assert (E2 : len last * word_w s = N.of_nat u * D).
    { unfold len. rewrite Hll. unfold D. rewrite num_digits_words. lia. }
    rewrite E2. destruct (N.ltb_spec (i - q * D) (N.of_nat u * D)) as [Hlt|Hge2].
    { subst u. destruct (N.eqb_spec r 0) as [Er|Er]; [lia|].
      rewrite Hli by (try exact Er; lia). destruct (N.ltb_spec (i - q * D) r), (N.ltb_spec i b); lia || reflexivity. }
    symmetry. apply N.ltb_ge. subst u. destruct (N.eqb_spec r 0); lia.
Qed.

Lemma map2_length {A B C} (f : A -> B -> C) : forall l1 l2, length l1 = length l2 -> length (map2 f l1 l2) = length l1.
Proof. induction l1 as [|a l1 IH]; intros [|b l2] H; try discriminate; [reflexivity|]. cbn [map2 length]. rewrite IH; [reflexivity|]. cbn in H. lia. Qed.
Lemma nth_map2 {A B C} (f : A -> B -> C) : forall l1 l2 i,
  nth_error (map2 f l1 l2) i = match nth_error l1 i, nth_error l2 i with Some a, Some b => Some (f a b) | _, _ => None end.
Proof.
  induction l1 as [|a l1 IH]; intros [|b l2] [|i]; cbn [map2 nth_error]; try reflexivity.
  - destruct (nth_error l1 i); reflexivity.
  - apply IH.
Qed.
Lemma Forall_map2_lxor w : forall l1 l2, Forall (fun x => x < 2 ^ w) l1 -> Forall (fun x => x < 2 ^ w) l2 ->
  Forall (fun x => x < 2 ^ w) (map2 N.lxor l1 l2).
Proof.
  induction l1 as [|a l1 IH]; intros [|b l2] H1 H2; cbn [map2]; try constructor.
  - inversion H1; inversion H2; subst. apply lxor_lt; assumption.
  - inversion H1; inversion H2; subst. apply IH; assumption.
Qed.

Lemma bit_mask_ok pl s msb lsb : positive_shape s -> lsb <= msb -> msb < num_digits s ->
  exists l, bit_mask pl s msb lsb = Some l /\ length l = num_words s /\
    Forall (fun x => x < 2 ^ word_w s) l /\
    forall i, i < num_digits s -> array_bit (word_w s) l i = (lsb <=? i) && (i <=? msb).
Proof.
  intros Hs H1 H2. unfold bit_mask.
  destruct (mask_bits_ok pl s Hs (msb + 1) ltac:(lia)) as (x & -> & X1 & X2 & X3).
  destruct (mask_bits_ok pl s Hs lsb ltac:(lia)) as (y & -> & Y1 & Y2 & Y3).
  exists (map2 N.lxor x y). split; [reflexivity|]. split; [rewrite map2_length; congruence|].
  split; [apply Forall_map2_lxor; assumption|].
  intros i Hi. specialize (X3 i Hi). specialize (Y3 i Hi). unfold array_bit in *. rewrite rd_nth_error in *. rewrite nth_map2.
  assert (Hlt : (N.to_nat (i / word_w s) < num_words s)%nat).
  { rewrite num_digits_words in Hi. pose proof (positive_word_w s Hs).
    assert (i / word_w s < N.of_nat (num_words s)) by (apply N.div_lt_upper_bound; lia). lia. }
  destruct (nth_error x _) as [a|] eqn:Ea; [|apply nth_error_None in Ea; lia].
  destruct (nth_error y _) as [b|] eqn:Eb; [|apply nth_error_None in Eb; lia].
  rewrite N.lxor_spec, X3, Y3.
  destruct (N.ltb_spec i (msb + 1)), (N.ltb_spec i lsb), (N.leb_spec lsb i), (N.leb_spec i msb); try lia; reflexivity.
Qed.

(** ** bit_destructure *)
Lemma word_mask pl w m : 0 < w -> m < w ->
  exists x, bit_mask pl (Word w) m 0 = Some [x] /\ forall t, t < 2 ^ w -> N.land t x = t mod 2 ^ (m + 1).
Proof.
  intros Hw Hm. destruct (bit_mask_ok pl (Word w) m 0 Hw ltac:(lia) Hm) as (l & E & Hl & Hb & Hi).
  destruct l as [|x [|y l]]; try discriminate Hl. exists x. split; [exact E|].
  intros t Ht. apply N.bits_inj. intros i. rewrite N.land_spec, testbit_mod.
  destruct (N.lt_ge_cases i w) as [H|H].
  - specialize (Hi i H). unfold array_bit in Hi. cbn [word_w] in Hi.
    rewrite N.div_small, N.mod_small in Hi by exact H. change (rd [x] 0) with (Some x) in Hi. cbv iota in Hi.
    rewrite Hi. destruct (N.leb_spec 0 i), (N.leb_spec i m), (N.ltb_spec i (m + 1)); try lia; cbn [andb];
      rewrite ?andb_true_r, ?andb_false_r; reflexivity.
  - rewrite (testbit_high t w) by assumption. symmetry. apply andb_false_r.
Qed.

Lemma increasing_le lo offs : increasing lo offs = true -> forall o, In o offs -> lo < o.
Proof.
  revert lo. induction offs as [|a r IH]; intros lo H o Ho; [contradiction|].
  cbn [increasing] in H. apply andb_true_iff in H as (H1 & H2). apply N.ltb_lt in H1.
  destruct Ho as [->|Ho]; [exact H1|]. specialize (IH _ H2 _ Ho). lia.
Qed.

Lemma extract_all_ok pl w T : 0 < w -> w < size_mod -> T < 2 ^ w -> forall offs p sh lo,
  p + sh = lo -> increasing lo offs = true -> Forall (fun o => o <= w) offs ->
  extract_all pl w sh (diffs lo offs) (T / 2 ^ p) = Some (slices T lo offs).
Proof.
  intros Hw HM HT. induction offs as [|o r IH]; intros p sh lo Hp Hinc Hle; [reflexivity|].
  cbn [diffs extract_all slices increasing] in *. apply andb_true_iff in Hinc as (H1 & H2). apply N.ltb_lt in H1.
  inversion Hle as [|? ? Ho Hr]; subst.
  set (lo := p + sh) in *.
  assert (Ef : (o + size_mod - lo) mod size_mod = o - lo).
  { replace (o + size_mod - lo) with (o - lo + 1 * size_mod) by lia. rewrite N.mod_add by lia. apply N.mod_small. lia. }
  assert (Em : (o - lo + size_mod - 1) mod size_mod = o - lo - 1).
  { replace (o - lo + size_mod - 1) with (o - lo - 1 + 1 * size_mod) by lia. rewrite N.mod_add by lia. apply N.mod_small. lia. }
  rewrite Ef. unfold shift_extract, shr.
  assert (Hsh : sh <? promoted_w pl w = true) by (apply N.ltb_lt; unfold promoted_w; lia).
  rewrite Hsh, Em. assert (Hm : o - lo - 1 <? w = true) by (apply N.ltb_lt; lia). rewrite Hm.
  destruct (word_mask pl w (o - lo - 1) Hw ltac:(lia)) as (x & -> & Hx).
  rewrite N.shiftr_div_pow2, N.div_div by apply npow2_nz. rewrite <- N.pow_add_r. fold lo.
  assert (Ht : T / 2 ^ lo < 2 ^ w) by (apply N.le_lt_trans with T; [apply N.div_le_upper_bound; [apply npow2_nz|pose proof (npow2_pos lo); nia]|exact HT]).
  rewrite Hx by exact Ht. rewrite (IH lo (o - lo) o) by (assumption || lia).
  unfold slice. replace (o - lo - 1 + 1) with (o - lo) by lia. reflexivity.
Qed.

Lemma bit_destructure_ok pl w offs T : 0 < w -> w < size_mod -> T < 2 ^ w ->
  increasing 0 (offs ++ [w]) = true ->
  bit_destructure pl w offs T = Some (slices T 0 (offs ++ [w])).
Proof.
  intros Hw HM HT Hinc. unfold bit_destructure. rewrite <- (N.div_1_r T) at 1. change 1 with (2 ^ 0).
  apply extract_all_ok; try assumption; [reflexivity|].
  clear -Hinc. revert Hinc. generalize 0. induction offs as [|a r IH]; intros lo H.
  - repeat constructor. lia.
  - cbn [app increasing] in H. apply andb_true_iff in H as (H1 & H2). constructor; [|apply (IH a); exact H2].
    apply N.lt_le_incl. apply (increasing_le a (r ++ [w])); [exact H2|]. apply in_or_app. right. left. reflexivity.
Qed.

Lemma extract_all_increasing pl w : 0 < w -> forall offs sh lo t l,
  Forall (fun o => o + w + 1 < size_mod) offs -> lo + w + 1 < size_mod ->
  extract_all pl w sh (diffs lo offs) t = Some l -> increasing lo offs = true.
Proof.
  intros Hw. induction offs as [|o r IH]; intros sh lo t l Hf Hlo H; [reflexivity|].
  cbn [diffs extract_all increasing] in *. inversion Hf as [|? ? Ho Hr]; subst.
  unfold shift_extract in H. destruct (shr _ t sh) as [t'|]; [|discriminate].
  destruct (N.ltb_spec lo o) as [Hlt|Hge].
  - cbn [andb]. destruct (_ <? w); [|discriminate]. destruct (bit_mask _ _ _ _) as [[|x [|y m]]|]; try discriminate.
    destruct (extract_all _ _ _ _ _) as [l'|] eqn:E in H; [|discriminate]. eapply IH; [exact Hr| |exact E]. exact Ho.
  - exfalso. destruct (N.ltb_spec (((o + size_mod - lo) mod size_mod + size_mod - 1) mod size_mod) w) as [Hc|Hc]; [|discriminate].
    destruct (N.eq_dec o lo) as [->|Hne].
    + replace (lo + size_mod - lo) with (0 + 1 * size_mod) in Hc by lia. rewrite N.mod_add, N.mod_0_l in Hc by lia.
      rewrite N.mod_small in Hc by lia. lia.
    + rewrite (N.mod_small (o + size_mod - lo)) in Hc by lia.
      replace (o + size_mod - lo + size_mod - 1) with (o + size_mod - lo - 1 + 1 * size_mod) in Hc by lia.
      rewrite N.mod_add, N.mod_small in Hc by lia. lia.
Qed.

Lemma slices_reassemble T : forall offs lo last, increasing lo (offs ++ [last]) = true ->
  T mod 2 ^ lo + reassemble lo (offs ++ [last]) (slices T lo (offs ++ [last])) = T mod 2 ^ last.
Proof.
  assert (Hone : forall lo o, lo < o -> T mod 2 ^ lo + slice T lo o * 2 ^ lo = T mod 2 ^ o).
  { intros lo o H. unfold slice. replace (2 ^ o) with (2 ^ lo * 2 ^ (o - lo)) by (rewrite <- N.pow_add_r; f_equal; lia).
    rewrite N.mod_mul_r by apply npow2_nz. lia. }
  induction offs as [|o r IH]; intros lo last H; cbn [app increasing slices reassemble] in *;
    apply andb_true_iff in H as (H1 & H2); apply N.ltb_lt in H1.
  - rewrite N.add_0_r. apply Hone. exact H1.
  - rewrite N.add_assoc, Hone by exact H1. apply IH. exact H2.
Qed.
Lemma destructure_reassemble w offs T : T < 2 ^ w -> increasing 0 (offs ++ [w]) = true ->
  reassemble 0 (offs ++ [w]) (slices T 0 (offs ++ [w])) = T.
Proof.
  intros HT H. pose proof (slices_reassemble T offs 0 w H) as E. rewrite N.mod_1_r, N.add_0_l in E.
  rewrite E. apply N.mod_small. exact HT.
Qed.
Lemma num_words_words s : num_words s = words_of s.
Proof. induction s as [w|n t IH]; [reflexivity|]. cbn [num_words words_of]. rewrite IH. reflexivity. Qed.
Lemma num_digits_bits s : num_digits s = bits_of s.
Proof. unfold bits_of. induction s as [w|n t IH]; cbn [num_digits words_of word_w]; [lia|]. rewrite IH, Nat2N.inj_mul. lia. Qed.
