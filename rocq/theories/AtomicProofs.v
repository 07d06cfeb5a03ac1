(** Proofs about atomic<T>. *)
From Verif Require Import Base BaseLemmas BitModel BitLemmas ConcModel ConcSpec ConcProofs AtomicModel AtomicSpec.
From Coq Require Import Permutation.
Open Scope N_scope.

Lemma two_pow_pos k : 0 < 2 ^ k.
Proof. apply N.neq_0_lt_0, N.pow_nonzero. lia. Qed.
Lemma mod_mod_pow a w ew : w <= ew -> (a mod 2 ^ ew) mod 2 ^ w = a mod 2 ^ w.
Proof.
  intros H. apply N.bits_inj. intros i. rewrite !testbit_mod. destruct (N.ltb_spec i w); [|reflexivity].
  destruct (N.ltb_spec i ew); [reflexivity|lia].
Qed.
Lemma land_mod a b w : N.land a b mod 2 ^ w = N.land (a mod 2 ^ w) (b mod 2 ^ w).
Proof. apply N.bits_inj. intros i. rewrite testbit_mod, !N.land_spec, !testbit_mod. destruct (i <? w), (N.testbit a i), (N.testbit b i); reflexivity. Qed.
Lemma lor_mod a b w : N.lor a b mod 2 ^ w = N.lor (a mod 2 ^ w) (b mod 2 ^ w).
Proof. apply N.bits_inj. intros i. rewrite testbit_mod, !N.lor_spec, !testbit_mod. destruct (i <? w), (N.testbit a i), (N.testbit b i); reflexivity. Qed.
Lemma lxor_mod a b w : N.lxor a b mod 2 ^ w = N.lxor (a mod 2 ^ w) (b mod 2 ^ w).
Proof. apply N.bits_inj. intros i. rewrite testbit_mod, !N.lxor_spec, !testbit_mod. destruct (i <? w), (N.testbit a i), (N.testbit b i); reflexivity. Qed.

Lemma Zmod_pow_mod (x : Z) w ew : w <= ew -> Z.to_N (x mod 2 ^ Z.of_N ew) mod 2 ^ w = Z.to_N (x mod 2 ^ Z.of_N w).
Proof.
  intros H. apply N2Z.inj. rewrite N2Z.inj_mod, N2Z.inj_pow. change (Z.of_N 2) with 2%Z.
  assert (P1 : (0 < 2 ^ Z.of_N ew)%Z) by (apply Z.pow_pos_nonneg; lia). assert (P2 : (0 < 2 ^ Z.of_N w)%Z) by (apply Z.pow_pos_nonneg; lia).
  rewrite !Z2N.id by (apply Z.mod_pos_bound; assumption).
  replace (2 ^ Z.of_N ew)%Z with (2 ^ Z.of_N w * 2 ^ (Z.of_N ew - Z.of_N w))%Z by (rewrite <- Z.pow_add_r by lia; f_equal; lia).
  assert (P3 : (0 < 2 ^ (Z.of_N ew - Z.of_N w))%Z) by (apply Z.pow_pos_nonneg; lia).
  rewrite Z.rem_mul_r by lia. rewrite Z.mul_comm, Z.mod_add by lia. apply Z.mod_mod. lia.
Qed.
Lemma value_mod k s v : (value k s v mod 2 ^ Z.of_N k)%Z = (Z.of_N v mod 2 ^ Z.of_N k)%Z.
Proof.
  unfold value. destruct (s && _); [|reflexivity]. assert (P : (0 < 2 ^ Z.of_N k)%Z) by (apply Z.pow_pos_nonneg; lia).
  replace (Z.of_N v - 2 ^ Z.of_N k)%Z with (Z.of_N v + (-1) * 2 ^ Z.of_N k)%Z by lia. apply Z.mod_add. lia.
Qed.
Lemma toN_mod (a : N) k : Z.to_N (Z.of_N a mod 2 ^ Z.of_N k) = a mod 2 ^ k.
Proof. apply N2Z.inj. rewrite N2Z.inj_mod, N2Z.inj_pow, Z2N.id; [reflexivity|]. apply Z.mod_pos_bound, Z.pow_pos_nonneg; lia. Qed.
Lemma sub_toN m v k : v < 2 ^ k -> Z.to_N ((Z.of_N m - Z.of_N v) mod 2 ^ Z.of_N k) = (m + (2 ^ k - v)) mod 2 ^ k.
Proof.
  intros H. rewrite <- toN_mod. f_equal. assert (P : (0 < 2 ^ Z.of_N k)%Z) by (apply Z.pow_pos_nonneg; lia).
  rewrite N2Z.inj_add, N2Z.inj_sub, N2Z.inj_pow by lia. change (Z.of_N 2) with 2%Z.
  replace (Z.of_N m + (2 ^ Z.of_N k - Z.of_N v))%Z with (Z.of_N m - Z.of_N v + 1 * 2 ^ Z.of_N k)%Z by lia. rewrite Z.mod_add by lia. reflexivity.
Qed.

Lemma plus_ok iw w sg a b : (sg = false \/ w < iw) -> plus iw w sg a b = Some ((a + b) mod 2 ^ w).
Proof.
  intros H. unfold plus, overflows. replace (sg && (iw <=? w)) with false.
  2:{ destruct H as [->|H]; [reflexivity|]. destruct (N.leb_spec iw w); [lia|]. destruct sg; reflexivity. }
  cbn [andb]. f_equal. rewrite Z.add_mod by (apply Z.pow_nonzero; lia). rewrite !value_mod, <- Z.add_mod by (apply Z.pow_nonzero; lia).
  rewrite <- N2Z.inj_add. apply toN_mod.
Qed.
Lemma minus_ok iw w sg a b : (sg = false \/ w < iw) -> b < 2 ^ w -> minus iw w sg a b = Some ((a + (2 ^ w - b)) mod 2 ^ w).
Proof.
  intros H Hb. unfold minus, overflows. replace (sg && (iw <=? w)) with false.
  2:{ destruct H as [->|H]; [reflexivity|]. destruct (N.leb_spec iw w); [lia|]. destruct sg; reflexivity. }
  cbn [andb]. f_equal. rewrite Zminus_mod, !value_mod, <- Zminus_mod. apply sub_toN. exact Hb.
Qed.

Section A.
Context (iw w ew : N) (sg esg : bool).
Context (Hw : 0 < w) (Hew : w <= ew).

Notation R := (word_holds w ew).

Lemma w_pow_le : 2 ^ w <= 2 ^ ew.
Proof. apply N.pow_le_mono_r; lia. Qed.
Lemma elem_lt v : v < 2 ^ w -> to_elem w ew sg v < 2 ^ ew.
Proof. pose proof w_pow_le. intros H1. unfold to_elem. destruct (sg && _); [apply mod_pow2_lt|lia]. Qed.
Lemma elem_wrap v : v < 2 ^ w -> wrap ew (to_elem w ew sg v) = to_elem w ew sg v.
Proof. intros H. apply N.mod_small, elem_lt, H. Qed.
Lemma elem_mod v : v < 2 ^ w -> to_elem w ew sg v mod 2 ^ w = v.
Proof.
  pose proof w_pow_le. intros H1. unfold to_elem. destruct (sg && _); [|apply N.mod_small; exact H1].
  unfold wrap. rewrite mod_mod_pow by exact Hew.
  replace (2 ^ ew) with (2 ^ (ew - w) * 2 ^ w) by (rewrite <- N.pow_add_r; f_equal; lia).
  assert (0 < 2 ^ (ew - w)) by apply two_pow_pos. pose proof (two_pow_pos w).
  replace (v + 2 ^ (ew - w) * 2 ^ w - 2 ^ w) with (v + (2 ^ (ew - w) - 1) * 2 ^ w) by nia.
  rewrite N.mod_add by lia. apply N.mod_small. exact H1.
Qed.
Lemma add_ok mem v e : e mod 2 ^ w = v mod 2 ^ w -> wrap ew (mem + e) mod 2 ^ w = (mem mod 2 ^ w + v) mod 2 ^ w.
Proof.
  intros E. unfold wrap. rewrite mod_mod_pow by exact Hew. pose proof (two_pow_pos w). rewrite N.add_mod by lia. rewrite E.
  rewrite <- N.add_mod by lia. rewrite N.add_mod_idemp_l by lia. reflexivity.
Qed.
Lemma sub_ok mem v e : e < 2 ^ ew -> v < 2 ^ w -> e mod 2 ^ w = v -> wrap ew (mem + 2 ^ ew - e) mod 2 ^ w = (mem mod 2 ^ w + (2 ^ w - v)) mod 2 ^ w.
Proof.
  intros He Hv E. unfold wrap. rewrite mod_mod_pow by exact Hew. pose proof (two_pow_pos w). pose proof w_pow_le.
  rewrite N.add_mod_idemp_l by lia. replace (mem + 2 ^ ew - e) with (mem + (2 ^ ew - e)) by lia.
  rewrite N.add_mod by lia. rewrite (N.add_mod mem (2 ^ w - v)) by lia. f_equal. f_equal.
  (* (2^ew - e) mod 2^w = (2^w - v) mod 2^w *)
  replace (2 ^ ew) with (2 ^ (ew - w) * 2 ^ w) in * by (rewrite <- N.pow_add_r; f_equal; lia).
  pose proof (N.div_mod e (2 ^ w) ltac:(lia)) as Hd. rewrite E in Hd. set (q := e / 2 ^ w) in *. set (A := 2 ^ (ew - w)) in *. set (B := 2 ^ w) in *.
  assert (q < A) by nia. replace (A * B - e) with (B - v + (A - q - 1) * B) by nia. apply N.mod_add. lia.
Qed.

End A.

Lemma total_perm a b : Permutation a b -> total_delta a = total_delta b.
Proof.
  intros H. unfold total_delta. induction H; cbn [fold_right]; [reflexivity| | |congruence].
  - destruct (delta x); rewrite IHPermutation; reflexivity.
  - destruct (delta x), (delta y); lia.
Qed.

Lemma NoDup_map_inj {A B} (f : A -> B) l : (forall x y, In x l -> In y l -> f x = f y -> x = y) -> NoDup l -> NoDup (map f l).
Proof.
  intros Hf H. induction H as [|x l Hx Hl IH]; cbn [map]; constructor.
  - intros Hin. apply in_map_iff in Hin as (y & E & Hy). apply Hx. rewrite (Hf x y); [exact Hy|left; reflexivity|right; exact Hy|symmetry; exact E].
  - apply IH. intros a b Ha Hb. apply Hf; right; assumption.
Qed.

Section B.
Context (iw w ew : N) (sg esg : bool).
Context (Hw : 0 < w) (Hew : w <= ew).
Notation R := (word_holds w ew).
Notation defined := (call_ok iw w ew sg esg).

Lemma single op : defined op -> exists p k, acode iw w ew sg esg op = Do p k /\
  forall mem m, R mem m -> exists o m', k (snd (exec_prim ew p mem)) = Ret o /\ aspec w m op o m' /\ R (fst (exec_prim ew p mem)) m'.
Proof.
  intros (Harg & Hsum). pose proof (two_pow_pos w) as P. pose proof (two_pow_pos ew) as Pe. pose proof (w_pow_le w ew Hw Hew) as Pl.
  assert (One : 1 < 2 ^ w) by (apply N.pow_gt_1; lia).
  assert (W1 : wrap ew 1 = 1) by (apply N.mod_small; lia).
  assert (M1 : 1 mod 2 ^ w = 1) by (apply N.mod_small; lia).
  destruct op; cbn [argument returns_sum] in *; do 2 eexists; (split; [reflexivity|]); intros mem m (Hm & ->);
    cbn [exec_prim fst snd]; unfold to_t; try rewrite (elem_wrap w ew sg Hw Hew) by exact Harg;
    try (pose proof (elem_lt w ew sg Hw Hew _ Harg) as He; pose proof (elem_mod w ew sg Hw Hew _ Harg) as Em).
  - do 2 eexists. split; [reflexivity|]. split; [reflexivity|]. split; [assumption|reflexivity].
  - do 2 eexists. split; [reflexivity|]. split; [reflexivity|]. split; [assumption|symmetry; exact Em].
  - do 2 eexists. split; [reflexivity|]. split; [reflexivity|]. split; [assumption|symmetry; exact Em].
  - do 2 eexists. split; [reflexivity|]. split; [reflexivity|]. split; [assumption|symmetry; exact Em].
  - do 2 eexists. split; [reflexivity|]. split; [reflexivity|]. split; [apply mod_pow2_lt|]. symmetry. apply add_ok; [assumption|assumption|]. rewrite Em. symmetry. apply N.mod_small. exact Harg.
  - do 2 eexists. split; [reflexivity|]. split; [reflexivity|]. split; [apply mod_pow2_lt|]. symmetry. apply sub_ok; assumption.
  - destruct (Hsum eq_refl) as (S1 & _). rewrite plus_ok by assumption. do 2 eexists. split; [reflexivity|]. unfold wrap at 1. rewrite N.mod_mod by lia.
    split; [reflexivity|]. split; [apply mod_pow2_lt|]. symmetry. apply add_ok; [assumption|assumption|]. rewrite Em. symmetry. apply N.mod_small. exact Harg.
  - destruct (Hsum eq_refl) as (S1 & _). rewrite minus_ok by assumption. do 2 eexists. split; [reflexivity|]. unfold wrap at 1. rewrite N.mod_mod by lia.
    split; [reflexivity|]. split; [apply mod_pow2_lt|]. symmetry. apply sub_ok; assumption.
  - destruct (Hsum eq_refl) as (_ & S1). rewrite W1. rewrite (plus_ok iw ew esg) by assumption. do 2 eexists. split; [reflexivity|]. fold (wrap ew (mem + 1)).
    unfold wrap at 1. rewrite (add_ok w ew Hw Hew mem 1 1 eq_refl). split; [reflexivity|]. split; [apply mod_pow2_lt|]. symmetry. apply (add_ok w ew Hw Hew mem 1 1 eq_refl).
  - rewrite W1. do 2 eexists. split; [reflexivity|]. split; [reflexivity|]. split; [apply mod_pow2_lt|]. symmetry. apply (add_ok w ew Hw Hew mem 1 1 eq_refl).
  - destruct (Hsum eq_refl) as (_ & S1). rewrite W1. rewrite (minus_ok iw ew esg) by (assumption || lia). do 2 eexists. split; [reflexivity|].
    unfold wrap. replace (mem + (2 ^ ew - 1)) with (mem + 2 ^ ew - 1) by lia. fold (wrap ew (mem + 2 ^ ew - 1)).
    rewrite (sub_ok w ew Hw Hew mem 1 1) by (assumption || lia). split; [reflexivity|]. split; [apply mod_pow2_lt|]. symmetry. apply (sub_ok w ew Hw Hew mem 1 1); (assumption || lia).
  - rewrite W1. do 2 eexists. split; [reflexivity|]. split; [reflexivity|]. split; [apply mod_pow2_lt|]. symmetry. apply (sub_ok w ew Hw Hew mem 1 1); (assumption || lia).
  - do 2 eexists. split; [reflexivity|]. split; [reflexivity|]. split.
    + apply bits_lt. intros i Hi. rewrite N.land_spec, (testbit_high mem ew) by assumption. reflexivity.
    + rewrite land_mod, Em. reflexivity.
  - do 2 eexists. split; [reflexivity|]. split; [reflexivity|]. split.
    + apply bits_lt. intros i Hi. rewrite N.lor_spec, (testbit_high mem ew), (testbit_high _ ew i He) by assumption. reflexivity.
    + rewrite lor_mod, Em. reflexivity.
  - do 2 eexists. split; [reflexivity|]. split; [reflexivity|]. split.
    + apply bits_lt. intros i Hi. rewrite N.lxor_spec, (testbit_high mem ew), (testbit_high _ ew i He) by assumption. reflexivity.
    + rewrite lxor_mod, Em. reflexivity.
  - do 2 eexists. split; [reflexivity|]. split; [reflexivity|]. split.
    + apply bits_lt. intros i Hi. rewrite N.land_spec, (testbit_high mem ew) by assumption. reflexivity.
    + rewrite land_mod, Em. reflexivity.
  - do 2 eexists. split; [reflexivity|]. split; [reflexivity|]. split.
    + apply bits_lt. intros i Hi. rewrite N.lor_spec, (testbit_high mem ew), (testbit_high _ ew i He) by assumption. reflexivity.
    + rewrite lor_mod, Em. reflexivity.
  - do 2 eexists. split; [reflexivity|]. split; [reflexivity|]. split.
    + apply bits_lt. intros i Hi. rewrite N.lxor_spec, (testbit_high mem ew), (testbit_high _ ew i He) by assumption. reflexivity.
    + rewrite lxor_mod, Em. reflexivity.
Qed.

(** Additive calls add up. *)
Lemma legal_sum : forall order m m', m < 2 ^ w -> Forall (fun x => argument (fst x) < 2 ^ w /\ delta (fst x) <> None) order -> legal (aspec w) m order m' ->
  Z.of_N m' = ((Z.of_N m + total_delta (map fst order)) mod 2 ^ Z.of_N w)%Z /\ m' < 2 ^ w.
Proof.
  assert (P : (0 < 2 ^ Z.of_N w)%Z) by (apply Z.pow_pos_nonneg; lia). pose proof (two_pow_pos w).
  assert (One : 1 < 2 ^ w) by (apply N.pow_gt_1; lia).
  assert (Zp : Z.of_N (2 ^ w) = (2 ^ Z.of_N w)%Z) by (rewrite N2Z.inj_pow; reflexivity).
  induction order as [|(op, o) order IH]; intros m m' Hm Ha Hl; cbn [legal] in Hl.
  - subst m'. cbn. rewrite Z.add_0_r, Z.mod_small by lia. split; [reflexivity|exact Hm].
  - destruct Hl as (m1 & Hs & Hl). inversion Ha as [|? ? (A1 & A2) Ha']; subst. cbn [fst] in *.
    assert (E1 : exists d, delta op = Some d /\ (Z.of_N m1 = (Z.of_N m + d) mod 2 ^ Z.of_N w)%Z /\ m1 < 2 ^ w).
    { unfold aspec in Hs. destruct op; cbn [delta aeffect argument] in *; try (exfalso; apply A2; reflexivity); injection Hs as -> _; eexists; (split; [reflexivity|]).
      - split; [|exact Hm]. rewrite Z.add_0_r, Z.mod_small by lia. reflexivity.
      - split; [|apply mod_pow2_lt]. rewrite N2Z.inj_mod, Zp, N2Z.inj_add. reflexivity.
      - split; [|apply mod_pow2_lt]. rewrite N2Z.inj_mod, Zp, N2Z.inj_add, N2Z.inj_sub, Zp by lia.
        replace (Z.of_N m + (2 ^ Z.of_N w - Z.of_N v))%Z with (Z.of_N m + - Z.of_N v + 1 * 2 ^ Z.of_N w)%Z by lia. rewrite Z.mod_add by lia. reflexivity.
      - split; [|apply mod_pow2_lt]. rewrite N2Z.inj_mod, Zp, N2Z.inj_add. reflexivity.
      - split; [|apply mod_pow2_lt]. rewrite N2Z.inj_mod, Zp, N2Z.inj_add, N2Z.inj_sub, Zp by lia.
        replace (Z.of_N m + (2 ^ Z.of_N w - Z.of_N v))%Z with (Z.of_N m + - Z.of_N v + 1 * 2 ^ Z.of_N w)%Z by lia. rewrite Z.mod_add by lia. reflexivity.
      - split; [|apply mod_pow2_lt]. rewrite N2Z.inj_mod, Zp, N2Z.inj_add. reflexivity.
      - split; [|apply mod_pow2_lt]. rewrite N2Z.inj_mod, Zp, N2Z.inj_add. reflexivity.
      - split; [|apply mod_pow2_lt]. rewrite N2Z.inj_mod, Zp, N2Z.inj_add, N2Z.inj_sub, Zp by lia.
        replace (Z.of_N m + (2 ^ Z.of_N w - Z.of_N 1))%Z with (Z.of_N m + -1 + 1 * 2 ^ Z.of_N w)%Z by lia. rewrite Z.mod_add by lia. reflexivity.
      - split; [|apply mod_pow2_lt]. rewrite N2Z.inj_mod, Zp, N2Z.inj_add, N2Z.inj_sub, Zp by lia.
        replace (Z.of_N m + (2 ^ Z.of_N w - Z.of_N 1))%Z with (Z.of_N m + -1 + 1 * 2 ^ Z.of_N w)%Z by lia. rewrite Z.mod_add by lia. reflexivity. }
    destruct E1 as (d & Ed & Em1 & Hm1). destruct (IH m1 m' Hm1 Ha' Hl) as (I1 & I2). split; [|exact I2].
    rewrite I1, Em1. cbn [map fst total_delta fold_right]. rewrite Ed. rewrite Z.add_mod_idemp_l by lia. f_equal. unfold total_delta. lia.
Qed.

(** Increments see consecutive values. *)
Lemma legal_increments (op : aop) (shift : N) : (op = APreInc /\ shift = 1) \/ (op = APostInc /\ shift = 0) ->
  forall order m m', m < 2 ^ w -> Forall (fun x => fst x = op) order -> legal (aspec w) m order m' ->
  map snd order = map (fun k => Some ((m + N.of_nat k + shift) mod 2 ^ w)) (seq 0 (length order)).
Proof.
  intros Hop. pose proof (two_pow_pos w). induction order as [|(op', o) order IH]; intros m m' Hm Ha Hl; [reflexivity|].
  inversion Ha; subst. cbn [fst legal map snd length seq] in *. destruct Hl as (m1 & Hs & Hl).
  assert (E : m1 = (m + 1) mod 2 ^ w /\ o = Some ((m + shift) mod 2 ^ w)).
  { unfold aspec in Hs. destruct Hop as [(-> & ->)|(-> & ->)]; cbn [aeffect] in Hs; injection Hs as -> ->; split; try reflexivity.
    rewrite N.add_0_r, N.mod_small by exact Hm. reflexivity. }
  destruct E as (-> & ->). f_equal; [cbn; rewrite N.add_0_r; reflexivity|].
  rewrite (IH ((m + 1) mod 2 ^ w) m' (mod_pow2_lt _ _) H3 Hl). rewrite <- seq_shift, map_map. apply map_ext. intros k.
  f_equal. rewrite <- N.add_assoc, N.add_mod_idemp_l by lia. f_equal. lia.
Qed.
Lemma consecutive_nodup m shift cnt : N.of_nat cnt <= 2 ^ w -> NoDup (map (fun k => Some ((m + N.of_nat k + shift) mod 2 ^ w)) (seq 0 cnt)).
Proof.
  intros Hc. pose proof (two_pow_pos w). apply NoDup_map_inj; [|apply seq_NoDup].
  intros x y Hx Hy E. apply in_seq in Hx, Hy. injection E as E.
  assert (E2 : exists q1 q2 r, m + N.of_nat x + shift = 2 ^ w * q1 + r /\ m + N.of_nat y + shift = 2 ^ w * q2 + r).
  { exists ((m + N.of_nat x + shift) / 2 ^ w), ((m + N.of_nat y + shift) / 2 ^ w), ((m + N.of_nat x + shift) mod 2 ^ w).
    split; [apply N.div_mod; lia|]. rewrite E. apply N.div_mod. lia. }
  destruct E2 as (q1 & q2 & r & A & B). assert (q1 = q2) by nia. subst. lia.
Qed.
End B.
