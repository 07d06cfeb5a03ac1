(** C116: durations and times that count with rollover_t, converted between units. *)
From Verif Require Import Base Ints IntsLemmas RolloverModel RolloverSpec RolloverProofs RollChronoModel RollChronoSpec.
Open Scope Z_scope.

Section S.
Variable iw w : Z.
Hypothesis HP : platform iw w.
Lemma common : common_width 64 w w = 64.
Proof. destruct HP as (_ & H & _). unfold common_width. lia. Qed.
Lemma ok64 : widths_ok 64 iw /\ mul_ok 64 iw.
Proof. destruct HP as (H & _). unfold widths_ok, mul_ok. lia. Qed.
Lemma make_id v x : 0 <= x < 2 ^ v -> r_make v x = x.
Proof. intros H. unfold r_make. rewrite cast_U. now apply Z.mod_small. Qed.
Lemma small x : 0 <= x < 2 ^ w -> 0 <= x < 2 ^ 64.
Proof. destruct HP as (_ & H & _). intros Hx. assert (2 ^ w <= 2 ^ 64) by (apply Z.pow_le_mono_r; lia). lia. Qed.
Lemma shows_bound t : 0 <= shows w t < 2 ^ w.
Proof. destruct HP as (_ & H & _). apply Z.mod_pos_bound. apply Z.pow_pos_nonneg; lia. Qed.
Lemma mod_mod x : (x mod 2 ^ 64) mod 2 ^ w = x mod 2 ^ w.
Proof.
  destruct HP as (_ & H & _). replace (2 ^ 64) with (2 ^ w * 2 ^ (64 - w)) by (rewrite <- Z.pow_add_r by lia; f_equal; lia).
  rewrite Z.rem_mul_r by (apply Z.pow_nonzero || apply Z.pow_pos_nonneg; lia).
  rewrite Z.mul_comm, Z.mod_add by (apply Z.pow_nonzero; lia). apply Z.mod_mod. apply Z.pow_nonzero; lia.
Qed.
Lemma mul64 a b : 0 <= a < 2 ^ 64 -> 0 <= b < 2 ^ 64 -> r_mul 64 iw a b = Some ((a * b) mod 2 ^ 64).
Proof. intros Ha Hb. destruct ok64 as [H1 H2]. unfold r_mul. now apply promoted_mul. Qed.
Lemma div64 a b : 0 <= a < 2 ^ 64 -> 0 < b < 2 ^ 64 -> r_div 64 iw a b = Some (a / b).
Proof.
  intros Ha Hb. destruct ok64 as [H1 _].
  destruct (rollover_ops 64 iw a b 0 H1 ltac:(unfold rv; lia) ltac:(unfold rv; lia)) as (_ & _ & _ & _ & _ & _ & _ & _ & _ & H).
  now apply H; lia.
Qed.
Lemma finer k t : ratio k -> duration_cast iw 64 w w k 1 (shows w t) = Some (shows w (k * t)).
Proof.
  intros Hk. unfold ratio in Hk. assert (2 ^ 64 = 2 * 2 ^ 63) as H64 by reflexivity.
  pose proof (shows_bound t) as Hb. pose proof (small _ Hb) as Hs.
  assert (0 < 2 ^ w) as Hp by lia.
  unfold duration_cast. rewrite common. destruct (Z.eqb_spec k 1) as [-> | Hne].
  - cbn [Z.eqb Pos.eqb]. rewrite Z.mul_1_l, make_id by exact Hb. reflexivity.
  - rewrite !(make_id 64) by lia. rewrite mul64 by lia. cbn [bind Z.eqb Pos.eqb].
    f_equal. unfold r_make, shows. rewrite cast_U, mod_mod. rewrite Zmult_mod_idemp_l. f_equal. lia.
Qed.
Lemma coarser k x : ratio k -> 0 <= x < 2 ^ w -> duration_cast iw 64 w w 1 k x = Some (x / k).
Proof.
  intros Hk Hx. unfold ratio in Hk. assert (2 ^ 64 = 2 * 2 ^ 63) as H64 by reflexivity. pose proof (small _ Hx) as Hs.
  unfold duration_cast. rewrite common. cbn [Z.eqb Pos.eqb]. destruct (Z.eqb_spec k 1) as [-> | Hne].
  - now rewrite Z.div_1_r, make_id.
  - rewrite !(make_id 64) by lia. rewrite div64 by lia. cbn [bind]. f_equal. apply make_id.
    split; [apply Z.div_pos; lia|]. apply Z.le_lt_trans with x; [apply Z.div_le_upper_bound; nia|lia].
Qed.
End S.

(** To a finer unit: the counter shows the time in the finer unit, whatever the time. *)
Theorem C116_finer iw w k t : platform iw w -> ratio k ->
  duration_cast iw 64 w w k 1 (shows w t) = Some (shows w (k * t)).
Proof. intros HP Hk. now apply finer. Qed.
Print Assumptions C116_finer.
(** To a coarser unit: the count is divided, rounding down. *)
Theorem C116_coarser iw w k t : platform iw w -> ratio k -> 0 <= t < 2 ^ w ->
  duration_cast iw 64 w w 1 k (shows w t) = Some (t / k).
Proof. intros HP Hk Ht. unfold shows. rewrite Z.mod_small by lia. now apply coarser. Qed.
Print Assumptions C116_coarser.
(** To a unit that is neither: multiplied, then divided, as long as the product is less than 2^64. *)
Theorem C116_ratio iw w num den t : platform iw w -> ratio num -> ratio den -> 0 <= t < 2 ^ w -> t * num < 2 ^ 64 ->
  duration_cast iw 64 w w num den (shows w t) = Some (shows w (t * num / den)).
Proof.
  intros HP Hn Hd Ht Hm. unfold shows at 1. rewrite Z.mod_small by lia. unfold ratio in *.
  assert (2 ^ 64 = 2 * 2 ^ 63) as H64 by reflexivity. pose proof (small iw w HP _ Ht) as Hs.
  destruct (Z.eqb_spec num 1) as [-> | Hne].
  { rewrite (coarser iw w HP den t Hd Ht). rewrite Z.mul_1_r. unfold shows. f_equal. symmetry. apply Z.mod_small.
    split; [apply Z.div_pos; lia|]. apply Z.le_lt_trans with t; [apply Z.div_le_upper_bound; nia|lia]. }
  unfold duration_cast. rewrite (common iw w HP). destruct (Z.eqb_spec num 1); [lia|].
  rewrite !(make_id 64) by lia. rewrite (mul64 iw w HP) by lia. cbn [bind]. rewrite (Z.mod_small (t * num)) by nia.
  destruct (Z.eqb_spec den 1) as [-> | Hde].
  - rewrite Z.div_1_r. unfold r_make, shows. now rewrite cast_U.
  - rewrite (div64 iw w HP) by nia. cbn [bind]. unfold r_make, shows. now rewrite cast_U.
Qed.
Print Assumptions C116_ratio.
(** Differences are taken in the finer unit, modulo the range, whatever the times. *)
Theorem C116_difference iw w k a b : platform iw w -> ratio k ->
  difference iw 64 w k (shows w a) (shows w b) = Some (shows w (k * a - b)).
Proof.
  intros HP Hk. pose proof HP as (_ & Hw & HI). unfold difference. rewrite (finer iw w HP k a Hk).
  assert (ratio 1) as H1 by (unfold ratio; lia). rewrite (finer iw w HP 1 b H1). cbn [bind]. rewrite Z.mul_1_l.
  destruct (rollover_ops w iw (shows w (k * a)) (shows w b) 0) as (_ & _ & _ & _ & _ & _ & _ & H & _);
    [unfold widths_ok; lia|apply (shows_bound iw w HP)|apply (shows_bound iw w HP)|].
  rewrite H. unfold shows. now rewrite <- Zminus_mod.
Qed.
Print Assumptions C116_difference.
(** Equality of durations in different units is equality of what the finer counter shows. *)
Theorem C116_equal iw w k a b : platform iw w -> ratio k ->
  equal iw 64 w k (shows w a) (shows w b) = Some (shows w (k * a) =? shows w b).
Proof.
  intros HP Hk. unfold equal. rewrite (finer iw w HP k a Hk).
  assert (ratio 1) as H1 by (unfold ratio; lia). rewrite (finer iw w HP 1 b H1). cbn [bind]. now rewrite Z.mul_1_l.
Qed.
Print Assumptions C116_equal.
(** A conversion to a finer unit and back gives the count if and only if the finer counter has not rolled
    over. *)
Theorem C116_round_trip iw w k t : platform iw w -> ratio k -> 0 <= t < 2 ^ w ->
  exists f r, duration_cast iw 64 w w k 1 (shows w t) = Some f /\ duration_cast iw 64 w w 1 k f = Some r /\ (r = t <-> k * t < 2 ^ w).
Proof.
  intros HP Hk Ht. exists (shows w (k * t)), (shows w (k * t) / k).
  pose proof (shows_bound iw w HP (k * t)) as Hb. split; [now apply finer|]. split; [now apply coarser|]. unfold ratio in Hk. split.
  - intros E. destruct (Z.lt_ge_cases (k * t) (2 ^ w)) as [H|H]; [exact H|exfalso].
    assert (shows w (k * t) < k * t).
    { unfold shows. pose proof (Z.mod_pos_bound (k * t) (2 ^ w)). lia. }
    assert (shows w (k * t) / k < t) by (apply Z.div_lt_upper_bound; lia). lia.
  - intros H. unfold shows. rewrite Z.mod_small by nia. rewrite Z.mul_comm. apply Z.div_mul. lia.
Qed.
Print Assumptions C116_round_trip.
Example chrono_ex :
  duration_cast 32 64 32 32 1000 1 3 = Some 3000 /\ duration_cast 32 64 32 32 1 1000 3000 = Some 3 /\
  duration_cast 32 64 16 16 1000 1 66 = Some 464 /\ equal 32 64 32 1000 3 3000 = Some true /\
  duration_cast 32 64 16 16 3 2 7 = Some 10.
Proof. repeat split; vm_compute; reflexivity. Qed.

(** FINDING: time points do not survive the conversion to a coarser unit once the clock has rolled over:
    in the whole cycle after the first rollover the coarser counter shows a wrong time. *)
Theorem C116_coarser_refuted iw w k t : platform iw w -> 1 < k < 2 ^ 63 -> k <= 2 ^ w -> 2 ^ w <= t < 2 * 2 ^ w ->
  exists r, duration_cast iw 64 w w 1 k (shows w t) = Some r /\ r <> shows w (t / k).
Proof.
  intros HP Hk Hkw Ht. pose proof (shows_bound iw w HP t) as Hb.
  exists (shows w t / k). split; [apply coarser; [exact HP|unfold ratio; lia|exact Hb]|].
  assert (shows w t = t - 2 ^ w) as E.
  { unfold shows. replace t with (t - 2 ^ w + 1 * 2 ^ w) at 1 by lia. rewrite Z.mod_add by lia. apply Z.mod_small; lia. }
  rewrite E. unfold shows. rewrite (Z.mod_small (t / k)).
  - assert ((t - 2 ^ w) / k < t / k); [|lia].
    apply Z.div_lt_upper_bound; [lia|].
    pose proof (Z.div_mod t k ltac:(lia)). pose proof (Z.mod_pos_bound t k ltac:(lia)). nia.
  - split; [apply Z.div_pos; lia|]. apply Z.div_lt_upper_bound; nia.
Qed.
Print Assumptions C116_coarser_refuted.
(** FINDING: durations that differ can be equal to the same duration in a finer unit: for every even
    ratio, those half the range apart. *)
Theorem C116_equal_refuted iw w k a : platform iw w -> ratio (2 * k) ->
  let b := shows w (2 * k * a) in
  equal iw 64 w (2 * k) (shows w a) b = Some true /\
  equal iw 64 w (2 * k) (shows w (a + 2 ^ (w - 1))) b = Some true /\
  shows w a <> shows w (a + 2 ^ (w - 1)).
Proof.
  intros HP Hk b. pose proof HP as (_ & Hw & _). pose proof (pow2_split w ltac:(lia)) as Hs. pose proof (pow2_pos (w - 1) ltac:(lia)) as Hp.
  assert (b = shows w b) as Eb by (unfold b, shows; rewrite Z.mod_mod by lia; reflexivity).
  rewrite Eb. rewrite !C116_equal by assumption. rewrite <- Eb. unfold b. rewrite Z.eqb_refl.
  replace (2 * k * (a + 2 ^ (w - 1))) with (2 * k * a + k * 2 ^ w) by lia.
  split; [reflexivity|]. split.
  - unfold shows. rewrite Z.mod_add by lia. now rewrite Z.eqb_refl.
  - unfold shows. intros E.
    assert ((a + 2 ^ (w - 1) - a) mod 2 ^ w = 0) as H0 by (rewrite Zminus_mod, <- E, Z.sub_diag; apply Z.mod_0_l; lia).
    replace (a + 2 ^ (w - 1) - a) with (2 ^ (w - 1)) in H0 by lia. rewrite Z.mod_small in H0 by lia. lia.
Qed.
Print Assumptions C116_equal_refuted.
