(** Proofs about the small utilities. *)
From Verif Require Import Base Ints IntsLemmas UtilModel UtilSpec.
Open Scope Z_scope.

Lemma cast_bits w t x : width t = w -> 0 < w -> same_bits w (cast t x) x.
Proof.
  intros <- H i Hi. unfold cast. cbv zeta.
  assert (M : Z.testbit (x mod 2 ^ width t) i = Z.testbit x i) by (apply Z.mod_pow2_bits_low; lia).
  destruct (signed t && (2 ^ (width t - 1) <=? x mod 2 ^ width t)); [|exact M].
  rewrite <- M, <- (Z.mod_pow2_bits_low (x mod 2 ^ width t - 2 ^ width t) (width t) i) by lia.
  rewrite <- (Z.mod_pow2_bits_low (x mod 2 ^ width t) (width t) i) by lia.
  f_equal. pose proof (pow2_pos (width t) ltac:(lia)).
  replace (x mod 2 ^ width t - 2 ^ width t) with (x mod 2 ^ width t + (-1) * 2 ^ width t) by ring.
  now rewrite Z.mod_add by lia.
Qed.
Lemma cast_cast t u x : width t = width u -> 0 < width t -> in_range t x -> cast t (cast u x) = x.
Proof.
  intros E H R. rewrite <- (cast_id t x H R) at 2. unfold cast at 1 3. cbv zeta.
  assert (M : cast u x mod 2 ^ width t = x mod 2 ^ width t).
  { unfold cast. cbv zeta. rewrite <- E. pose proof (pow2_pos (width t) ltac:(lia)).
    destruct (signed u && (2 ^ (width t - 1) <=? x mod 2 ^ width t)).
    - replace (x mod 2 ^ width t - 2 ^ width t) with (x mod 2 ^ width t + (-1) * 2 ^ width t) by ring.
      rewrite Z.mod_add by lia. now apply Z.mod_mod; lia.
    - now apply Z.mod_mod; lia. }
  now rewrite M.
Qed.
Theorem sign_conversions t x : 0 < width t -> in_range t x ->
  exists u s, as_unsigned (IInt t) x = Some (Uint (width t), u) /\ as_signed (IInt t) x = Some (Sint (width t), s) /\
    in_range (Uint (width t)) u /\ in_range (Sint (width t)) s /\
    same_bits (width t) u x /\ same_bits (width t) s x /\
    (signed t = false -> u = x /\ as_unsigned (IInt (Sint (width t))) s = Some (Uint (width t), x)) /\
    (signed t = true -> s = x /\ as_signed (IInt (Uint (width t))) u = Some (Sint (width t), x)).
Proof.
  intros H R. exists (cast (Uint (width t)) x), (cast (Sint (width t)) x).
  split; [reflexivity|]. split; [reflexivity|].
  split; [now apply cast_in_range|]. split; [now apply cast_in_range|].
  split; [now apply cast_bits|]. split; [now apply cast_bits|].
  destruct t as [sg w]. cbn [signed width] in *. split; intros ->.
  - change {| signed := false; width := w |} with (Uint w) in R. split; [now apply cast_id|].
    cbn [as_unsigned make_unsigned width]. unfold make_unsigned. cbn [width Sint]. f_equal. f_equal. now apply cast_cast.
  - change {| signed := true; width := w |} with (Sint w) in R. split; [now apply cast_id|].
    unfold as_signed, make_signed. cbn [width Uint]. f_equal. f_equal. now apply cast_cast.
Qed.

Theorem aligned_iff pw k v : 0 <= k <= pw -> is_aligned_with pw (2 ^ k) v = true <-> (2 ^ k | v).
Proof.
  intros H. unfold is_aligned_with. rewrite cast_U, Z.eqb_eq.
  replace (2 ^ k - 1) with (Z.ones k) by (rewrite Z.ones_equiv; lia).
  rewrite Z.land_ones by lia. pose proof (pow2_pos k ltac:(lia)) as P.
  replace ((v mod 2 ^ pw) mod 2 ^ k) with (v mod 2 ^ k).
  - split; intros K; [apply Z.mod_divide; [lia|exact K]|apply Z.mod_divide; [lia|exact K]].
  - replace pw with (k + (pw - k)) by ring. rewrite Z.pow_add_r by lia.
    pose proof (pow2_pos (pw - k) ltac:(lia)). rewrite Z.rem_mul_r by lia.
    rewrite Z.mul_comm, Z.mod_add by lia. symmetry. apply Z.mod_mod. lia.
Qed.

Theorem smallest_ok n : n <= 64 ->
  In (smallest_uint n) [8; 16; 32; 64] /\ n <= smallest_uint n /\
  (forall w, In w [8; 16; 32; 64] -> n <= w -> smallest_uint n <= w).
Proof.
  intros H. unfold smallest_uint. cbn [In].
  destruct (Z.leb_spec n 8); [repeat split; try lia; auto|].
  destruct (Z.leb_spec n 16); [repeat split; try lia; auto|].
  destruct (Z.leb_spec n 32); repeat split; try lia; auto 6.
Qed.

Theorem forward_like_ok T U : is_const T = true \/ ref T = LRef \/ ref U <> LRef ->
  forward_like T U = std_forward_like T U.
Proof.
  destruct T as [tc tv tr], U as [uc uv ur]; intros H;
  destruct tc, tr, ur; cbn in *; try reflexivity; destruct H as [H|[H|H]]; congruence.
Qed.
Theorem forward_like_bad T U : is_const T = false -> ref T <> LRef -> ref U = LRef ->
  ref (forward_like T U) = LRef /\ ref (std_forward_like T U) = RRef.
Proof.
  destruct T as [tc tv tr], U as [uc uv ur]; cbn; intros -> H ->. destruct tr; cbn; try contradiction; auto.
Qed.

Lemma search_ok {A} (f : callable A) n : least_accepted f n -> forall d k, (k <= n)%nat -> (n - k <= d)%nat ->
  generic_arity d f k = Some n.
Proof.
  intros [H1 H2] d. induction d as [|d IH]; intros k Hk Hd; cbn [generic_arity].
  - replace k with n by lia. now rewrite H1.
  - destruct (Nat.eq_dec k n) as [->|Hn]; [now rewrite H1|].
    rewrite H2 by lia. apply IH; lia.
Qed.
Lemma search_none {A} (f : callable A) : (forall n, accepts f n = false) -> forall d k, generic_arity d f k = None.
Proof. intros H d. induction d as [|d IH]; intros k; cbn [generic_arity]; rewrite H; [reflexivity|apply IH]. Qed.
Theorem arity_ok {A} (f : callable A) n d : least_accepted f n -> (n <= d)%nat ->
  arity d f = Some (match signature f with Some ps => length ps | None => n end).
Proof.
  intros H Hd. unfold arity. rewrite (search_ok f n H) by lia. unfold nongeneric_arity. now destruct (signature f).
Qed.
Theorem arity_none {A} (f : callable A) d : (forall n, accepts f n = false) -> arity d f = None.
Proof. intros H. unfold arity. now rewrite search_none. Qed.
