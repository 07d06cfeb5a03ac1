(** C145 rollover_t of several types and numbers combine as integers modulo 2^w, and only explicitly. *)
From Coq Require Import QArith Qround.
From Verif Require Import Base Ints IntsLemmas FloatSatModel FloatSatSpec FloatSatProofs RolloverModel RolloverSpec RolloverProofs RollMixModel RollMixSpec RollMixProofs.
Open Scope Z_scope.

(** With a rollover_t on either side an operator compiles only for two of the same type, and never for
    <, <=, > or >=, which name a deleted function. *)
Theorem C145_operands : forall o x y a b,
  type_of x = Is a -> type_of y = Is b -> is_rollover a \/ is_rollover b ->
  (forall t, type_of (Bin o x y) = Is t <-> a = b /\ gives o a t) /\
  (type_of (Bin o x y) = Deleted <-> a = b /\ In o [Less; LessEq; Greater; GreaterEq]) /\
  (type_of (Bin o x y) = NoMatch <-> a <> b).
Proof.
  intros o x y a b X Y R. cbn. rewrite X, Y.
  assert (D : a = b \/ a <> b).
  { destruct a as [|a i|w i], b as [|b j|w' j]; try (destruct R as [(? & ? & [=])|(? & ? & [=])]; fail); try (right; discriminate).
    destruct (Z.eq_dec w w') as [->|]; [|right; congruence]. destruct (Nat.eq_dec i j) as [->|]; [now left|right; congruence]. }
  destruct D as [->|D].
  - assert (exists w id, b = Roll w id) as (w & id & ->) by (destruct R as [R|R]; exact R).
    rewrite resolve_same. split; [|split].
    + intros t. split.
      * intros H. split; [reflexivity|]. destruct o; cbn in H; inversion H; subst; (apply gives_value; cbn; tauto) || (apply gives_bool; cbn; tauto).
      * intros (_ & G). inversion G as [? ? Ho|? ? Ho]; subst; cbn in Ho; decompose [or] Ho; try contradiction; subst; reflexivity.
    + split.
      * intros H. split; [reflexivity|]. destruct o; cbn in H; try discriminate; cbn; tauto.
      * intros (_ & H). cbn in H. decompose [or] H; try contradiction; subst; reflexivity.
    + split; [destruct o; discriminate|congruence].
  - assert (E : resolve o a b = NoMatch).
    { unfold resolve. destruct a as [|a i|w i], b as [|b j|w' j]; try (destruct R as [(? & ? & [=])|(? & ? & [=])]; fail); cbn;
        rewrite ?Z.eqb_refl, ?Nat.eqb_refl; cbn; try reflexivity.
      rewrite (Z.eqb_sym w' w), (Nat.eqb_sym j i). destruct ((w =? w') && Nat.eqb i j) eqn:E; cbn; [|reflexivity].
      apply Bool.andb_true_iff in E as [E1 E2]. apply Z.eqb_eq in E1. apply Nat.eqb_eq in E2. subst. now destruct D. }
    rewrite E. split; [|split].
    + intros t. split; [discriminate|]. now intros (? & _).
    + split; [discriminate|]. now intros (? & _).
    + split; [intros _; exact D|reflexivity].
Qed.
Print Assumptions C145_operands.
(** r + 1u does not compile for a rollover_t<unsigned>, nor does r8 == r16, nor r < r. *)
Example C145_operands_nonvacuous :
  type_of (Bin Add (Var 32 0 0) (Const (I (Uint 32)) 0 (VI 1))) = NoMatch /\
  type_of (Bin Equal (Var 8 0 0) (Var 16 0 0)) = NoMatch /\
  type_of (Bin Less (Var 8 0 0) (Var 8 0 0)) = Deleted /\
  type_of (Bin Add (Var 32 0 0) (Make 32 0 (Const (I (Sint 32)) 0 (VI 1)))) = Is (Roll 32 0).
Proof. vm_compute. repeat split. Qed.

(** A rollover_t is cast to its underlying type, and to no other number. *)
Theorem C145_cast : forall a id e w i, type_of e = Is (Roll w i) ->
  ((exists t, type_of (As a id e) = Is t) <-> a = I {| signed := false; width := w |} /\ id = i) /\
  type_of (Under e) = Is (Num (I {| signed := false; width := w |}) i).
Proof.
  intros a id e w i E. split; [|cbn; now rewrite E]. cbn. rewrite E. split.
  - intros [t H]. destruct a as [[sg wd]|f]; cbn in H; [|discriminate]. destruct sg; cbn in H; [discriminate|].
    destruct (Z.eqb_spec wd w) as [->|]; cbn in H; [|discriminate].
    destruct (Nat.eqb_spec id i) as [->|]; cbn in H; [|discriminate]. now split.
  - intros [-> ->]. eexists. cbn. rewrite Z.eqb_refl, Nat.eqb_refl. cbn. reflexivity.
Qed.
Print Assumptions C145_cast.
(** static_cast<int> and static_cast<std::uint64_t> of a rollover_t<std::uint32_t> do not compile. *)
Example C145_cast_nonvacuous :
  type_of (As (I (Sint 32)) 0 (Var 32 0 0)) = NoMatch /\ type_of (As (I (Uint 64)) 0 (Var 32 0 0)) = NoMatch /\
  type_of (As (I (Uint 64)) 0 (As (I (Uint 32)) 0 (Var 32 0 0))) = Is (Num (I (Uint 64)) 0).
Proof. vm_compute. repeat split. Qed.

(** An expression of rollover_t and integers with +, -, *, unary - and conversions, that compiles to a
    rollover_t of w bits, is the integer it stands for modulo 2^w, if no type on the way is narrower. *)
Theorem C145_modular_partial : forall iw env e z w id,
  (forall w' id n, 0 < w' -> 0 <= env w' id n < 2 ^ w') ->
  type_of e = Is (Roll w id) -> stands_for env e z ->
  widths (fun w' => w <= w' /\ adds iw w') e ->
  (multiplies e -> widths (multiplies_in iw) e) ->
  eval iw env e = Some (VI (z mod 2 ^ w)).
Proof.
  intros iw env e z w id Henv T S W M. destruct (type_width _ e w id T W) as [_ [Hw _]].
  destruct (eval_stands iw env w e z Hw Henv S _ T W M) as (v & -> & C & F). cbn in F.
  now rewrite (cong_eq w v z Hw F C).
Qed.
Print Assumptions C145_modular_partial.
(** rollover_t<u8>{rollover_t<u32>{-3} * rollover_t<u32>{x}} - y *)
Example C145_modular_nonvacuous :
  let env := fun _ _ n => Z.of_nat (n mod 2) in
  let e := Bin Sub (Make 8 0 (Bin Mul (Make 32 0 (Const (I (Sint 32)) 0 (VI (-3)))) (Make 32 0 (Var 64 0 1)))) (Var 8 0 1) in
  stands_for env e (-4) /\ type_of e = Is (Roll 8 0) /\ widths (fun w' => 8 <= w' /\ adds 32 w') e /\
  widths (multiplies_in 32) e /\ eval 32 env e = Some (VI 252).
Proof.
  cbn zeta. split; [|split; [reflexivity|split; [cbn; unfold adds; lia|split; [cbn; unfold multiplies_in; lia|vm_compute; reflexivity]]]].
  refine (sf_sub _ _ _ (-3) 1 (sf_make _ _ _ _ _ (sf_mul _ _ _ (-3) 1 (sf_make _ _ _ _ _ _) (sf_make _ _ _ _ _ _))) _).
  - apply sf_const. unfold in_range. cbn. lia.
  - exact (sf_var _ 64 0 1).
  - exact (sf_var _ 8 0 1).
Qed.

(** == of two such expressions is congruence modulo 2^w. *)
Theorem C145_equal_partial : forall iw env x y a b w id,
  (forall w' id n, 0 < w' -> 0 <= env w' id n < 2 ^ w') ->
  type_of x = Is (Roll w id) -> type_of y = Is (Roll w id) -> stands_for env x a -> stands_for env y b ->
  widths (fun w' => w <= w' /\ adds iw w') x -> widths (fun w' => w <= w' /\ adds iw w') y ->
  (multiplies x -> widths (multiplies_in iw) x) -> (multiplies y -> widths (multiplies_in iw) y) ->
  (eval iw env (Bin Equal x y) = Some (VI 1) <-> congruent w a b) /\
  (eval iw env (Bin NotEqual x y) = Some (VI 1) <-> ~ congruent w a b).
Proof.
  intros iw env x y a b w id Henv X Y Sx Sy Wx Wy Mx My. destruct (type_width _ x w id X Wx) as [_ [Hw _]].
  destruct (eval_stands iw env w x a Hw Henv Sx _ X Wx Mx) as (v1 & V1 & C1 & F1).
  destruct (eval_stands iw env w y b Hw Henv Sy _ Y Wy My) as (v2 & V2 & C2 & F2). cbn in F1, F2.
  pose proof (cong_decides w v1 v2 a b Hw F1 F2 C1 C2) as D. cbn. rewrite X, V1, V2. cbn [apply_op].
  unfold of_bool. rewrite <- D. destruct (r_eq v1 v2); cbn; split; split; congruence.
Qed.
Print Assumptions C145_equal_partial.

(** / and % are those of the values, undefined for 0 only; cmp_less is being less than half of the
    cycle behind, or exactly half of it (C08). *)
Theorem C145_divide_less : forall iw env x y a b w id,
  type_of x = Is (Roll w id) -> type_of y = Is (Roll w id) ->
  eval iw env x = Some (VI a) -> eval iw env y = Some (VI b) -> 0 <= a < 2 ^ w -> 0 <= b < 2 ^ w -> adds iw w ->
  eval iw env (Bin Div x y) = (if b =? 0 then None else Some (VI (a / b))) /\
  eval iw env (Bin Mod x y) = (if b =? 0 then None else Some (VI (a mod b))) /\
  exists r, eval iw env (Bin CmpLess x y) = Some (VI r) /\ (r = 0 \/ r = 1) /\
    (r = 1 <-> exists k, 1 <= k <= 2 ^ (w - 1) /\ congruent w (a + k) b).
Proof.
  intros iw env x y a b w id X Y A B Ra Rb W.
  destruct (rollover_ops w iw a b 0 W Ra Rb) as (_ & _ & _ & _ & _ & _ & _ & _ & _ & N).
  destruct (cmp_steps w iw a b W Ra Rb) as (r & E & H). pose proof W as [Hw _].
  cbn [eval]. rewrite X, A, B. cbn [apply_op]. rewrite E. cbn [option_map]. split; [|split].
  - destruct (Z.eqb_spec b 0) as [->|Hb]; [reflexivity|]. destruct (N Hb) as [-> _]. reflexivity.
  - destruct (Z.eqb_spec b 0) as [->|Hb]; [reflexivity|]. destruct (N Hb) as [_ ->]. reflexivity.
  - eexists. split; [reflexivity|]. split; [destruct r; tauto|].
    assert (K : r = true <-> exists k, 1 <= k <= 2 ^ (w - 1) /\ congruent w (a + k) b).
    { rewrite H. split; intros (k & Hk & E2); exists k; (split; [exact Hk|]).
      - destruct (cong_mod w w (b - k) ltac:(lia)) as [l Hl]. exists l. lia.
      - apply cong_eq; [exact Hw|exact Ra|]. destruct E2 as [l Hl]. exists l. lia. }
    rewrite <- K. destruct r; split; congruence.
Qed.
Print Assumptions C145_divide_less.
Example C145_divide_less_nonvacuous :
  let env := fun _ _ n => match n with O => 250 | _ => 3 end in
  eval 32 env (Bin Div (Var 8 0 0) (Var 8 0 1)) = Some (VI 83) /\ eval 32 env (Bin Mod (Var 8 0 0) (Var 8 0 1)) = Some (VI 1) /\
  eval 32 env (Bin CmpLess (Var 8 0 0) (Var 8 0 1)) = Some (VI 1) /\ eval 32 env (Bin CmpLess (Var 8 0 1) (Var 8 0 0)) = Some (VI 0).
Proof. vm_compute. repeat split. Qed.

(** Where a type on the way is narrower it is not: the sum of two rollover_t, converted to a wider one,
    is not the sum of the two converted, exactly when it rolls over. *)
Theorem C145_widening_refuted : forall iw env x y a b w id w' id',
  type_of x = Is (Roll w id) -> type_of y = Is (Roll w id) ->
  eval iw env x = Some (VI a) -> eval iw env y = Some (VI b) -> 0 <= a < 2 ^ w -> 0 <= b < 2 ^ w ->
  w < w' -> adds iw w -> adds iw w' ->
  eval iw env (Bin Add (Make w' id' x) (Make w' id' y)) = Some (VI (a + b)) /\
  (eval iw env (Make w' id' (Bin Add x y)) = Some (VI (a + b)) <-> a + b < 2 ^ w) /\
  (2 ^ w <= a + b -> eval iw env (Make w' id' (Bin Add x y)) = Some (VI (a + b - 2 ^ w))).
Proof.
  intros iw env x y a b w id w' id' X Y A B Ra Rb L W W'.
  assert (P : 2 * 2 ^ w <= 2 ^ w').
  { replace (2 * 2 ^ w) with (2 ^ (w + 1)) by (rewrite Z.pow_add_r by (destruct W; lia); lia). apply pow2_le; destruct W; lia. }
  destruct (rollover_ops w iw a b 0 W Ra Rb) as (_ & _ & _ & _ & _ & _ & N & _).
  assert (Ra' : rv w' a) by (unfold rv; lia). assert (Rb' : rv w' b) by (unfold rv; lia).
  destruct (rollover_ops w' iw a b 0 W' Ra' Rb') as (_ & _ & _ & _ & _ & _ & N' & _).
  unfold rv in *. split.
  - cbn [eval type_of]. rewrite X, Y, A, B. cbn [convert]. rewrite !cast_U, (Z.mod_small a), (Z.mod_small b) by lia.
    cbn [apply_op]. rewrite N'. cbn [option_map]. rewrite Z.mod_small by lia. reflexivity.
  - assert (E : eval iw env (Make w' id' (Bin Add x y)) = Some (VI ((a + b) mod 2 ^ w))).
    { cbn [eval type_of]. rewrite X, Y, resolve_same, A, B. cbn [friend apply_op]. rewrite N. cbn [option_map].
      cbn [convert]. rewrite cast_U. f_equal. f_equal. pose proof (Z.mod_pos_bound (a + b) (2 ^ w) ltac:(lia)).
      rewrite Z.mod_small by lia. reflexivity. }
    rewrite E. split.
    + split; [|intros; f_equal; f_equal; apply Z.mod_small; lia].
      intros [= H]. pose proof (Z.mod_pos_bound (a + b) (2 ^ w) ltac:(lia)). lia.
    + intros H. f_equal. f_equal. replace (a + b) with (a + b - 2 ^ w + 1 * 2 ^ w) at 1 by lia.
      rewrite Z_mod_plus_full. apply Z.mod_small. lia.
Qed.
Print Assumptions C145_widening_refuted.
Example C145_widening_nonvacuous :
  let env := fun _ _ _ => 200 in
  eval 32 env (Make 16 0 (Bin Add (Var 8 0 0) (Var 8 0 0))) = Some (VI 144) /\
  eval 32 env (Bin Add (Make 16 0 (Var 8 0 0)) (Make 16 0 (Var 8 0 0))) = Some (VI 400).
Proof. vm_compute. split; reflexivity. Qed.

(** From a floating-point number a rollover_t is made of its integer part, if that is a value of the
    underlying type; otherwise the behaviour is undefined: the number is not taken modulo 2^w. *)
Theorem C145_float_refuted : forall iw env f i x w id, 0 < w ->
  type_of (Make w id (Const (F f) i (VF x))) = Is (Roll w id) /\
  (forall z, eval iw env (Make w id (Const (F f) i (VF x))) = Some (VI z) <->
     exists m e, x = Fin m e /\ z = qtrunc (qval m e) /\ 0 <= z < 2 ^ w) /\
  (eval iw env (Make w id (Const (F f) i (VF x))) = None <->
     forall m e, x = Fin m e -> (qval m e <= -1)%Q \/ (inject_Z (2 ^ w) <= qval m e)%Q).
Proof.
  intros iw env f i x w id Hw. split; [reflexivity|].
  assert (R : forall z, in_rangeb (Uint w) z = true <-> 0 <= z < 2 ^ w).
  { intros z. unfold in_rangeb. cbn. rewrite Bool.andb_true_iff, !Z.leb_le. lia. }
  cbn [eval type_of]. destruct x as [m e|n|]; cbn [convert].
  - rewrite trunc_spec. split.
    + intros z. destruct (in_rangeb (Uint w) (qtrunc (qval m e))) eqn:E; split.
      * intros [= <-]. exists m, e. split; [reflexivity|]. split; [reflexivity|]. now apply R.
      * intros (m' & e' & [= <- <-] & -> & _). reflexivity.
      * discriminate.
      * intros (m' & e' & [= <- <-] & -> & Hz). apply R in Hz. congruence.
    + assert (U : forall q, 0 <= qtrunc q < 2 ^ w <-> ~ ((q <= -1)%Q \/ (inject_Z (2 ^ w) <= q)%Q)).
      { intros q. pose proof (pow2_pos w ltac:(lia)). split.
        - intros Hq [L|G].
          + apply (qtrunc_upper q (-1)) in L. lia.
          + apply qtrunc_lower in G. lia.
        - intros N. assert (L : (-1 < q)%Q) by (apply Qnot_le_lt; tauto).
          assert (G : (q < inject_Z (2 ^ w))%Q) by (apply Qnot_le_lt; tauto). unfold qtrunc. destruct (Qlt_le_dec q 0) as [Q0|Q0].
          + assert (K : Qceiling q = 0); [|lia]. unfold Qceiling.
            assert (Qfloor (- q) = 0); [|lia]. apply qfloor_unique.
            * change (inject_Z 0) with 0%Q. apply Qlt_le_weak in Q0. apply (Qopp_le_compat q 0) in Q0. exact Q0.
            * change (inject_Z (0 + 1)) with (- (-1))%Q. now apply Qopp_lt_compat.
          + split.
            * apply (Qfloor_resp_le 0 q) in Q0. exact Q0.
            * pose proof (Qfloor_le q) as Hf. pose proof (Qle_lt_trans _ _ _ Hf G) as HH. now rewrite <- Zlt_Qlt in HH. }
      destruct (in_rangeb (Uint w) (qtrunc (qval m e))) eqn:E; split; try discriminate.
      * intros H. apply R in E. apply U in E. now destruct E; apply H.
      * intros _ m' e' [= <- <-]. destruct (Qlt_le_dec (-1) (qval m e)) as [L|L]; [|now left].
        destruct (Qlt_le_dec (qval m e) (inject_Z (2 ^ w))) as [G|G]; [|now right].
        exfalso. assert (0 <= qtrunc (qval m e) < 2 ^ w) as K by (apply U; intros [N|N]; [now apply (Qlt_not_le _ _ L)|now apply (Qlt_not_le _ _ G)]).
        apply R in K. congruence.
      * reflexivity.
  - split; [|split; [intros _ m e; discriminate|reflexivity]].
    intros z. split; [discriminate|]. intros (m & e & ? & _). discriminate.
  - split; [|split; [intros _ m e; discriminate|reflexivity]].
    intros z. split; [discriminate|]. intros (m & e & ? & _). discriminate.
Qed.
Print Assumptions C145_float_refuted.
(** 1.5, -0.5, -1.0 and 256.0 to rollover_t<std::uint8_t>. *)
Example C145_float_nonvacuous :
  let make m e := eval 32 (fun _ _ _ => 0) (Make 8 0 (Const (F binary64) 0 (VF (Fin m e)))) in
  make 3 (-1) = Some (VI 1) /\ make (-1) (-1) = Some (VI 0) /\ make (-1) 0 = None /\ make 1 8 = None.
Proof. vm_compute. repeat split. Qed.
