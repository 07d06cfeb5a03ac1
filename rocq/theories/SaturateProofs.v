From Verif Require Import Base Ints IntsLemmas SaturateModel SaturateSpec.
Open Scope Z_scope.

Lemma nearest_range To x : 0 < width To -> in_range To (nearest To x).
Proof.
  intros. unfold nearest, in_range. pose proof (pow2_pos (width To) ltac:(lia)).
  pose proof (pow2_pos (width To - 1) ltac:(lia)).
  assert (tmin To <= tmax To) by (unfold tmin, tmax; destruct (signed To); lia). lia.
Qed.
Lemma nearest_id To x : in_range To x -> nearest To x = x.
Proof. unfold nearest, in_range. lia. Qed.

Lemma sat_ok From To x :
  0 < width From -> 0 < width To -> in_range From x ->
  ~ narrowing_unsigned_to_signed From To -> ~ (widening_signed_to_unsigned From To /\ x < 0) ->
  saturate_cast From To x = Some (nearest To x).
Proof.
  intros HF HT Hx Hn Hw. unfold saturate_cast, narrowing_unsigned_to_signed, widening_signed_to_unsigned in *.
  destruct From as [sf wf], To as [st wt]; cbn [signed width] in *.
  pose proof (pow2_pos wf ltac:(lia)). pose proof (pow2_pos wt ltac:(lia)).
  pose proof (pow2_pos (wf - 1) ltac:(lia)). pose proof (pow2_pos (wt - 1) ltac:(lia)).
  pose proof (pow2_split wf HF). pose proof (pow2_split wt HT).
  destruct (Z.ltb_spec wt wf) as [Hlt|Hge].
  - pose proof (pow2_le wt (wf - 1) ltac:(lia)).
    pose proof (pow2_le (wt - 1) (wf - 1) ltac:(lia)).
    rewrite !(cast_id {| signed := sf; width := wf |}); try assumption;
      try (unfold in_range, tmin, tmax; cbn [signed width]; destruct sf, st; lia || tauto).
    unfold clamp, nearest, in_range, tmin, tmax in *. cbn [signed width] in *.
    destruct sf, st; try tauto;
    (match goal with |- context [if ?a <? ?b then None else _] => destruct (Z.ltb_spec a b); [lia|] end);
    cbn [option_map]; f_equal; rewrite cast_id; try exact HT;
    try (unfold in_range, tmin, tmax; cbn [signed width]);
    repeat match goal with |- context [?a <? ?b] => destruct (Z.ltb_spec a b) end; lia.
  - destruct (Z.eqb_spec wf wt) as [->|Hne].
    + unfold nearest, in_range, tmin, tmax in *. cbn [signed width] in *.
      destruct sf, st; cbn [negb andb].
      * f_equal. rewrite cast_id; [lia|exact HT|]. unfold in_range, tmin, tmax; cbn [signed width]; lia.
      * destruct (Z.ltb_spec x 0); [f_equal; lia|].
        f_equal. rewrite cast_id; [lia|exact HT|]. unfold in_range, tmin, tmax; cbn [signed width]; lia.
      * destruct (Z.ltb_spec (2 ^ (wt - 1) - 1) x); [f_equal; lia|].
        f_equal. rewrite cast_id; [lia|exact HT|]. unfold in_range, tmin, tmax; cbn [signed width]; lia.
      * f_equal. rewrite cast_id; [lia|exact HT|]. unfold in_range, tmin, tmax; cbn [signed width]; lia.
    + pose proof (pow2_le wf (wt - 1) ltac:(lia)).
      unfold nearest, in_range, tmin, tmax in *. cbn [signed width] in *.
      f_equal. rewrite cast_id; [|exact HT|].
      * destruct sf, st; lia.
      * unfold in_range, tmin, tmax; cbn [signed width].
        destruct sf, st; lia.
Qed.

Lemma sat_narrow_ub From To x :
  0 < width To -> narrowing_unsigned_to_signed From To -> saturate_cast From To x = None.
Proof.
  intros HT (Hlt & HF & HS). unfold saturate_cast.
  destruct From as [sf wf], To as [st wt]; cbn [signed width] in *. subst sf st.
  destruct (Z.ltb_spec wt wf); [|lia].
  pose proof (pow2_pos wf ltac:(lia)). pose proof (pow2_pos wt ltac:(lia)).
  pose proof (pow2_pos (wt - 1) ltac:(lia)).
  pose proof (pow2_split wf ltac:(lia)). pose proof (pow2_split wt HT).
  pose proof (pow2_le wt (wf - 1) ltac:(lia)).
  pose proof (pow2_le (wt - 1) (wf - 1) ltac:(lia)).
  assert (E1 : cast {| signed := false; width := wf |} (tmin {| signed := true; width := wt |})
               = 2 ^ wf - 2 ^ (wt - 1)).
  { unfold cast, tmin; cbn [signed width andb].
    symmetry. apply (Zmod_unique _ _ (-1)); lia. }
  assert (E2 : cast {| signed := false; width := wf |} (tmax {| signed := true; width := wt |})
               = 2 ^ (wt - 1) - 1).
  { apply cast_id; cbn [width]; [lia|]. unfold in_range, tmin, tmax; cbn [signed width]. lia. }
  rewrite E1, E2. unfold clamp.
  destruct (Z.ltb_spec (2 ^ (wt - 1) - 1) (2 ^ wf - 2 ^ (wt - 1))); [reflexivity|lia].
Qed.

Lemma sat_widen_wraps From To x :
  0 < width From -> in_range From x -> widening_signed_to_unsigned From To -> x < 0 ->
  nearest To x = 0 /\ saturate_cast From To x = Some (x + 2 ^ width To) /\ x + 2 ^ width To <> 0.
Proof.
  intros HF Hx (Hlt & Hs & Hu) Hneg. unfold saturate_cast.
  destruct From as [sf wf], To as [st wt]; cbn [signed width] in *. subst sf st.
  destruct (Z.ltb_spec wt wf); [lia|]. destruct (Z.eqb_spec wf wt); [lia|].
  pose proof (pow2_pos wt ltac:(lia)).
  pose proof (pow2_pos (wt - 1) ltac:(lia)). pose proof (pow2_split wt ltac:(lia)).
  pose proof (pow2_le (wf - 1) (wt - 1) ltac:(lia)).
  unfold in_range, tmin, tmax in Hx. cbn [signed width] in Hx. split; [|split].
  - unfold nearest, tmin, tmax. cbn [signed width]. lia.
  - f_equal. unfold cast. cbn [signed width andb]. symmetry. apply (Zmod_unique _ _ (-1)); lia.
  - lia.
Qed.
