(** C96 An algorithm gives back the function it was given. *)
From Verif Require Import Base GiveBackModel GiveBackSpec.

(** ** Tuples
    for_each on anything but a single stdx::tuple, and enumerate on any number of tuples. *)
Theorem C96_for_each_partial : forall V (calls : V -> V) n m k c v, n + m > 0 -> ~ (n = 1 /\ m = 0) -> returnable k c ->
  gives_back c (calls v) (tuple_for_each calls n m k c (Value v)).
Proof.
  intros V calls n m k c v Hp H Hr. unfold tuple_for_each. destruct (Nat.eqb_spec (n + m) 0); [lia|]. destruct (Nat.eqb_spec n 1), (Nat.eqb_spec m 0); try tauto; cbn [andb];
  unfold unrolled_for_each; destruct c, k as [[]|]; cbn in *; try tauto; subst; cbn; eauto.
Qed.
Print Assumptions C96_for_each_partial.
Theorem C96_enumerate : forall V (calls : V -> V) n m k c v, n + m > 0 -> returnable k c ->
  gives_back c (calls v) (tuple_enumerate calls n m k c (Value v)).
Proof.
  intros V calls n m k c v Hp Hr. unfold tuple_enumerate. destruct (Nat.eqb_spec (n + m) 0); [lia|]. unfold unrolled_for_each; destruct c, k as [[]|]; cbn in *; try tauto; subst; cbn; eauto.
Qed.
Print Assumptions C96_enumerate.
(** On one stdx::tuple: for an rvalue that can be copied. *)
Theorem C96_for_each_one_partial : forall V (calls : V -> V) t c v, c = Rvalue \/ c = ConstRvalue -> copies t = true ->
  gives_back c (calls v) (tuple_for_each calls 1 0 (Object t) c (Value v)).
Proof. intros V calls t c v [-> | ->] H; cbn; unfold copy; rewrite H; cbn; eauto. Qed.
Print Assumptions C96_for_each_one_partial.
(** An lvalue, or a function, does not compile ... *)
Theorem C96_for_each_one_lvalue_refuted : forall V (calls : V -> V) k v,
  tuple_for_each calls 1 0 k Lvalue (Value v) = None.
Proof. intros V calls [[[] m]|] v; reflexivity. Qed.
Print Assumptions C96_for_each_one_lvalue_refuted.
(** ... a const lvalue gives back a reference to an object that is gone ... *)
Theorem C96_for_each_one_const_refuted : forall V (calls : V -> V) t v, copies t = true ->
  tuple_for_each calls 1 0 (Object t) ConstLvalue (Value v) = Some Dangling.
Proof. intros V calls t v H. cbn. unfold copy. rewrite H. reflexivity. Qed.
Print Assumptions C96_for_each_one_const_refuted.
(** ... and an object that can only be moved does not compile. *)
Theorem C96_for_each_one_move_only_refuted : forall V (calls : V -> V) t c v, copies t = false ->
  tuple_for_each calls 1 0 (Object t) c (Value v) = None.
Proof. intros V calls t c v H. cbn. unfold copy. rewrite H. reflexivity. Qed.
Print Assumptions C96_for_each_one_move_only_refuted.

(** ** Bitsets *)
Theorem C96_bitset : forall V (calls : V -> V) k c v, returnable k c ->
  gives_back c (calls v) (bitset_for_each calls k c (Value v)).
Proof. intros V calls k c v Hr. unfold bitset_for_each; destruct c, k as [[]|]; cbn in *; try tauto; subst; cbn; eauto. Qed.
Print Assumptions C96_bitset.

(** ** Ranges
    A function that can be copied (and moved, if it is passed as an rvalue). *)
Theorem C96_ranges_partial : forall V (calls : V -> V) random k c v, copyable k -> movable k ->
  returns c v (calls v) (range_for_each calls k c (Value v)) /\ returns c v (calls v) (range_for_each_n calls k c (Value v)) /\
  returns c v (calls v) (for_each_butlastn calls random k c (Value v)) /\ returns c v (calls v) (for_each_butlast calls random k c (Value v)).
Proof.
  intros V calls random k c v Hc Hm. unfold returns, range_for_each_n, range_for_each, for_each_butlastn, for_each_butlast, butlastn_body, for_each_body, pass, copy, move.
  assert (copies (decayed k) = true /\ moves (decayed k) = true) as (-> & ->) by (destruct k; cbn in *; auto).
  destruct c, random; repeat split; cbn; eexists; (split; [reflexivity|]); congruence.
Qed.
Print Assumptions C96_ranges_partial.
Theorem C96_initial_medial_final_partial : forall V (icall mcalls fcall : V -> V) random ti tm tf vi vm vf,
  copies ti = true -> copies tm = true -> copies tf = true ->
  initial_medial_final icall mcalls fcall random ti tm tf (Value vi) (Value vm) (Value vf) =
  Some (Value (icall vi), Value (mcalls vm), Value (fcall vf)).
Proof.
  intros V icall mcalls fcall random ti tm tf vi vm vf Hi Hm Hf. unfold initial_medial_final, butlastn_body, for_each_body, copy. rewrite Hi, Hm, Hf.
  destruct random; reflexivity.
Qed.
Print Assumptions C96_initial_medial_final_partial.
(** One that can only be moved does not compile, unlike with std::for_each. *)
Theorem C96_ranges_move_only_refuted : forall V (calls : V -> V) random t c v, copies t = false ->
  range_for_each calls (Object t) c (Value v) = None /\ range_for_each_n calls (Object t) c (Value v) = None /\
  for_each_butlastn calls random (Object t) c (Value v) = None /\ for_each_butlast calls random (Object t) c (Value v) = None.
Proof.
  intros V calls random t c v Hc. unfold range_for_each_n, range_for_each, for_each_butlastn, for_each_butlast, butlastn_body, for_each_body, pass, copy, move.
  cbn [decayed]. rewrite Hc. destruct c; cbn; destruct (moves t); cbn; repeat split.
Qed.
Print Assumptions C96_ranges_move_only_refuted.

Example C96_example :
  let copyable := Object (Traits true true) in let move_only := Object (Traits false true) in
  tuple_for_each S 2 0 copyable Lvalue (Value 3) = Some Same /\ tuple_for_each S 2 0 move_only Rvalue (Value 3) = Some (New (Value 4) Gone) /\
  tuple_for_each S 1 0 copyable Rvalue (Value 3) = Some (New (Value 4) (Value 4)) /\ returnable move_only Rvalue /\
  for_each_butlast S true copyable Lvalue (Value 3) = Some (New (Value 4) (Value 3)) /\
  bitset_for_each S move_only Rvalue (Value 3) = Some (New (Value 4) Gone).
Proof. repeat split. Qed.
