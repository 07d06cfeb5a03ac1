(** C125: safe_identity gives back its argument, and never a reference that dangles. *)
From Coq Require Import List Arith Lia Bool.
From Verif Require Import SafeIdModel SafeIdSpec SafeIdProofs.
Import ListNotations.

(** After [decltype(auto) r = stdx::safe_identity(e);] (or [expand(e)]), for every expression [e], however it
    is made of names, moves, prvalues and further identities: [r] can be used, and has the value and the
    constness of what [e] is about.  If that is an lvalue, [r] refers to that object and nothing has changed;
    otherwise [r] is a new object. *)
Theorem C125_never_dangles : forall V (husk : V -> V) c w e e' w' r v k,
  (e' = SafeIdentity e \/ e' = Expand e) ->
  sensible w e -> original w e v k -> declare husk c w e' = Some (w', r) ->
  usable w' r v k /\
  (forall x, innermost e = AVariable x -> r = x /\ w' = w) /\
  (~ of_lvalue e -> length (objects w) <= r).
Proof.
  intros V husk c w e e' w' r v k He' Hs Ho Hd.
  assert (Einn : innermost e' = innermost e) by (destruct He'; subst; reflexivity).
  assert (Hs' : sensible w e') by (unfold sensible in *; now rewrite Einn).
  assert (Ho' : original w e' v k) by (unfold original in *; now rewrite Einn).
  destruct (lvalue_dec e) as [[x Hx]|Hl].
  - rewrite (declare_lvalue husk c w e' x) in Hd by congruence. injection Hd as <- <-.
    unfold sensible, original in Hs, Ho. rewrite Hx in Hs, Ho.
    destruct Ho as [o [Hox [<- <-]]]. destruct Hs as [o' [Hox' Hal]]. rewrite Hox in Hox'. injection Hox' as <-.
    split; [unfold usable; rewrite Hox; destruct o; cbn in *; now subst|].
    split; [intros y Hy; split; congruence|]. intros H; exfalso; apply H; now exists x.
  - assert (Hl' : ~ of_lvalue e') by (unfold of_lvalue in *; now rewrite Einn).
    destruct (declare_rvalue husk c w e' v k Hl' Hs' Ho') as [H1 H2].
    destruct (fine_dec c e' k) as [Hf|Hf]; [|rewrite (H2 Hf) in Hd; discriminate].
    destruct (H1 Hf) as [w1 [r1 [us [Hd1 [Hobj [_ Hr]]]]]]. rewrite Hd1 in Hd. injection Hd as -> ->.
    destruct Hr as [[_ [Hle Hn]] | [[_ [_ [Hp _]]] | [Hp _]]].
    + split; [exact Hn|]. split; [intros x Hx; exfalso; apply Hl; now exists x|]. intros _; exact Hle.
    + exfalso. apply Hp. destruct He'; subst; exact Hl.
    + destruct He'; subst; contradiction.
Qed.
Print Assumptions C125_never_dangles.

(** The objects there were before stay as they are, with one exception: the [x] of a [std::move(x)] is moved
    from, if it is not const and its class has a move constructor. *)
Theorem C125_others_unchanged : forall V (husk : V -> V) c w e e' w' r v k i,
  (e' = SafeIdentity e \/ e' = Expand e) ->
  sensible w e -> original w e v k -> declare husk c w e' = Some (w', r) -> i < length (objects w) ->
  (innermost e = AMoved i /\ k = false /\ movable c -> nth_error (objects w') i = Some (Object (husk v) false true)) /\
  (~ (innermost e = AMoved i /\ k = false /\ movable c) -> nth_error (objects w') i = nth_error (objects w) i).
Proof.
  intros V husk c w e e' w' r v k i He' Hs Ho Hd Hi.
  assert (Einn : innermost e' = innermost e) by (destruct He'; subst; reflexivity).
  assert (Ecalls : calls e' = S (calls e)) by (destruct He'; subst; reflexivity).
  assert (Hs' : sensible w e') by (unfold sensible in *; now rewrite Einn).
  assert (Ho' : original w e' v k) by (unfold original in *; now rewrite Einn).
  destruct (lvalue_dec e) as [[x Hx]|Hl].
  - rewrite (declare_lvalue husk c w e' x) in Hd by congruence. injection Hd as <- <-.
    split; [intros [H _]; congruence|reflexivity].
  - assert (Hl' : ~ of_lvalue e') by (unfold of_lvalue in *; now rewrite Einn).
    destruct (declare_rvalue husk c w e' v k Hl' Hs' Ho') as [H1 H2].
    destruct (fine_dec c e' k) as [Hf|Hf]; [|rewrite (H2 Hf) in Hd; discriminate].
    destruct (H1 Hf) as [w1 [r1 [us [Hd1 [Hobj _]]]]]. rewrite Hd1 in Hd. injection Hd as -> ->.
    destruct Hf as [Hf|Hmade]; [congruence|].
    rewrite Hobj, nth_error_app1 by (rewrite left_of_length; exact Hi).
    unfold left_of. rewrite Ecalls, Einn. cbn [Nat.eqb].
    destruct (innermost e) as [x|x|u] eqn:Ein; [exfalso; apply Hl; now exists x| |split; [intros [H _]; discriminate|reflexivity]].
    assert (Hx : x < length (objects w)).
    { unfold original in Ho. rewrite Ein in Ho. destruct Ho as [o [Ho _]]. apply nth_error_Some; congruence. }
    unfold can_be_made, movable, copied, copied_if_const in *.
    destruct k; [split; [intros [_ [H _]]; discriminate|reflexivity]|].
    destruct (moving c) eqn:Em.
    + rewrite put_nth by exact Hx. destruct (Nat.eqb_spec x i) as [<-|Hne].
      * split; [reflexivity|]. intros H; exfalso; apply H. destruct Hmade as [[Ha _]|[_ [H' _]]]; [|discriminate].
        repeat split; assumption.
      * split; [intros [H _]; congruence|reflexivity].
    + split; [intros [_ [_ [_ H]]]; discriminate|reflexivity].
    + split; [intros [_ [_ [_ H]]]; discriminate|reflexivity].
Qed.
Print Assumptions C125_others_unchanged.

(** The call compiles exactly for lvalues, and for rvalues from which an object can be made. *)
Theorem C125_compiles_iff : forall V (husk : V -> V) c w e e' v k,
  (e' = SafeIdentity e \/ e' = Expand e) -> sensible w e -> original w e v k ->
  (exists y, declare husk c w e' = Some y) <-> (of_lvalue e \/ can_be_made c k).
Proof.
  intros V husk c w e e' v k He' Hs Ho.
  assert (Einn : innermost e' = innermost e) by (destruct He'; subst; reflexivity).
  assert (Ecalls : calls e' = S (calls e)) by (destruct He'; subst; reflexivity).
  assert (Hs' : sensible w e') by (unfold sensible in *; now rewrite Einn).
  assert (Ho' : original w e' v k) by (unfold original in *; now rewrite Einn).
  destruct (lvalue_dec e) as [[x Hx]|Hl].
  - rewrite (declare_lvalue husk c w e' x) by congruence. split; [left; now exists x|eauto].
  - assert (Hl' : ~ of_lvalue e') by (unfold of_lvalue in *; now rewrite Einn).
    destruct (declare_rvalue husk c w e' v k Hl' Hs' Ho') as [H1 H2]. split.
    + intros [y Hy]. right. destruct (fine_dec c e' k) as [[Hf|Hf]|Hf]; [congruence|exact Hf|].
      rewrite (H2 Hf) in Hy; discriminate.
    + intros [H|H]; [contradiction|]. destruct (H1 (or_intror H)) as [w1 [r1 [us [Hd _]]]]. eauto.
Qed.
Print Assumptions C125_compiles_iff.

(** Lvalues are not copied or moved.  For rvalues every call of safe_identity or expand makes one object: by a
    move if the class has a move constructor and the argument is not const, by a copy otherwise. *)
Theorem C125_constructions : forall V (husk : V -> V) c w e w' r v k,
  sensible w e -> original w e v k -> declare husk c w e = Some (w', r) ->
  (of_lvalue e -> moves w' = moves w /\ copies w' = copies w) /\
  (~ of_lvalue e -> k = false /\ moving c = MoveDeclared -> moves w' = moves w + calls e /\ copies w' = copies w) /\
  (~ of_lvalue e -> ~ (k = false /\ moving c = MoveDeclared) -> moves w' = moves w /\ copies w' = copies w + calls e).
Proof.
  intros V husk c w e w' r v k Hs Ho Hd.
  destruct (lvalue_dec e) as [[x Hx]|Hl].
  - rewrite (declare_lvalue husk c w e x Hx) in Hd. injection Hd as <- <-.
    split; [auto|]. split; intros H; exfalso; apply H; now exists x.
  - destruct (declare_rvalue husk c w e v k Hl Hs Ho) as [H1 H2].
    destruct (fine_dec c e k) as [Hf|Hf]; [|rewrite (H2 Hf) in Hd; discriminate].
    destruct (H1 Hf) as [w1 [r1 [us [Hd1 [_ [Hc _]]]]]]. rewrite Hd1 in Hd. injection Hd as -> ->.
    unfold counted, bump in Hc.
    split; [contradiction|]. split; intros _.
    + intros [-> Hm]. rewrite Hm in Hc. exact Hc.
    + intros Hn. destruct k; [exact Hc|]. destruct (moving c); try exact Hc. exfalso; apply Hn; auto.
Qed.
Print Assumptions C125_constructions.

(** Not so for std::identity: over all expressions, the declared reference dangles exactly if the outermost calls
    are of std::identity and their argument is a prvalue.  A call of safe_identity anywhere around the others is enough. *)
Theorem C125_std_identity_refuted : forall V (husk : V -> V) c w e w' r,
  sensible w e -> declare husk c w e = Some (w', r) -> (dangles w' r <-> std_of_prvalue e).
Proof.
  intros V husk c w e w' r Hs Hd. destruct (original_exists w e Hs) as [v [k Ho]].
  destruct (lvalue_dec e) as [[x Hx]|Hl].
  - rewrite (declare_lvalue husk c w e x Hx) in Hd. injection Hd as <- <-.
    unfold sensible in Hs. rewrite Hx in Hs. destruct Hs as [o [Hox Hal]]. split.
    + intros H. specialize (H o Hox). congruence.
    + intros H. exfalso. revert Hx H. clear. induction e; cbn; try contradiction.
      intros Hx [H|H]; [|now apply IHe]. destruct e; cbn in *; try contradiction; try discriminate;
        apply H; now exists x.
  - destruct (declare_rvalue husk c w e v k Hl Hs Ho) as [H1 H2].
    destruct (fine_dec c e k) as [Hf|Hf]; [|rewrite (H2 Hf) in Hd; discriminate].
    destruct (H1 Hf) as [w1 [r1 [us [Hd1 [Hobj [_ Hr]]]]]]. rewrite Hd1 in Hd. injection Hd as -> ->.
    destruct Hr as [[Hp [_ Hn]] | [[Hx [Hz [_ Hp]]] | [Hp [_ Hn]]]].
    + split; [intros H; specialize (H _ Hn); discriminate|]. intros H. exfalso.
      destruct e; cbn in *; try contradiction.
    + split; [|contradiction]. intros H. exfalso.
      unfold sensible in Hs. rewrite Hx in Hs. destruct Hs as [o [Hox Hal]].
      unfold left_of in Hobj. rewrite Hz in Hobj. cbn in Hobj.
      specialize (H o). rewrite Hobj, nth_error_app1 in H by (apply nth_error_Some; congruence).
      specialize (H Hox). congruence.
    + split; [intros _; exact Hp|]. intros _ o Ho'. rewrite Hn in Ho'. injection Ho' as <-. reflexivity.
Qed.
Print Assumptions C125_std_identity_refuted.

(** "Returns its argument unchanged" is not so of the argument: for every variable that is not const, of a class
    with a move constructor, [safe_identity(std::move(x))] moves from [x], while std::identity leaves it. *)
Theorem C125_argument_refuted : forall V (husk : V -> V) c w x v,
  movable c -> nth_error (objects w) x = Some (Object v false true) ->
  (exists w' r, declare husk c w (SafeIdentity (Move x)) = Some (w', r) /\
     nth_error (objects w') x = Some (Object (husk v) false true)) /\
  declare husk c w (StdIdentity (Move x)) = Some (w, x).
Proof.
  intros V husk c w x v Hm Hx.
  assert (Hs : sensible w (Move x)) by (exists (Object v false true); auto).
  assert (Ho : original w (Move x) v false) by (exists (Object v false true); auto).
  split.
  - destruct (proj2 (C125_compiles_iff V husk c w (Move x) _ v false (or_introl eq_refl) Hs Ho) (or_intror (or_introl Hm)))
      as [[w' r] Hd]. exists w', r. split; [exact Hd|].
    apply (C125_others_unchanged V husk c w (Move x) _ w' r v false x (or_introl eq_refl) Hs Ho Hd);
      [apply nth_error_Some; congruence|repeat split; apply Hm].
  - unfold declare. cbn [eval std_identity fst snd].
    rewrite <- (app_nil_r (objects w)) at 2. rewrite end_temporaries_app. cbn [map].
    rewrite app_nil_r, world_eta. reflexivity.
Qed.
Print Assumptions C125_argument_refuted.

(** A class with a move constructor, one variable holding 7; moving leaves 0. *)
Example C125_example :
  let c := {| is_array := false; has_copy := true; moving := MoveDeclared |} in
  let w := World [Object 7 false true] 0 0 in
  let husk := fun _ : nat => 0 in
  sensible w (StdIdentity (Move 0)) /\ original w (StdIdentity (Move 0)) 7 false /\ movable c /\
  (** safe_identity(x), safe_identity(std::identity{}(5)), std::identity{}(safe_identity(5)), safe_identity(std::move(x)) *)
  declare husk c w (SafeIdentity (Name 0)) = Some (w, 0) /\
  declare husk c w (SafeIdentity (StdIdentity (Temp 5))) =
    Some (World [Object 7 false true; Object 0 false false; Object 5 false true] 1 0, 2) /\
  declare husk c w (StdIdentity (SafeIdentity (Temp 5))) =
    Some (World [Object 7 false true; Object 0 false false; Object 5 false false] 1 0, 2) /\
  declare husk c w (SafeIdentity (Move 0)) = Some (World [Object 0 false true; Object 7 false true] 1 0, 1) /\
  std_of_prvalue (StdIdentity (SafeIdentity (Temp 5))) /\
  declare husk {| is_array := true; has_copy := true; moving := MoveDeclared |} w (SafeIdentity (Temp 5)) = None.
Proof.
  cbv zeta. repeat split; try (exists (Object 7 false true); auto; fail).
  cbn. left. intros [x Hx]. discriminate.
Qed.
