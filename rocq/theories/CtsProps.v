(** * C120: strings as types *)
From Verif Require Import Base BaseLemmas CtStringModel CtStringSpec CtStringProofs CtsModel CtsSpec.
Open Scope N_scope.

Lemma removelast_view s : removelast s = view s.
Proof. rewrite removelast_firstn_len. unfold view. now rewrite Nat.sub_1_r. Qed.
Lemma plus_ok a b : ended a -> ended b -> plus a b = Some ((if is_typed a && is_typed b then Typed else Value) ((text a ++ text b) ++ [0])).
Proof.
  intros Ha Hb. unfold text. rewrite !removelast_view. destruct a as [x|x], b as [y|y]; cbn in *; rewrite concat_ok by assumption; reflexivity.
Qed.
Lemma leaves_some e : leaves e <> [].
Proof. induction e; cbn; try assumption; try discriminate. intros E. apply app_eq_nil in E. tauto. Qed.
Lemma text_app (l : list N) c : removelast (l ++ [c]) = l.
Proof. now rewrite removelast_last. Qed.
Lemma eval_ok e : Forall ended (leaves e) ->
  match kind e with
  | Some k => exists o, eval e = Some o /\ is_typed o = k /\ text o = spells e /\ ended o /\ (array_of o = spells e ++ [0] \/ exists o', leaves e = [o'] /\ array_of o = array_of o')
  | None => eval e = None
  end.
Proof.
  unfold spells. induction e as [o|a IHa b IHb|a IHa|a IHa|a IHa|a IHa]; intros F; cbn [kind leaves eval] in *.
  - exists o. split; [reflexivity|]. split; [reflexivity|]. split; [cbn; now rewrite app_nil_r|]. split; [now inversion F|]. right. eauto.
  - apply Forall_app in F as [Fa Fb]. specialize (IHa Fa). specialize (IHb Fb).
    destruct (kind a) as [ka|]; [|now rewrite IHa]. destruct IHa as (oa & -> & Ka & Ta & Ea & _).
    destruct (kind b) as [kb|]; [|now rewrite IHb]. destruct IHb as (ob & -> & Kb & Tb & Eb & _).
    eexists. split; [apply plus_ok; assumption|]. rewrite Ka, Kb, Ta, Tb, map_app, concat_app.
    destruct (ka && kb); (split; [reflexivity|]); (split; [apply text_app|]); (split; [cbn; intros E; apply app_eq_nil in E as [_ E]; discriminate|left; reflexivity]).
  - specialize (IHa F). destruct (kind a) as [[|]|]; [| |now rewrite IHa]; destruct IHa as (o & -> & K & Q); destruct o; try discriminate K; cbn in *; [|reflexivity]. eexists. split; [reflexivity|]. split; [reflexivity|exact Q].
  - specialize (IHa F). destruct (kind a) as [[|]|]; [| |now rewrite IHa]; destruct IHa as (o & -> & K & Q); destruct o; try discriminate K; cbn in *; [|reflexivity]. eexists. split; [reflexivity|]. split; [reflexivity|exact Q].
  - specialize (IHa F). destruct (kind a) as [k|]; [|now rewrite IHa]. destruct IHa as (o & -> & K & Q). destruct o; cbn in *; (eexists; split; [reflexivity|]; split; [reflexivity|exact Q]).
  - specialize (IHa F). destruct (kind a) as [k|]; [|now rewrite IHa]. destruct IHa as (o & -> & K & Q). destruct o; cbn in *; (eexists; split; [reflexivity|]; split; [reflexivity|exact Q]).
Qed.

(** An expression compiles exactly if nothing but types is unwrapped; then it spells its constants from left
    to right, and it is a type or a string as the operands say. *)
Theorem C120_text : forall e, Forall ended (leaves e) ->
  (eval e = None <-> kind e = None) /\
  forall o, eval e = Some o -> kind e = Some (is_typed o) /\ text o = spells e /\ size_of o = len (spells e).
Proof.
  intros e F. pose proof (eval_ok e F) as H. destruct (kind e) as [k|].
  - destruct H as (o & E & K & T & Ed & _). split; [split; intros; congruence|]. intros o' E'. assert (o' = o) as -> by congruence. split; [congruence|]. split; [exact T|].
    rewrite <- T. unfold text. rewrite removelast_view. destruct o; cbn; apply size_view.
  - split; [tauto|]. intros o E. congruence.
Qed.
Print Assumptions C120_text.
Lemma same_array_ok a : forall b, same_array a b = true <-> a = b.
Proof.
  induction a as [|c a IH]; intros [|d b]; cbn; try (split; [discriminate|discriminate]); [tauto|]. rewrite andb_true_iff, N.eqb_eq, IH. split; [intros [-> ->]; reflexivity|intros [= -> ->]; auto].
Qed.
(** However a sum is grouped, and wherever its operands are wrapped or unwrapped on the way: the same
    constants give the same array, so the same type if both results are types. *)
Theorem C120_grouping : forall e e' o o', Forall ended (leaves e) -> (1 < length (leaves e))%nat \/ Forall terminated (leaves e) -> leaves e' = leaves e ->
  eval e = Some o -> eval e' = Some o' -> array_of o = array_of o' /\ terminated o /\ (is_typed o = is_typed o' -> o = o' /\ same_type o o' = true).
Proof.
  intros e e' o o' F M L E E'. pose proof (eval_ok e F) as H. assert (F' : Forall ended (leaves e')) by now rewrite L. pose proof (eval_ok e' F') as H'.
  destruct (kind e); [|congruence]. destruct H as (p & Ep & _ & _ & _ & A). rewrite E in Ep. injection Ep as <-. destruct (kind e'); [|congruence]. destruct H' as (p & Ep & _ & _ & _ & A'). rewrite E' in Ep. injection Ep as <-.
  assert (W : forall x o1, leaves x = leaves e -> array_of o1 = spells x ++ [0] \/ (exists q, leaves x = [q] /\ array_of o1 = array_of q) -> array_of o1 = spells e ++ [0]).
  { intros x o1 Lx [A1|(q & Lq & A1)]; unfold spells in *; rewrite Lx in *; [exact A1|]. rewrite Lq in *. destruct M as [M|M]; [cbn in M; lia|].
    inversion M as [|? ? [cs Q] _]; subst. cbn. unfold text. rewrite A1, Q, text_app, app_nil_r. reflexivity. }
  pose proof (W e o eq_refl A) as Q. pose proof (W e' o' L A') as Q'. split; [congruence|]. split; [eexists; exact Q|]. intros K.
  assert (o = o') as <- by (destruct o, o'; cbn in *; congruence). split; [reflexivity|]. destruct o; cbn; [apply N.eqb_refl|now apply same_array_ok].
Qed.
Print Assumptions C120_grouping.
(** For strings that end with a zero, as literals and sums do: the types are the same exactly if the
    strings are equal, which is if they spell the same. *)
Theorem C120_same_type : forall x y, terminated (Typed x) -> terminated (Typed y) ->
  (same_type (Typed x) (Typed y) = true <-> text (Typed x) = text (Typed y)) /\
  (equals (Typed x) (Typed y) = Some true <-> text (Typed x) = text (Typed y)) /\
  (equals (Value x) (Value y) = Some true <-> text (Value x) = text (Value y)).
Proof.
  intros x y [cs X] [ds Y]. cbn in X, Y. subst x y. unfold text. cbn [array_of same_type equals]. unfold equal. rewrite !text_app, !view_app. rewrite same_array_ok.
  assert (Q : Some (chars_eq cs ds) = Some true <-> cs = ds) by (rewrite <- (chars_eq_ok cs); split; congruence).
  split; [|split; exact Q]. split; [apply app_inj_tail|congruence].
Qed.
Print Assumptions C120_same_type.
(** Converting a cts_t gives the string it was made from, in every way there is, and back. *)
Theorem C120_conversions : forall s, let t := Typed s in
  unary_plus t = Some (Value s) /\ call t = Some (Value s) /\ to_string t = Some (Value s) /\ to_sized (len s) t = Some (Value s) /\
  ct (Value s) = Some t /\ ct t = Some t /\ size_of t = size_of (Value s).
Proof. intros s t. cbn. rewrite N.eqb_refl. repeat split; reflexivity. Qed.
Print Assumptions C120_conversions.
Example C120_nonvacuous :
  let h := [104; 105; 0] in let w := [33; 0] in let e := Plus (Leaf (Typed h)) (Plus (Leaf (Value w)) (Leaf (Typed h))) in
  Forall ended (leaves e) /\ eval e = Some (Value [104; 105; 33; 104; 105; 0]) /\ kind e = Some false /\
  eval (Plus (Wrapped (Plus (Leaf (Typed h)) (Leaf (Value w)))) (Leaf (Typed h))) = Some (Typed [104; 105; 33; 104; 105; 0]) /\ terminated (Typed h) /\
  eval (Unwrap (Leaf (Value h))) = None.
Proof. cbn zeta. split; [repeat constructor; discriminate|]. repeat split; try reflexivity. exists [104; 105]. reflexivity. Qed.

(** ** What fails *)
(** A string made from as many characters as the array has room for is equal to the one without the last
    of them, but the types are different ones, until something is added. *)
Theorem C120_unterminated_refuted : forall cs c, c <> 0 -> exists s, of_ptr (len cs + 1) (cs ++ [c]) (len cs + 1) = Some s /\
  equals (Typed s) (Typed (cs ++ [0])) = Some true /\ same_type (Typed s) (Typed (cs ++ [0])) = false /\
  text (Typed s) = cs /\ plus (Typed s) (Typed [0]) = Some (Typed (cs ++ [0])).
Proof.
  intros cs c H. exists (cs ++ [c]).
  split; [|split; [|split; [|split]]].
  - unfold of_ptr. rewrite len_app. change (len [c]) with 1. rewrite N.leb_refl. replace (N.to_nat (len cs + 1)) with (length (cs ++ [c])) by (rewrite app_length; unfold len; cbn; lia).
    rewrite firstn_all. pose proof (copy_at_ok (cs ++ [c]) [] []) as Q. cbn [app] in Q. rewrite !app_nil_r in Q. exact Q.
  - cbn. unfold equal. rewrite !view_app. f_equal. now apply chars_eq_ok.
  - cbn. destruct (same_array (cs ++ [c]) (cs ++ [0])) eqn:E; [|reflexivity]. apply same_array_ok, app_inj_tail in E. tauto.
  - unfold text. cbn. apply text_app.
  - rewrite plus_ok; [|cbn; intros E; apply app_eq_nil in E as [_ E]; discriminate|discriminate]. cbn [is_typed andb]. unfold text. cbn [array_of]. rewrite text_app. cbn. rewrite app_nil_r. reflexivity.
Qed.
Print Assumptions C120_unterminated_refuted.
(** A cts_t does not take part where a ct_string of given or deduced size is asked for: it cannot be compared
    with a ct_string, and it does not become one with more room. *)
Theorem C120_mixed_refuted : forall s s', equals (Value s) (Typed s') = None /\ equals (Typed s) (Value s') = None /\ forall n, n <> len s -> to_sized n (Typed s) = None.
Proof. intros s s'. split; [reflexivity|]. split; [reflexivity|]. intros n H. cbn. destruct (len s =? n) eqn:E; [apply N.eqb_eq in E; congruence|reflexivity]. Qed.
Print Assumptions C120_mixed_refuted.
