(** Property C135: folding a tuple calls the given function, whatever operators the elements have. *)
From Coq Require Import List Bool Arith Lia.
From Verif Require Import PlusModel PlusSpec PlusProofs.
Import ListNotations.

Section C135.
Variable converts : nat -> nat -> bool.
Variable found : nat -> list operator.
Variable found_op : list operator.
Variable V : Type.
Variable class_of : V -> nat.
Variable op : V -> V -> V.
Hypothesis known : forall g, In g found_op \/ (exists c, In g (found c)) -> apart g /\ well_formed g.

Lemma lookup_known acc a : Forall apart (lookup found found_op V class_of acc a) /\ Forall well_formed (lookup found found_op V class_of acc a).
Proof.
  rewrite !Forall_forall. split; intros g H; unfold lookup in H; rewrite !in_app_iff in H; apply known; intuition eauto.
Qed.
Lemma left_compiles t : forall init r, fold_left converts found found_op V class_of op init t = Some r -> r = List.fold_left op (map snd t) init.
Proof.
  induction t as [|[a v] t IH]; intros init r; cbn; [congruence|]. destruct (resolve _ _ _ _ _) as [[|]|]; [apply IH|discriminate|discriminate].
Qed.
Lemma left_free t : (forall a v g, In (a, v) t -> In g found_op \/ (exists c, In g (found c)) -> ~ clash_left g a) ->
  forall init, fold_left converts found found_op V class_of op init t = Some (List.fold_left op (map snd t) init).
Proof.
  induction t as [|[a v] t IH]; intros H init; cbn; [reflexivity|].
  destruct (lookup_known init a) as [A W].
  rewrite (proj2 (proj1 (resolve_left converts _ a A W))).
  - apply IH. intros a' v' g I. exact (H a' v' g (or_intror I)).
  - intros g G. apply (H a v g (or_introl eq_refl)). unfold lookup in G. rewrite !in_app_iff in G. intuition eauto.
Qed.
Lemma left_clash t a v g : In (a, v) t -> In g found_op \/ In g (found (class a)) -> clash_left g a ->
  forall init, fold_left converts found found_op V class_of op init t = None.
Proof.
  induction t as [|[b w] t IH]; intros I G C init; [destruct I|]. cbn.
  destruct I as [E|I].
  - injection E as -> ->. destruct (lookup_known init a) as [A W].
    destruct (resolve_left converts _ a A W) as [X N].
    destruct (resolve converts helper_plus_any (lookup found found_op V class_of init a) (helper fold_helper) a) as [[|]|] eqn:R; [|reflexivity|reflexivity].
    exfalso. apply (proj1 X eq_refl g); [|exact C]. unfold lookup. rewrite !in_app_iff. tauto.
  - destruct (resolve _ _ _ _ _) as [[|]|]; [|reflexivity|reflexivity]. apply IH; assumption.
Qed.
Lemma right_compiles t : forall init r, fold_right converts found found_op V class_of op init t = Some r -> r = List.fold_right op init (map snd t).
Proof.
  induction t as [|[a v] t IH]; intros init r; cbn; [congruence|]. destruct (fold_right _ _ _ _ _ _ init t) as [q|] eqn:Q; [|discriminate].
  destruct (resolve _ _ _ _ _) as [[|]|]; [|discriminate|discriminate]. intros E. injection E as <-. now rewrite (IH init q Q).
Qed.
Lemma right_free t : (forall a v g, In (a, v) t -> In g found_op \/ (exists c, In g (found c)) -> ~ clash_right g a) ->
  forall init, fold_right converts found found_op V class_of op init t = Some (List.fold_right op init (map snd t)).
Proof.
  induction t as [|[a v] t IH]; intros H init; cbn; [reflexivity|].
  rewrite IH by (intros a' v' g I; exact (H a' v' g (or_intror I))).
  match goal with |- context [lookup _ _ _ _ ?x a] => destruct (lookup_known x a) as [A W] end.
  rewrite (proj2 (proj1 (resolve_right converts _ a A W))); [reflexivity|].
  intros g G. apply (H a v g (or_introl eq_refl)). unfold lookup in G. rewrite !in_app_iff in G. intuition eauto.
Qed.
Lemma right_clash t a v g : In (a, v) t -> In g found_op \/ In g (found (class a)) -> clash_right g a ->
  forall init, fold_right converts found found_op V class_of op init t = None.
Proof.
  induction t as [|[b w] t IH]; intros I G C init; [destruct I|]. cbn.
  destruct I as [E|I].
  - injection E as -> ->. destruct (fold_right _ _ _ _ _ _ init t) as [q|]; [|reflexivity]. destruct (lookup_known q a) as [A W].
    destruct (resolve_right converts _ a A W) as [X N].
    destruct (resolve converts any_plus_helper (lookup found found_op V class_of q a) a (helper fold_helper)) as [[|]|] eqn:R; [|reflexivity|reflexivity].
    exfalso. apply (proj1 X eq_refl g); [|exact C]. unfold lookup. rewrite !in_app_iff. tauto.
  - now rewrite IH.
Qed.
Lemma join_from_ok t : forall acc, join_from converts found found_op V class_of op acc t = Some (List.fold_left op (map snd t) acc).
Proof.
  induction t as [|[a v] t IH]; intros acc; cbn; [reflexivity|]. destruct (lookup_known acc a) as [A W].
  rewrite (resolve_join converts _ A W). apply IH.
Qed.
End C135.

(** Whatever operators lookup finds that do not name the helpers: a fold that compiles is the fold with the
    given function. It compiles if no operator+ takes anything on one side, not by reference to const, and
    exactly an element on the other side. *)
Theorem C135_folds_partial :
  forall converts found found_op V class_of op,
  (forall g, In g found_op \/ (exists c, In g (found c)) -> apart g /\ well_formed g) ->
  forall t init,
  (forall r, fold_left converts found found_op V class_of op init t = Some r -> r = List.fold_left op (map snd t) init) /\
  (forall r, fold_right converts found found_op V class_of op init t = Some r -> r = List.fold_right op init (map snd t)) /\
  ((forall a v g, In (a, v) t -> In g found_op \/ (exists c, In g (found c)) -> ~ clash_left g a) ->
   fold_left converts found found_op V class_of op init t = Some (List.fold_left op (map snd t) init)) /\
  ((forall a v g, In (a, v) t -> In g found_op \/ (exists c, In g (found c)) -> ~ clash_right g a) ->
   fold_right converts found found_op V class_of op init t = Some (List.fold_right op init (map snd t))).
Proof.
  intros converts found found_op V class_of op K t init. split; [|split; [|split]].
  - apply left_compiles.
  - apply right_compiles.
  - intros H. now apply left_free.
  - intros H. now apply right_free.
Qed.
Print Assumptions C135_folds_partial.

(** join compiles always and is the fold. *)
Theorem C135_join :
  forall converts found found_op V class_of op,
  (forall g, In g found_op \/ (exists c, In g (found c)) -> apart g /\ well_formed g) ->
  forall a v t, join converts found found_op V class_of op ((a, v) :: t) = Some (List.fold_left op (map snd t) v).
Proof. intros converts found found_op V class_of op K a v t. cbn. now apply join_from_ok. Qed.
Print Assumptions C135_join.

(** FINDING: any such operator makes the folds over a tuple with such an element ambiguous, wherever the element
    is and whatever the function. *)
Theorem C135_greedy_refuted :
  forall converts found found_op V class_of op,
  (forall g, In g found_op \/ (exists c, In g (found c)) -> apart g /\ well_formed g) ->
  forall t init a v g, In (a, v) t -> In g found_op \/ In g (found (class a)) ->
  (clash_left g a -> fold_left converts found found_op V class_of op init t = None) /\
  (clash_right g a -> fold_right converts found found_op V class_of op init t = None).
Proof.
  intros converts found found_op V class_of op K t init a v g I G. split; intros C.
  - exact (left_clash converts found found_op V class_of op K t a v g I G C init).
  - exact (right_clash converts found found_op V class_of op K t a v g I G C init).
Qed.
Print Assumptions C135_greedy_refuted.

(** FINDING: the operators in ct_format.hpp are such: a tuple with a format_result cannot be folded, in either
    direction, but can be joined. *)
Theorem C135_format_result_refuted :
  forall converts found found_op V class_of op,
  (forall g, In g found_op \/ (exists c, In g (found c)) -> apart g /\ well_formed g) ->
  (forall g, In g format_operators -> In g (found format_result)) ->
  forall t init a v, In (a, v) t -> class a = format_result ->
  fold_left converts found found_op V class_of op init t = None /\
  fold_right converts found found_op V class_of op init t = None /\
  exists r, join converts found found_op V class_of op t = Some r.
Proof.
  intros converts found found_op V class_of op K F t init a v I C.
  destruct a as [c k r]. cbn in C. subst c.
  split; [|split].
  - apply (left_clash converts found found_op V class_of op K t _ v (Operator AnyValue (Value format_result) true) I).
    + right. apply F. cbn. tauto.
    + split; [now left|now left].
  - apply (right_clash converts found found_op V class_of op K t _ v (Operator (Value format_result) AnyValue true) I).
    + right. apply F. cbn. tauto.
    + split; [now left|now left].
  - destruct t as [|[b w] t]; [destruct I|]. eexists. now apply C135_join.
Qed.
Print Assumptions C135_format_result_refuted.

(** A class 3 with operators c + c and any const& + c const&; class 4 with any + c. *)
Example C135_nonvacuous :
  let found c := match c with
    | 2 => format_operators
    | 3 => [Operator (ConstRef 3) (ConstRef 3) false; Operator AnyConstRef (ConstRef 3) true]
    | 4 => [Operator AnyForward (ConstRef 4) true] | _ => [] end in
  let e c v := (Arg c true false, v) in
  (forall g, In g (@nil operator) \/ (exists c, In g (found c)) -> apart g /\ well_formed g) /\
  fold_left (fun _ c => c =? 3) found [] nat (fun _ => 5) Nat.sub 10 [e 3 1; e 5 2; e 3 3] = Some 4 /\
  fold_left (fun _ _ => false) found [] nat (fun _ => 5) Nat.sub 10 [e 3 1; e 4 2] = None /\
  fold_right (fun _ _ => false) found [] nat (fun _ => 5) Nat.sub 10 [e 3 11; e 4 12] = Some 9 /\
  join (fun _ _ => false) found [] nat (fun _ => 2) Nat.sub [e 2 9; e 4 2] = Some 7.
Proof.
  split; [|repeat split]. intros g [[]|[c G]].
  assert (In g (format_operators ++ [Operator (ConstRef 3) (ConstRef 3) false; Operator AnyConstRef (ConstRef 3) true; Operator AnyForward (ConstRef 4) true])) as I.
  { destruct c as [|[|[|[|[|c]]]]]; cbn in G |- *; tauto. }
  cbn in I. repeat destruct I as [<-|I]; try destruct I.
  all: split; [intros h [->| ->]; split; cbn; intuition discriminate|].
  all: unfold well_formed; cbn; intuition discriminate.
Qed.
