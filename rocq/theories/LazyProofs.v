(** Proofs about LazyModel.v. *)
From Verif Require Import Base BaseLemmas LatchedModel LatchedSpec LatchedProofs LazyModel LazySpec.

Ltac unf := unfold store, constructible, init, constructors, through, converts, inside, in_closure, elides, takes_function, takes_type, lambda, wraps, kept, in_place, option_map, published, elision in *.
(** Splits on every test still to be made. *)
Ltac split_tests :=
  repeat (cbn [andb negb orb by_value returns closure is_class is_final when_const when_mutable elide_parens elide_braces flat_map app fst snd transfer] in *; subst; try discriminate;
    match goal with
    | H : ?x = ?x |- _ => clear H
    | H : _ /\ _ |- _ => destruct H
    | H : Some _ = Some _ |- _ => injection H; clear H; intros
    | H : context [match ?x with _ => _ end] |- _ => lazymatch x with context [match _ with _ => _ end] => fail | _ => destruct x eqn:? end
    | |- context [match ?x with _ => _ end] => lazymatch x with context [match _ with _ => _ end] => fail | _ => destruct x eqn:? end
    end); try congruence.

Lemma in_place_iff s c t :
  in_place (store elision s c t) <->
  takes_function s c /\ takes_type s t /\ (returns c = ByValue \/ t = Scalar).
Proof.
  split.
  - intros H. destruct s, t as [|m|cp mv any]; unf; unfold by_value in *; destruct c as [[] [] d [] []];
      cbn in H |- *; split_tests; intuition congruence.
  - intros (A & B & [C | ->]).
    + destruct s, t as [|m|cp mv any]; unf; unfold by_value in *; destruct c as [[] [] d [] []]; cbn in A, B, C |- *; split_tests; intuition congruence.
    + destruct s; unf; unfold by_value in *; destruct c as [[] [] d [] []]; cbn in A |- *; split_tests; intuition congruence.
Qed.
Lemma all_rules r s c m :
  ordinary m -> can_move m -> takes_function s c -> returns c = ByValue ->
  kept (store r s c (Class m)).
Proof.
  intros [P1 P2] T A B. destruct m as [cp mv g l], c as [a b d e rt], r as [r1 r2]. cbn in P1, P2, B. subst.
  unfold can_move in T. cbn in T.
  destruct s; cbn in A; unfold lambda in A; cbn in A; repeat match goal with H : _ /\ _ |- _ => destruct H end; subst;
  (destruct T as [-> | [-> ->]]; [destruct cp|]); destruct r1, r2;
  (eexists; split; [reflexivity|split; [cbn; intuition congruence|cbn; lia]]).
Qed.
Lemma published_moves s c m :
  ordinary m -> takes_function s c -> returns c = ByValue -> move m = MoveOk ->
  store published s c (Class m) = Some ([Called; Moved], TheResult).
Proof.
  intros [P1 P2] A B M. destruct m as [cp mv g l], c as [a b d e rt]. cbn in P1, P2, B, M. subst.
  destruct s; cbn in A |- *; unfold lambda in A; cbn in A; repeat match goal with H : _ /\ _ |- _ => destruct H end; subst; reflexivity.
Qed.
Lemma published_needs_move s c m :
  ordinary m -> returns c = ByValue -> move m = MoveDeleted ->
  store published s c (Class m) = None.
Proof.
  intros [P1 P2] B M. destruct m as [cp mv g l], c as [a b d e rt]. cbn in P1, P2, B, M. subst.
  destruct s, a, b, d, e; reflexivity.
Qed.
Lemma calls_once r s c t evs x : store r s c t = Some (evs, x) ->
  ((x = TheResult \/ x = ListOfResult) -> exists rest, evs = Called :: rest /\ ~ In Called rest /\ length rest <= 2) /\
  ((x = TheWrapper \/ x = ListOfWrapper) -> evs = []).
Proof.
  intros H.
  destruct s, t as [|m|cp mv any]; unf; unfold by_value in *; destruct c as [[] [] d [] rt], r as [r1 r2]; cbn in H; split_tests; subst;
  (split; intros K; [destruct K as [K|K]; try discriminate K; (eexists; split; [reflexivity|split; [cbn; intuition congruence|cbn; lia]]) | destruct K as [K|K]; try discriminate K; reflexivity]).
Qed.
(** The greedy template wins; returning a reference from the closure may still not compile. *)
Lemma wrapper_kept r s c m : greedy m = true -> lists m = ListNone -> takes_function s c ->
  elide_parens r = false -> elide_braces r = false ->
  store r s c (Class m) = (if match s, returns c with MemberTransform, ByLvalue => negb (copyable m)
                                | MemberTransform, ByXvalue => match move m with MoveOk => false | MoveDeleted => true | MoveAbsent => negb (copyable m) end
                                | _, _ => false end then None else Some ([], TheWrapper)).
Proof.
  intros G L A E1 E2. destruct m as [cp mv g l], c as [a b d e rt], r as [r1 r2]. cbn in G, L, E1, E2. subst.
  destruct s; cbn in A |- *; unfold lambda in A; cbn in A; repeat match goal with H : _ /\ _ |- _ => destruct H end; subst; try reflexivity;
  destruct rt; try reflexivity; destruct mv, cp; reflexivity.
Qed.

(** Histories of a latched or cached object. *)
Section Histories.
Context {V : Type}.
Variable out : nat -> option V.
Definition made (k : nat) : nat * list event := (k, repeat Called k).
Lemma repeat_snoc {A} (x : A) n : repeat x n ++ [x] = repeat x (S n).
Proof. induction n as [|n IH]; [reflexivity|]. cbn. rewrite IH. reflexivity. Qed.
Definition lift (r : result V) : result (stored V) :=
  match r with Got v => Got (Result v) | Threw => Threw | Says b => Says b | Done => Done end.
Lemma step_lift o c k :
  step (run (fun c => (S c, out c)) ([Called], TheResult)) o (option_map Result c, made k)
  = option_map (fun x => (lift (fst x), (option_map Result (fst (snd x)), made (snd (snd x)))))
      (step (fun c => (S c, out c)) o (c, k)).
Proof.
  unfold made. destruct o, c as [v|]; cbn; try reflexivity;
  (destruct (out k); cbn; rewrite repeat_snoc; reflexivity).
Qed.
Lemma history_lift ops : forall c k,
  history (run (fun c => (S c, out c)) ([Called], TheResult)) ops (option_map Result c, made k)
  = option_map (fun x => (map lift (fst x), (option_map Result (fst (snd x)), made (snd (snd x)))))
      (history (fun c => (S c, out c)) ops (c, k)).
Proof.
  induction ops as [|o ops IH]; intros c k; [reflexivity|].
  cbn [history]. rewrite step_lift.
  destruct (step (fun c => (S c, out c)) o (c, k)) as [[x [c' k']]|]; [|reflexivity].
  cbn [option_map fst snd]. rewrite IH.
  destruct (history (fun c => (S c, out c)) ops (c', k')) as [[xs [c'' k'']]|]; reflexivity.
Qed.
End Histories.
