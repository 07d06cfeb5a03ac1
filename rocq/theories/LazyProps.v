(** C84 with_result_of, latched, cached and transform build a function's result in place. *)
From Verif Require Import Base BaseLemmas LatchedModel LatchedSpec LatchedProofs LazyModel LazySpec LazyProofs.

(** On the supported compilers: exactly which functions and types of results are stored with
    one call and no copy or move. *)
Theorem C84_in_place : forall s c t,
  in_place (store elision s c t) <->
  takes_function s c /\ takes_type s t /\ (returns c = ByValue \/ t = Scalar).
Proof. exact in_place_iff. Qed.
Print Assumptions C84_in_place.
(** A non-movable result of a lambda, everywhere. *)
Example C84_in_place_example :
  forall s, in_place (store elision s closure (Class (Members false MoveDeleted false ListNone))).
Proof. intros []; reflexivity. Qed.

(** Whatever the compiler does: an ordinary result is kept after one call, with one move at
    most. *)
Theorem C84_kept : forall r s c m,
  ordinary m -> can_move m -> takes_function s c -> returns c = ByValue -> kept (store r s c (Class m)).
Proof. exact all_rules. Qed.
Print Assumptions C84_kept.
(** Going by C++20 as published there is exactly one, and non-movable results do not compile. *)
Theorem C84_published : forall s c m,
  ordinary m -> returns c = ByValue ->
  (takes_function s c -> move m = MoveOk -> store published s c (Class m) = Some ([Called; Moved], TheResult)) /\
  (move m = MoveDeleted -> store published s c (Class m) = None).
Proof.
  intros s c m O B. split; [intros A M; exact (published_moves s c m O A B M)|exact (published_needs_move s c m O B)].
Qed.
Print Assumptions C84_published.
Example C84_published_example :
  ordinary (Members false MoveOk false ListNone) /\ can_move (Members false MoveOk false ListNone) /\
  takes_function LatchedValue closure.
Proof. unfold ordinary, can_move, takes_function, lambda; cbn; auto 10. Qed.

(** Whatever compiles calls the function once if it stores the result, and never if it does
    not. *)
Theorem C84_called_once : forall r s c t evs x, store r s c t = Some (evs, x) ->
  ((x = TheResult \/ x = ListOfResult) -> exists rest, evs = Called :: rest /\ ~ In Called rest /\ length rest <= 2) /\
  ((x = TheWrapper \/ x = ListOfWrapper) -> evs = []).
Proof. exact calls_once. Qed.
Print Assumptions C84_called_once.

(** Histories of a latched or cached object: beside the results of C45, the log of all
    events shows that nothing but the calls that C45 counts ever happens to a value. *)
Theorem C84_latched_history : forall V (out : nat -> option V) c t ops,
  takes_function LatchedValue c -> returns c = ByValue \/ t = Scalar ->
  exists p, store elision LatchedValue c t = Some p /\
  let rs := fst (expected out ops (0, 0)) in
  let n := fst (snd (expected out ops (0, 0))) in let a := snd (snd (expected out ops (0, 0))) in
  history (run (fun k => (S k, out k)) p) ops (None, (0, []))
  = Some (map lift rs, (option_map Result (first_value out n a), (n + needed out n a, repeat Called (n + needed out n a)))).
Proof.
  intros V out c t ops F B. exists ([Called], TheResult). split.
  - apply (in_place_iff LatchedValue c t). split; [exact F|split; [exact I|exact B]].
  - intros rs n a. rewrite (history_lift out ops None 0 : history _ ops (None, (0, [])) = _).
    pose proof (history_ok out ops 0 0 : history (fun c => (S c, out c)) ops (None, 0) = _) as K.
    rewrite K. reflexivity.
Qed.
Print Assumptions C84_latched_history.
Example C84_latched_example :
  history (run (fun k => (S k, if k =? 0 then None else Some (10 * k))) ([Called], TheResult)) [Access; Access; Access] (None, (0, []))
  = Some ([Threw; Got (Result 10); Got (Result 10)], (Some (Result 10), (2, [Called; Called]))).
Proof. reflexivity. Qed.

(** What fails.  A type with an unconstrained constructor template, such as std::any, by the
    rules as published: the wrapper is stored and the function never called. *)
Theorem C84_greedy_refuted : forall r s c m, greedy m = true -> lists m = ListNone -> takes_function s c ->
  returns c = ByValue -> elide_parens r = false -> elide_braces r = false ->
  store r s c (Class m) = Some ([], TheWrapper).
Proof.
  intros r s c m G L A B E1 E2. rewrite (wrapper_kept r s c m G L A E1 E2), B. destruct s; reflexivity.
Qed.
Print Assumptions C84_greedy_refuted.
(** Types with an initializer_list constructor: transform gives a list of one. *)
Theorem C84_list_refuted : forall r s c m, s = MemberTransform \/ s = FreeTransform -> returns c = ByValue ->
  move m = MoveOk -> greedy m = false ->
  store r s c (Class m) = Some ([Called], ListOfResult) <-> lists m = ListSelf.
Proof.
  intros [[] []] s [a b d e rt] [cp mv g l] [-> | ->] B M G; cbn in B, M, G; subst; destruct l; cbn; split; intros H; try discriminate H; reflexivity.
Qed.
Print Assumptions C84_list_refuted.
(** Aggregates: transform and the constructors of optional do not compile (or, if the first
    member is built from anything, store the wrapper there). *)
Theorem C84_aggregate_refuted : forall r s c cp mv any, s <> Emplace -> s <> LatchedValue -> s <> FreeTransformStd ->
  store r s c (Aggregate cp mv any) = None \/ store r s c (Aggregate cp mv any) = Some ([], TheWrapper).
Proof.
  intros r s c cp mv any N1 N2 N3.
  assert (K : forall cst c', init r Braces cst c' (Aggregate cp mv any) = None \/ init r Braces cst c' (Aggregate cp mv any) = Some ([], TheWrapper))
    by (intros cst c'; unfold init; destruct (negb (wraps c')), any; auto).
  destruct s; try contradiction; unfold store, inside;
  try destruct (_ && _); try destruct (constructible r _ _); auto;
  try (destruct (K false closure) as [-> | ->]; destruct (in_closure _ _); auto).
Qed.
Print Assumptions C84_aggregate_refuted.
(** Function pointers, such as the documentation's [with_result_of{make_S}], and final
    classes: no wrapper.  Mutable lambdas: no latched value. *)
Theorem C84_function_refuted : forall r s c t, is_class c = false \/ is_final c = true ->
  s = Emplace \/ s = Construct \/ s = ConstructInPlace \/ s = LatchedValue -> store r s c t = None.
Proof.
  intros r s [a b d e rt] t H S. cbn in H. assert (W : wraps (Callable a b d e rt) = false) by (destruct H; subst; unfold wraps; cbn; [reflexivity|destruct a; reflexivity]).
  destruct S as [->|[->|[->| ->]]]; unfold store, constructible, init; rewrite W; reflexivity.
Qed.
Print Assumptions C84_function_refuted.
Theorem C84_mutable_refuted : forall r c m, greedy m = false -> when_const c = false ->
  store r LatchedValue c (Class m) = None /\ store r LatchedValue c Scalar = None.
Proof.
  intros r [a b d e rt] [cp mv g l] G C. cbn in G, C. subst.
  unfold store, init, constructors, converts. cbn.
  destruct (negb _); [auto|]. destruct l, (elide_parens r), (by_value _), (wraps _); auto.
Qed.
Print Assumptions C84_mutable_refuted.
(** The free transform, unlike the member, takes no function that returns a reference. *)
Theorem C84_reference_refuted : forall r c t, returns c <> ByValue ->
  store r FreeTransform c t = None /\ store r FreeTransformStd c t = None.
Proof. intros r [a b d e []] t H; cbn in H; try congruence; split; reflexivity. Qed.
Print Assumptions C84_reference_refuted.
Example C84_refuted_example :
  greedy (Members true MoveOk true ListNone) = true /\ takes_function MemberTransform closure /\
  store elision MemberTransform (Callable true false true true ByLvalue) (Class (Members true MoveOk false ListNone)) = Some ([Called; Copied], TheResult) /\
  store published MemberTransform closure (Class (Members true MoveOk true ListNone)) = Some ([], TheWrapper).
Proof. repeat split. Qed.
