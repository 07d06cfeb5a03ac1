(** C44 optional. *)
From Verif Require Import Base BaseLemmas OptionalModel OptionalSpec OptionalProofs.

(** A fresh object stands for an optional, and every history of assignments, emplacements and
    resets with real values keeps it in step with std::optional. *)
Theorem C44_construct : forall T (ts : T) veq v, veq ts ts = true -> real ts veq v ->
  stands_for ts veq (construct_default ts) None /\ stands_for ts veq (construct v) (Some v).
Proof. intros T ts veq v R H. split; [apply rep_default; exact R|apply rep_construct; exact H]. Qed.
Print Assumptions C44_construct.
Theorem C44_history : forall T (ts : T) veq ps o a, veq ts ts = true -> Forall (proper ts veq) ps -> stands_for ts veq o a ->
  exists o', history ts ps o = Some o' /\ stands_for ts veq o' (std_history ps a).
Proof. intros T ts veq ps o a R. apply history_ok. exact R. Qed.
Print Assumptions C44_history.
Theorem C44_observers : forall T (ts : T) veq o a d, stands_for ts veq o a ->
  has_value ts veq o = Some (match a with Some _ => true | None => false end) /\
  (forall v, a = Some v -> value o = Some v) /\
  value_or ts veq o d = Some (match a with Some v => v | None => d end).
Proof. intros T ts veq o a d. apply observe_ok. Qed.
Print Assumptions C44_observers.
(** The function is called exactly when there is a value. *)
Theorem C44_transform : forall T U W (ts : T) veq (tu : U) ueq (w : W) o a f, ueq tu tu = true -> stands_for ts veq o a ->
  (forall v, a = Some v -> real tu ueq (snd (f w v))) ->
  exists o', transform ts veq tu w o f = Some (fst (std_transform w a f), o') /\ stands_for tu ueq o' (snd (std_transform w a f)).
Proof. intros T U W ts veq tu ueq w o a f. apply transform_ok. Qed.
Print Assumptions C44_transform.
Theorem C44_and_then : forall T U W (ts : T) veq (tu : U) ueq (w : W) o a f g, ueq tu tu = true -> stands_for ts veq o a ->
  (forall v, a = Some v -> fst (f w v) = fst (g w v) /\ stands_for tu ueq (snd (f w v)) (snd (g w v))) ->
  exists o', and_then ts veq (Some tu) w o f = Some (fst (std_and_then w a g), o') /\ stands_for tu ueq o' (snd (std_and_then w a g)).
Proof. intros T U W ts veq tu ueq w o a f g. apply and_then_ok. Qed.
Print Assumptions C44_and_then.
Theorem C44_or_else : forall T W (ts : T) veq (w : W) o a f g, stands_for ts veq o a ->
  fst (f w) = fst (g w) /\ stands_for ts veq (snd (f w)) (snd (g w)) ->
  exists o', or_else ts veq w o f = Some (fst (std_or_else w a g), o') /\ stands_for ts veq o' (snd (std_or_else w a g)).
Proof. intros T W ts veq w o a f g. apply or_else_ok. Qed.
Print Assumptions C44_or_else.
(** transform over several optionals: called once with all the values, or not at all. *)
Theorem C44_transform_all : forall T U W (ts : T) veq (tu : U) ueq (w : W) os l f, ueq tu tu = true -> Forall2 (stands_for ts veq) os l ->
  (forall xs, sequence l = Some xs -> real tu ueq (snd (f w xs))) ->
  exists o', transform_all ts veq tu w os f = Some (match sequence l with Some xs => fst (f w xs) | None => w end, o') /\
             stands_for tu ueq o' (match sequence l with Some xs => Some (snd (f w xs)) | None => None end).
Proof. intros T U W ts veq tu ueq w os l f. apply transform_all_ok. Qed.
Print Assumptions C44_transform_all.
(** Functor laws: transform twice is transform with the composition. *)
Theorem C44_functor : forall T U X W (ts : T) veq (tu : U) ueq (tx : X) xeq (w : W) o a f g,
  veq ts ts = true -> ueq tu tu = true -> xeq tx tx = true -> stands_for ts veq o a ->
  (forall v, a = Some v -> real tu ueq (snd (f w v)) /\ real tx xeq (snd (g (fst (f w v)) (snd (f w v))))) ->
  exists w1 o1 r, transform ts veq tu w o f = Some (w1, o1) /\
    transform tu ueq tx w1 o1 g = Some r /\
    transform ts veq tx w o (fun w v => let (w1, u) := f w v in g w1 u) = Some r /\
    transform ts veq ts w o (fun w v => (w, v)) = Some (w, match a with Some v => Some v | None => Some ts end).
Proof.
  intros T U X W ts veq tu ueq tx xeq w o a f g R Ru Rx H F. unfold transform at 1 3 4. rewrite !(rep_has ts veq o a H). destruct (rep_alive ts veq o a H) as [v [-> Hv]]. destruct a as [x|].
  - subst x. destruct (F v eq_refl) as [F1 F2]. destruct (f w v) as [w1 u]. cbn [fst snd] in *. exists w1, (Some u). destruct (g w1 u) as [w2 z] eqn:Eg. exists (w2, Some z).
    split; [reflexivity|]. unfold transform, has_value. unfold real in F1. rewrite F1. cbn [negb]. rewrite Eg. split; [reflexivity|]. split; reflexivity.
  - exists w, (Some tu), (w, Some tx). split; [reflexivity|]. unfold transform, has_value. rewrite Ru. cbn [negb]. split; [reflexivity|]. split; reflexivity.
Qed.
Print Assumptions C44_functor.
(** Comparisons: == needs a symmetric and transitive == (reflexive only on the tombstone). *)
Theorem C44_equal : forall T (ts : T) veq a b x y,
  (forall u v, veq u v = true -> veq v u = true) -> (forall u v t, veq u v = true -> veq v t = true -> veq u t = true) ->
  stands_for ts veq a x -> stands_for ts veq b y -> equal veq a b = Some (std_equal veq x y).
Proof. intros T ts veq a b x y. apply equal_ok. Qed.
Print Assumptions C44_equal.
Theorem C44_less : forall T (ts : T) veq vlt a b x y, stands_for ts veq a x -> stands_for ts veq b y ->
  less ts veq vlt a b = Some (std_less vlt x y) /\ greater ts veq vlt a b = Some (std_less vlt y x).
Proof. intros T ts veq vlt a b x y Ha Hb. split; [apply less_ok; assumption|unfold greater; apply less_ok; assumption]. Qed.
Print Assumptions C44_less.
(** <= and >= agree with std::optional when <= is the negation of > ... *)
Theorem C44_less_equal : forall T (ts : T) veq vlt vle a b x y,
  (forall v u, real ts veq v -> real ts veq u -> vle v u = negb (vlt u v)) ->
  stands_for ts veq a x -> stands_for ts veq b y ->
  less_equal ts veq vlt a b = Some (std_less_equal vle x y) /\ greater_equal ts veq vlt a b = Some (std_less_equal vle y x).
Proof.
  intros T ts veq vlt vle a b x y H Ha Hb. destruct (order_ok ts veq vlt vle a b x y H Ha Hb) as [H1 [_ H3]]. split; assumption.
Qed.
Print Assumptions C44_less_equal.
(** ... but for values that do not compare (a NaN) both are true, where std::optional says
    what the values say. *)
Theorem C44_unordered_refuted : forall T (ts : T) veq vlt vle u v, real ts veq u -> real ts veq v ->
  vlt u v = false -> vlt v u = false -> vle u v = false ->
  less_equal ts veq vlt (construct u) (construct v) = Some true /\ greater_equal ts veq vlt (construct u) (construct v) = Some true /\
  std_less_equal vle (Some u) (Some v) = false.
Proof.
  intros T ts veq vlt vle u v Hu Hv H1 H2 H3. unfold less_equal, greater_equal, less, has_value, construct. unfold real in *. rewrite Hu, Hv. cbn. rewrite H1, H2. repeat split. exact H3.
Qed.
Print Assumptions C44_unordered_refuted.
(** A constructor that throws in emplace leaves a dead object: whatever is done next is
    undefined, even the destructor's work of a reset; std::optional is empty then. *)
Theorem C44_emplace_throws_refuted : forall T (ts : T) veq v, exists o,
  emplace None (construct v) = Some o /\ has_value ts veq o = None /\ (forall p, step ts p o = None) /\
  std_step (Emplace None) (Some v) = None.
Proof. intros T ts veq v. exists None. repeat split. intros []; reflexivity. Qed.
Print Assumptions C44_emplace_throws_refuted.
(** Monad laws (docs/design/optional.md: "not just a functor and a monad"): a value given to and_then, an
    optional given to its own constructor, and two and_thens one after the other or nested.  The laws hold
    with the world, so also for the calls made.  The first function gives objects that live. *)
Theorem C44_monad : forall T U X W (ts : T) veq (tu : U) ueq (tx : X) (w : W) v o a f g,
  veq ts ts = true -> ueq tu tu = true -> real ts veq v -> stands_for ts veq o a ->
  (forall w v, snd (f w v) <> None) ->
  and_then ts veq (Some tu) w (construct v) f = Some (f w v) /\
  (exists o', and_then ts veq (Some ts) w o (fun w v => (w, construct v)) = Some (w, o') /\ stands_for ts veq o' a) /\
  exists w1 o1 r, and_then ts veq (Some tu) w o f = Some (w1, o1) /\ and_then tu ueq (Some tx) w1 o1 g = Some r /\
    and_then ts veq (Some tx) w o (fun w v => match and_then tu ueq (Some tx) (fst (f w v)) (snd (f w v)) g with Some q => q | None => (w, None) end) = Some r.
Proof.
  intros T U X W ts veq tu ueq tx w v o a f g Ht Hu Hv Ho Hf. split; [|split].
  - unfold and_then, has_value, construct. cbn iota beta. unfold real in Hv. rewrite Hv. reflexivity.
  - destruct a as [x|]; cbn in Ho.
    + destruct Ho as [-> Hx]. unfold and_then, has_value. cbn iota beta. unfold real in Hx. rewrite Hx. eexists. split; [reflexivity|]. split; [reflexivity|exact Hx].
    + destruct Ho as [t [-> Hx]]. unfold and_then, has_value. cbn iota beta. rewrite Hx. eexists. split; [reflexivity|]. exists ts. split; [reflexivity|exact Ht].
  - destruct a as [x|]; cbn in Ho.
    + destruct Ho as [-> Hx]. unfold and_then at 1 3, has_value at 1 2. cbn iota beta. unfold real in Hx. rewrite Hx. cbn [negb].
      specialize (Hf w x). destruct (f w x) as [w1 o1]. cbn [fst snd] in *. destruct o1 as [u|]; [|congruence].
      exists w1, (Some u). eexists. split; [reflexivity|]. unfold and_then, has_value. cbn iota beta. split; reflexivity.
    + destruct Ho as [t [-> Hx]]. unfold and_then, has_value. cbn iota beta. rewrite Hx. cbn [negb].
      exists w, (Some tu), (w, Some tx). split; [reflexivity|]. cbn iota beta. rewrite Hu. split; reflexivity.
Qed.
Print Assumptions C44_monad.
(** Applicative (the same document): a transform over several optionals, one of which is a transform of others,
    is the transform of them all. *)
Theorem C44_applicative : forall T W X (ts : T) veq (tx : X) (w : W) os ps l m (f : list T -> T) (g : W -> list T -> W * X),
  veq ts ts = true -> Forall2 (stands_for ts veq) os l -> Forall2 (stands_for ts veq) ps m ->
  (forall xs, sequence l = Some xs -> real ts veq (f xs)) ->
  exists o r, transform_all ts veq ts w os (fun w xs => (w, f xs)) = Some (w, o) /\
    transform_all ts veq tx w (o :: ps) g = Some r /\
    transform_all ts veq tx w (os ++ ps) (fun w xs => g w (f (firstn (length os) xs) :: skipn (length os) xs)) = Some r.
Proof. exact @applicative. Qed.
Print Assumptions C44_applicative.
(** FINDING: the laws fail as soon as a function gives the tombstone, which std::optional holds like any other
    value: the second function is not called, while the composition calls it. *)
Theorem C44_tombstone_result_refuted : forall T U X W (ts : T) veq (tu : U) ueq (tx : X) (w : W) v f g,
  real ts veq v -> ueq (snd (f w v)) tu = true ->
  exists w1 o1, transform ts veq tu w (construct v) f = Some (w1, o1) /\
    transform tu ueq tx w1 o1 g = Some (w1, Some tx) /\
    transform ts veq tx w (construct v) (fun w v => let (w1, u) := f w v in g w1 u) = Some (let (w1, u) := f w v in let (w2, x) := g w1 u in (w2, Some x)) /\
    (let (w1, a1) := std_transform w (Some v) f in std_transform w1 a1 g) = (let (w1, u) := f w v in let (w2, x) := g w1 u in (w2, Some x)).
Proof.
  intros T U X W ts veq tu ueq tx w v f g Hv Hu. unfold transform, has_value, construct. cbn iota beta. unfold real in Hv. rewrite Hv. cbn [negb].
  cbn. destruct (f w v) as [w1 u]. cbn [snd] in Hu. exists w1, (Some u). cbn. rewrite Hu. cbn. repeat split.
Qed.
Print Assumptions C44_tombstone_result_refuted.
(** Numbers with tombstone 0: the function that subtracts 5. *)
Example C44_laws_nonvacuous :
  transform 0 Nat.eqb 0 tt (construct 5) (fun w v => (w, v - 5)) = Some (tt, Some 0) /\ real 0 Nat.eqb 5 /\
  Forall2 (stands_for 0 Nat.eqb) [construct 2; construct 3] [Some 2; Some 3] /\
  transform_all 0 Nat.eqb 0 tt [construct 2; construct 3] (fun w xs => (w, list_sum xs)) = Some (tt, Some 5).
Proof. repeat split; repeat constructor. Qed.
(** Integers with tombstone 0. *)
Example C44_example : exists o, history 0 [Assign 5; Reset; Emplace (Some 7)] (construct_default 0) = Some o /\
  value o = Some 7 /\ has_value 0 Nat.eqb o = Some true /\ transform 0 Nat.eqb 0 tt o (fun w v => (w, v + 1)) = Some (tt, Some 8) /\
  Forall (proper 0 Nat.eqb) [Assign 5; Reset; Emplace (Some 7)] /\ less 0 Nat.eqb Nat.ltb (construct_default 0) o = Some true.
Proof. eexists. split; [reflexivity|]. do 3 (split; [reflexivity|]). split; [|reflexivity]. repeat constructor. exists 7. split; reflexivity. Qed.
