From Verif Require Import Base BaseLemmas OptionalModel OptionalSpec.

Section Proofs.
Context {T : Type}.
Variable ts : T.
Variable veq vlt vle : T -> T -> bool.
Variable refl : veq ts ts = true.
Notation rep := (stands_for ts veq).

Lemma rep_default : rep (construct_default ts) None.
Proof. exists ts. split; [reflexivity|exact refl]. Qed.
Lemma rep_construct v : real ts veq v -> rep (construct v) (Some v).
Proof. intros H. split; [reflexivity|exact H]. Qed.
Lemma step_ok p o a : proper ts veq p -> rep o a -> exists o', step ts p o = Some o' /\ rep o' (std_step p a).
Proof.
  intros Hp H. assert (Ho : exists v, o = Some v) by (destruct a; [destruct H as [-> _]|destruct H as [t [-> _]]]; eauto). destruct Ho as [v ->].
  destruct p as [|x|m|]; cbn in *.
  - eexists. split; [reflexivity|apply rep_default].
  - eexists. split; [reflexivity|]. split; [reflexivity|exact Hp].
  - destruct Hp as [x [-> Hx]]. eexists. split; [reflexivity|]. split; [reflexivity|exact Hx].
  - eexists. split; [reflexivity|apply rep_default].
Qed.
Lemma history_ok ps : forall o a, Forall (proper ts veq) ps -> rep o a -> exists o', history ts ps o = Some o' /\ rep o' (std_history ps a).
Proof.
  induction ps as [|p ps IH]; intros o a F H; [exists o; split; [reflexivity|exact H]|]. inversion F; subst. destruct (step_ok p o a) as [o1 [E1 R1]]; [assumption|exact H|]. cbn. rewrite E1. apply IH; assumption.
Qed.
Lemma rep_has o a : rep o a -> has_value ts veq o = Some (match a with Some _ => true | None => false end).
Proof. destruct a as [v|]; [intros [-> H]|intros [t [-> H]]]; cbn; rewrite H; reflexivity. Qed.
Lemma rep_alive o a : rep o a -> exists v, o = Some v /\ match a with Some x => v = x | None => veq v ts = true end.
Proof. destruct a as [v|]; [intros [-> H]|intros [t [-> H]]]; eauto. Qed.
Lemma observe_ok o a d : rep o a -> has_value ts veq o = Some (match a with Some _ => true | None => false end) /\
  (forall v, a = Some v -> value o = Some v) /\ value_or ts veq o d = Some (match a with Some v => v | None => d end).
Proof.
  intros H. split; [apply rep_has; exact H|]. destruct (rep_alive o a H) as [v [-> Hv]]. split.
  - intros x ->. subst v. reflexivity.
  - unfold value_or. rewrite (rep_has _ _ H). destruct a; [subst v|]; reflexivity.
Qed.
Lemma equal_ok a b x y : (forall u v, veq u v = true -> veq v u = true) -> (forall u v t, veq u v = true -> veq v t = true -> veq u t = true) ->
  rep a x -> rep b y -> equal veq a b = Some (std_equal veq x y).
Proof.
  intros S1 S2 Ha Hb.
  assert (S3 : forall t v, veq t ts = true -> real ts veq v -> veq t v = false /\ veq v t = false).
  { intros t v Ht Hv. unfold real in Hv. split; [destruct (veq t v) eqn:E; [|reflexivity]|destruct (veq v t) eqn:E; [|reflexivity]].
    - apply S1 in E. rewrite (S2 v t ts E Ht) in Hv. discriminate.
    - rewrite (S2 v t ts E Ht) in Hv. discriminate. }
  destruct (rep_alive a x Ha) as [v [-> Hv]]. destruct (rep_alive b y Hb) as [u [-> Hu]]. unfold equal. f_equal.
  destruct x as [x|], y as [y|]; cbn in *; subst; try reflexivity.
  - apply (S3 u x); [exact Hu|apply Ha].
  - apply (S3 v y); [exact Hv|apply Hb].
  - apply (S2 v ts u); [exact Hv|apply S1; exact Hu].
Qed.
Lemma less_ok a b x y : rep a x -> rep b y -> less ts veq vlt a b = Some (std_less vlt x y).
Proof.
  intros Ha Hb. unfold less. rewrite (rep_has _ _ Ha), (rep_has _ _ Hb). destruct (rep_alive a x Ha) as [v [-> Hv]]. destruct (rep_alive b y Hb) as [u [-> Hu]].
  destruct x, y; cbn; subst; reflexivity.
Qed.
Lemma order_ok a b x y : (forall v u, real ts veq v -> real ts veq u -> vle v u = negb (vlt u v)) -> rep a x -> rep b y ->
  less_equal ts veq vlt a b = Some (std_less_equal vle x y) /\ greater ts veq vlt a b = Some (std_less vlt y x) /\ greater_equal ts veq vlt a b = Some (std_less_equal vle y x).
Proof.
  intros H Ha Hb. unfold less_equal, greater, greater_equal. rewrite (less_ok b a y x Hb Ha), (less_ok a b x y Ha Hb). split; [|split; [reflexivity|]].
  - f_equal. destruct x as [x|], y as [y|]; cbn; try reflexivity. rewrite H; [reflexivity|apply Ha|apply Hb].
  - f_equal. destruct x as [x|], y as [y|]; cbn; try reflexivity. rewrite H; [reflexivity|apply Hb|apply Ha].
Qed.
Lemma transform_ok {W U} (tu : U) ueq w o a (f : W -> T -> W * U) : ueq tu tu = true -> rep o a -> (forall v, a = Some v -> real tu ueq (snd (f w v))) ->
  exists o', transform ts veq tu w o f = Some (fst (std_transform w a f), o') /\ stands_for tu ueq o' (snd (std_transform w a f)).
Proof.
  intros R H F. unfold transform. rewrite (rep_has _ _ H). destruct (rep_alive o a H) as [v [-> Hv]]. destruct a as [x|]; cbn.
  - subst x. specialize (F v eq_refl). destruct (f w v) as [w1 u]. exists (Some u). split; [reflexivity|]. split; [reflexivity|exact F].
  - exists (Some tu). split; [reflexivity|]. exists tu. split; [reflexivity|exact R].
Qed.
Lemma and_then_ok {W U} (tu : U) ueq w o a (f : W -> T -> W * option U) (g : W -> T -> W * option U) : ueq tu tu = true -> rep o a ->
  (forall v, a = Some v -> fst (f w v) = fst (g w v) /\ stands_for tu ueq (snd (f w v)) (snd (g w v))) ->
  exists o', and_then ts veq (Some tu) w o f = Some (fst (std_and_then w a g), o') /\ stands_for tu ueq o' (snd (std_and_then w a g)).
Proof.
  intros R H F. unfold and_then. rewrite (rep_has _ _ H). destruct (rep_alive o a H) as [v [-> Hv]]. destruct a as [x|]; cbn.
  - subst x. destruct (F v eq_refl) as [F1 F2]. exists (snd (f w v)). split; [rewrite <- F1; destruct (f w v); reflexivity|exact F2].
  - exists (Some tu). split; [reflexivity|]. exists tu. split; [reflexivity|exact R].
Qed.
Lemma or_else_ok {W} (w : W) o a (f : W -> W * option T) (g : W -> W * option T) : rep o a -> fst (f w) = fst (g w) /\ rep (snd (f w)) (snd (g w)) ->
  exists o', or_else ts veq w o f = Some (fst (std_or_else w a g), o') /\ rep o' (snd (std_or_else w a g)).
Proof.
  intros H [F1 F2]. unfold or_else. rewrite (rep_has _ _ H). destruct a as [x|]; cbn.
  - exists o. split; [reflexivity|exact H].
  - exists (snd (f w)). split; [rewrite <- F1; destruct (f w); reflexivity|exact F2].
Qed.
Lemma all_have_ok os l : Forall2 rep os l -> all_have ts veq os = Some (match sequence l with Some _ => true | None => false end) /\ (forall xs, sequence l = Some xs -> values os = Some xs).
Proof.
  induction 1 as [|o a os l H _ [IH1 IH2]]; [split; [reflexivity|intros xs E; injection E as <-; reflexivity]|]. cbn [all_have sequence values]. rewrite (rep_has _ _ H).
  destruct (rep_alive o a H) as [v [-> Hv]]. destruct a as [x|]; [|split; [reflexivity|discriminate]]. subst v. rewrite IH1. destruct (sequence l) as [xs|]; [|split; [reflexivity|discriminate]].
  split; [reflexivity|]. intros ys E. injection E as <-. cbn [value]. rewrite (IH2 xs eq_refl). reflexivity.
Qed.
Lemma transform_all_ok {W U} (tu : U) ueq w os l (f : W -> list T -> W * U) : ueq tu tu = true -> Forall2 rep os l -> (forall xs, sequence l = Some xs -> real tu ueq (snd (f w xs))) ->
  exists o', transform_all ts veq tu w os f = Some (match sequence l with Some xs => fst (f w xs) | None => w end, o') /\
             stands_for tu ueq o' (match sequence l with Some xs => Some (snd (f w xs)) | None => None end).
Proof.
  intros R H F. destruct (all_have_ok os l H) as [A B]. unfold transform_all. rewrite A. destruct (sequence l) as [xs|].
  - rewrite (B xs eq_refl). specialize (F xs eq_refl). destruct (f w xs) as [w1 u]. exists (Some u). split; [reflexivity|]. split; [reflexivity|exact F].
  - exists (Some tu). split; [reflexivity|]. exists tu. split; [reflexivity|exact R].
Qed.
End Proofs.

Lemma sequence_app {T} (l m : list (option T)) : sequence (l ++ m) = match sequence l, sequence m with Some xs, Some ys => Some (xs ++ ys) | _, _ => None end.
Proof.
  induction l as [|[x|] l IH]; cbn; [now destruct (sequence m)| |reflexivity]. rewrite IH. destruct (sequence l), (sequence m); reflexivity.
Qed.
Lemma sequence_length {T} (l : list (option T)) xs : sequence l = Some xs -> length xs = length l.
Proof.
  revert xs. induction l as [|[x|] l IH]; intros xs; cbn; [intros E; injection E as <-; reflexivity| |discriminate].
  destruct (sequence l) as [ys|]; [|discriminate]. intros E. injection E as <-. cbn. now rewrite (IH ys eq_refl).
Qed.
Lemma transform_all_exact {T W X} (ts : T) veq (tx : X) (w : W) os l g : veq ts ts = true -> Forall2 (stands_for ts veq) os l ->
  transform_all ts veq tx w os g = Some (match sequence l with Some xs => let (w1, u) := g w xs in (w1, Some u) | None => (w, Some tx) end).
Proof.
  intros R H. destruct (all_have_ok ts veq os l H) as [A B]. unfold transform_all. rewrite A.
  destruct (sequence l) as [xs|]; [|reflexivity]. rewrite (B xs eq_refl). destruct (g w xs). reflexivity.
Qed.
Lemma applicative : forall T W X (ts : T) veq (tx : X) (w : W) os ps l m (f : list T -> T) (g : W -> list T -> W * X),
  veq ts ts = true -> Forall2 (stands_for ts veq) os l -> Forall2 (stands_for ts veq) ps m ->
  (forall xs, sequence l = Some xs -> real ts veq (f xs)) ->
  exists o r, transform_all ts veq ts w os (fun w xs => (w, f xs)) = Some (w, o) /\
    transform_all ts veq tx w (o :: ps) g = Some r /\
    transform_all ts veq tx w (os ++ ps) (fun w xs => g w (f (firstn (length os) xs) :: skipn (length os) xs)) = Some r.
Proof.
  intros T W X ts veq tx w os ps l m f g R H1 H2 F.
  assert (Hl : length os = length l) by (clear - H1; induction H1; cbn; congruence).
  rewrite (transform_all_exact ts veq ts w os l _ R H1).
  rewrite (transform_all_exact ts veq tx w (os ++ ps) (l ++ m) _ R (Forall2_app H1 H2)). rewrite sequence_app.
  destruct (sequence l) as [xs|] eqn:E.
  - exists (Some (f xs)). eexists. split; [reflexivity|]. split.
    + apply (transform_all_exact ts veq tx w (Some (f xs) :: ps) (Some (f xs) :: m) g R). constructor; [split; [reflexivity|exact (F xs eq_refl)]|exact H2].
    + cbn. destruct (sequence m) as [ys|]; [|reflexivity].
      assert (L : length os = length xs) by (rewrite (sequence_length l xs E); exact Hl).
      rewrite L, firstn_app, skipn_app, firstn_all, skipn_all, Nat.sub_diag. cbn. rewrite app_nil_r. reflexivity.
  - exists (Some ts). eexists. split; [reflexivity|]. split.
    + apply (transform_all_exact ts veq tx w (Some ts :: ps) (None :: m) g R). constructor; [exists ts; split; [reflexivity|exact R]|exact H2].
    + reflexivity.
Qed.
