(** Proofs about BindMoveModel. *)
From Verif Require Import Base BaseLemmas MoveModel MoveSpec MoveProofs MoveProofs2 MoveProofs4 OptMoveModel OptMoveSpec OptMoveProofs BindMoveModel BindMoveSpec.

Section Bind.
Context {V : Type}.
Notation store := (store V).

Lemma write_all_app (a b : list (ref quals)) : forall (m : store) xa xb, length xa = length a -> write_all m (a ++ b) (xa ++ xb) = write_all (write_all m a xa) b xb.
Proof.
  induction a as [|r a IH]; intros m [|x xa] xb E; try discriminate; [reflexivity|]. cbn [app]. rewrite !write_all_cons. apply IH. now injection E.
Qed.
Lemma look_same (m : store) l x : l < length m -> look (set_nth l x m) l = x.
Proof. intros H. unfold look. apply nth_error_nth. rewrite nth_error_set_nth by exact H. now rewrite Nat.eqb_refl. Qed.
Lemma write_name q l x (m : store) : write m (name q l) x = if constant q then m else set_nth l x m.
Proof. now destruct q. Qed.
Lemma own_written q ls : forall (m : store) xs, NoDup ls -> Forall (fun l => l < length m) ls -> length xs = length ls ->
  let m' := write_all m (map (name q) ls) xs in
  map (look m') ls = (if constant q then map (look m) ls else xs) /\ (forall l, ~ In l ls -> look m' l = look m l) /\ length m' = length m.
Proof.
  induction ls as [|l ls IH]; intros m [|x xs] N P E; try discriminate; [now destruct (constant q)|].
  inversion N as [|? ? N1 N2]; subst. inversion P as [|? ? P1 P2]; subst. cbn [map]. rewrite write_all_cons, write_name.
  assert (L : length (if constant q then m else set_nth l x m) = length m) by (destruct (constant q); [reflexivity|apply set_nth_length]).
  assert (P3 : Forall (fun k => k < length (if constant q then m else set_nth l x m)) ls) by (eapply Forall_impl; [|exact P2]; intros k K; cbn beta in *; lia).
  destruct (IH (if constant q then m else set_nth l x m) xs N2) as (A & B & C); [exact P3|cbn in E; lia|]. cbn zeta in *. split; [|split].
  - rewrite (B l N1), A. destruct (constant q) eqn:Q; [reflexivity|]. now rewrite look_same.
  - intros k K. rewrite B by (intros I; apply K; now right). destruct (constant q); [reflexivity|]. apply look_set. intros ->. apply K. now left.
  - exact (eq_trans C L).
Qed.
Lemma args_written ows args : forall (m : store) xs o, Forall (fun a => ~ In (snd a) ows /\ snd a < length m) args -> (forall l, ~ In l ows -> look m l = o l) ->
  let m' := write_all m (refs args) xs in
  (forall l, ~ In l ows -> look m' l = leaves o args xs l) /\ (forall l, In l ows -> look m' l = look m l) /\ length m' = length m.
Proof.
  induction args as [|[q l] args IH]; intros m xs o F H; [cbn; repeat split; exact H|].
  destruct xs as [|x xs]; [cbn; repeat split; exact H|]. inversion F as [|? ? [F1 F2] F3]; subst. cbn [fst snd] in *.
  change (refs ((q, l) :: args)) with (name q l :: refs args). rewrite write_all_cons, write_name. cbn [leaves].
  assert (L : length (if constant q then m else set_nth l x m) = length m) by (destruct (constant q); [reflexivity|apply set_nth_length]).
  destruct (IH (if constant q then m else set_nth l x m) xs (if constant q then o else changed o l x)) as (A & B & C).
  - eapply Forall_impl; [|exact F3]. intros a K. cbn beta in *. split; [apply K|]. destruct K as [_ K]. exact (eq_ind_r (fun n => snd a < n) K L).
  - intros k K. destruct (constant q); [now apply H|]. unfold changed. destruct (Nat.eqb_spec k l) as [->|D]; [now apply look_same|]. rewrite look_set by exact D. now apply H.
  - cbn zeta in *. split; [exact A|]. split; [|exact (eq_trans C L)]. intros k K. rewrite (B k K). destruct (constant q); [reflexivity|]. apply look_set. now intros ->.
Qed.
Lemma map_look_same (m m' : store) ls : (forall l, In l ls -> look m' l = look m l) -> map (look m') ls = map (look m) ls.
Proof. intros H. apply map_ext_in. exact H. Qed.

Lemma overload_given q : overload q = given q.
Proof. now destruct q. Qed.
Lemma nodup_l {A} (a b : list A) : NoDup (a ++ b) -> NoDup a.
Proof. induction a as [|x a IH]; intros N; [constructor|]. inversion N as [|? ? N1 N2]; subst. constructor; [intros I; apply N1, in_or_app; now left|now apply IH]. Qed.
Lemma nodup_r {A} (a b : list A) : NoDup (a ++ b) -> NoDup b.
Proof. induction a as [|x a IH]; intros N; [exact N|]. inversion N as [|? ? N1 N2]; subst. now apply IH. Qed.
Lemma split3 {A} (xs : list A) a b c : length xs = a + b + c -> exists x y z, xs = x ++ y ++ z /\ length x = a /\ length y = b /\ length z = c.
Proof.
  intros E. exists (firstn a xs), (firstn b (skipn a xs)), (skipn b (skipn a xs)). rewrite !firstn_skipn. split; [reflexivity|].
  rewrite !firstn_length, !skipn_length. lia.
Qed.

Lemma called {W R} front (f : fn V W R) b (s : W * store) c q args s' r : honest f -> ready b (snd s) -> stands_for b s c ->
  Forall (fun a => ~ In (snd a) (own b) /\ snd a < length (snd s)) args ->
  happen front f b s (Call q args) = (s', r) ->
  exists c', does front f c (Call q args) c' r /\ stands_for b s' c' /\ length (snd s') = length (snd s).
Proof.
  intros Hf [N P] S F H. destruct s as [w m]. destruct b as [cl bd]. unfold own in *. cbn [callee bound fst snd] in *.
  assert (N1 : NoDup cl) by exact (nodup_l _ _ N). assert (N2 : NoDup bd) by exact (nodup_r _ _ N).
  apply Forall_app in P. destruct P as [P1 P2].
  assert (D1 : forall l, In l cl -> ~ In l bd).
  { intros l I J. clear -N I J. induction cl as [|k cl IH]; [destruct I|]. inversion N as [|? ? A B]; subst. destruct I as [->|I]; [apply A, in_or_app; now right|now apply IH]. }
  assert (Fa : Forall (fun a => ~ In (snd a) (cl ++ bd) /\ snd a < length m) args) by exact F.
  destruct S as [S1 S2 S3 S4 S5]. cbn [fst snd callee bound] in *.
  set (k := given q) in *.
  assert (Vis : map (sees m) (refs args) = map (fun a => (fst a, others c (snd a))) args).
  { rewrite sees_refs. unfold visible. apply map_ext_in. intros a I. rewrite Forall_forall in F. destruct (F a I) as [F1 _]. rewrite S4; [reflexivity|exact F1]. }
  assert (Vo : forall ls, map (sees m) (map (name k) ls) = map (pair k) (map (look m) ls)) by (intros ls; rewrite !map_map; reflexivity).
  unfold happen, call_front, call_back, calls_fn in H. rewrite overload_given in H. fold k in H. cbn [fst snd callee bound] in H.
  change (map (fun a : quals * nat => name (fst a) (snd a)) args) with (refs args) in H.
  destruct front.
  - rewrite !map_app, !Vo, Vis, S2, S3 in H.
    match type of H with context [f w ?a] => set (seen_args := a) in *; destruct (f w seen_args) as [[w' y] xs] eqn:E end.
    injection H as <- <-.
    assert (Len : length xs = length cl + length bd + length args).
    { specialize (Hf w seen_args). rewrite E in Hf. cbn in Hf. rewrite Hf. unfold seen_args. rewrite !app_length, !map_length, <- S2, <- S3, !map_length. lia. }
    destruct (split3 xs _ _ _ Len) as (xf & xb & xa & -> & Lf & Lb & La).
    destruct (own_written k cl m xf N1 P1 Lf) as (A1 & A2 & A3). set (m1 := write_all m (map (name k) cl) xf) in *.
    destruct (own_written k bd m1 xb N2) as (B1 & B2 & B3); [now rewrite A3|exact Lb|]. set (m2 := write_all m1 (map (name k) bd) xb) in *.
    destruct (args_written (cl ++ bd) args m2 xa (others c)) as (C1 & C2 & C3).
    { now rewrite B3, A3. }
    { intros l I. rewrite in_app_iff in I. rewrite B2 by tauto. rewrite A2 by tauto. apply S4. unfold own. cbn [callee bound]. rewrite in_app_iff. tauto. }
    assert (Em : write_all m (map (name k) cl ++ map (name k) bd ++ refs args) (xf ++ xb ++ xa) = write_all m2 (refs args) xa).
    { rewrite write_all_app by now rewrite map_length. rewrite write_all_app by now rewrite map_length. reflexivity. }
    rewrite Em. set (m3 := write_all m2 (refs args) xa) in *. cbn [snd].
    exists (Closure w' (if constant k then function c else xf) (if constant k then values c else xb) (leaves (others c) args xa) (objects c)). split; [|split].
    + apply does_call; try (rewrite <- ?S2, <- ?S3, ?map_length; assumption). unfold beside. fold k. rewrite <- S1. cbn [fst]. exact E.
    + split; cbn [fst snd world function values others objects callee bound].
      * reflexivity.
      * rewrite (map_look_same m2 m3) by (intros l I; apply C2, in_or_app; now left).
        rewrite (map_look_same m1 m2) by (intros l I; apply B2; now apply D1). rewrite A1. now rewrite S2.
      * rewrite (map_look_same m2 m3) by (intros l I; apply C2, in_or_app; now right). rewrite B1.
        rewrite (map_look_same m m1) by (intros l I; apply A2; intros J; now apply (D1 l J)). now rewrite S3.
      * exact C1.
      * now rewrite C3, B3, A3.
    + now rewrite C3, B3, A3.
  - rewrite !map_app, !Vo, Vis, S2, S3 in H.
    match type of H with context [f w ?a] => set (seen_args := a) in *; destruct (f w seen_args) as [[w' y] xs] eqn:E end.
    injection H as <- <-.
    assert (Len : length xs = length cl + length args + length bd).
    { specialize (Hf w seen_args). rewrite E in Hf. cbn in Hf. rewrite Hf. unfold seen_args. rewrite !app_length, !map_length, <- S2, <- S3, !map_length. lia. }
    destruct (split3 xs _ _ _ Len) as (xf & xa & xb & -> & Lf & La & Lb).
    destruct (own_written k cl m xf N1 P1 Lf) as (A1 & A2 & A3). set (m1 := write_all m (map (name k) cl) xf) in *.
    destruct (args_written (cl ++ bd) args m1 xa (others c)) as (C1 & C2 & C3).
    { now rewrite A3. }
    { intros l I. rewrite in_app_iff in I. rewrite A2 by tauto. apply S4. unfold own. cbn [callee bound]. rewrite in_app_iff. tauto. }
    set (m2 := write_all m1 (refs args) xa) in *.
    destruct (own_written k bd m2 xb N2) as (B1 & B2 & B3); [now rewrite C3, A3|exact Lb|].
    assert (Em : write_all m (map (name k) cl ++ refs args ++ map (name k) bd) (xf ++ xa ++ xb) = write_all m2 (map (name k) bd) xb).
    { rewrite write_all_app by now rewrite map_length. rewrite write_all_app by (unfold refs; now rewrite map_length). reflexivity. }
    rewrite Em. set (m3 := write_all m2 (map (name k) bd) xb) in *. cbn [snd].
    exists (Closure w' (if constant k then function c else xf) (if constant k then values c else xb) (leaves (others c) args xa) (objects c)). split; [|split].
    + apply does_call; try (rewrite <- ?S2, <- ?S3, ?map_length; assumption). unfold beside. fold k. rewrite <- S1. cbn [fst]. exact E.
    + split; cbn [fst snd world function values others objects callee bound].
      * reflexivity.
      * rewrite (map_look_same m2 m3) by (intros l I; apply B2; now apply D1).
        rewrite (map_look_same m1 m2) by (intros l I; apply C2, in_or_app; now left). rewrite A1. now rewrite S2.
      * rewrite B1. rewrite (map_look_same m1 m2) by (intros l I; apply C2, in_or_app; now right).
        rewrite (map_look_same m m1) by (intros l I; apply A2; intros J; now apply (D1 l J)). now rewrite S3.
      * intros l I. rewrite <- C1 by exact I. apply B2. intros J. apply I, in_or_app. now right.
      * now rewrite B3, C3, A3.
    + now rewrite B3, C3, A3.
Qed.

Lemma history_ok {W R} front (f : fn V W R) b es : forall (s s' : W * store) c r, honest f -> ready b (snd s) -> stands_for b s c -> legal b (length (snd s)) es ->
  history front f b s es = (s', r) -> exists c', goes front f c es c' r /\ stands_for b s' c'.
Proof.
  induction es as [|e es IH]; intros s s' c r Hf Rd S L H; cbn [history] in H.
  - injection H as <- <-. exists c. split; [constructor|exact S].
  - destruct (happen front f b s e) as [s1 r1] eqn:E1. destruct (history front f b s1 es) as [s2 r2] eqn:E2. injection H as <- <-.
    assert (St : exists c1, does front f c e c1 r1 /\ stands_for b s1 c1 /\ ready b (snd s1) /\ legal b (length (snd s1)) es).
    { destruct Rd as [N P]. destruct e as [l x|x|q args]; cbn [legal] in L.
      - destruct L as (L1 & L2 & L3). cbn in E1. injection E1 as <- <-. destruct S as [S1 S2 S3 S4 S5].
        eexists. split; [constructor|]. split; [split; cbn [fst snd world function values others objects]|].
        + exact S1.
        + rewrite <- S2. apply map_look_same. intros k K. apply look_set. intros ->. apply L1, in_or_app. now left.
        + rewrite <- S3. apply map_look_same. intros k K. apply look_set. intros ->. apply L1, in_or_app. now right.
        + intros k K. unfold changed. destruct (Nat.eqb_spec k l) as [->|D]; [now apply look_same|]. rewrite look_set by exact D. now apply S4.
        + now rewrite set_nth_length.
        + cbn [snd]. unfold ready. rewrite set_nth_length. now repeat split.
      - cbn in E1. injection E1 as <- <-. destruct S as [S1 S2 S3 S4 S5].
        assert (Ap : forall k, k < length (snd s) -> look (snd s ++ [x]) k = look (snd s) k) by (intros k K; unfold look; now rewrite app_nth1).
        rewrite Forall_forall in P.
        eexists. split; [constructor|]. split; [split; cbn [fst snd world function values others objects]|].
        + exact S1.
        + rewrite <- S2. apply map_look_same. intros k K. apply Ap, P, in_or_app. now left.
        + rewrite <- S3. apply map_look_same. intros k K. apply Ap, P, in_or_app. now right.
        + intros k K. unfold changed. rewrite <- S5. destruct (Nat.eqb_spec k (length (snd s))) as [->|D].
          * unfold look. rewrite app_nth2 by lia. now rewrite Nat.sub_diag.
          * rewrite <- S4 by exact K. destruct (Nat.ltb_spec k (length (snd s))); [now apply Ap|]. unfold look. rewrite !nth_overflow; [reflexivity|lia|rewrite app_length; cbn; lia].
        + rewrite app_length, S5. cbn. lia.
        + cbn [snd]. unfold ready. rewrite app_length. cbn [length]. rewrite Nat.add_1_r. repeat split; [exact N| |exact L].
          apply Forall_forall. intros k K. specialize (P k K). lia.
      - destruct L as [L1 L2]. destruct (called front f b s c q args s1 r1 Hf (conj N P) S L1 E1) as (c1 & D & S' & Len). exists c1.
        split; [exact D|]. split; [exact S'|]. unfold ready. rewrite Len. now repeat split. }
    destruct St as (c1 & D & S1 & Rd1 & L1). destruct (IH s1 s2 c1 r2 Hf Rd1 S1 L1 E2) as (c2 & G & S2). exists c2. split; [|exact S2].
    now apply goes_on with c1.
Qed.

(** ** Making a binder *)
Lemma look_app1 (m c : store) l : l < length m -> look (m ++ c) l = look m l.
Proof. intros H. unfold look. now apply app_nth1. Qed.
Lemma map_look_fresh (m cs : store) : map (look (m ++ cs)) (seq (length m) (length cs)) = cs.
Proof.
  apply nth_ext with (d := Gone) (d' := Gone); rewrite map_length, seq_length; [reflexivity|]. intros i H.
  erewrite nth_indep; [|now rewrite map_length, seq_length]. rewrite (map_nth (look (m ++ cs)) _ 0). rewrite seq_nth by exact H. unfold look. rewrite app_nth2 by lia. f_equal. lia.
Qed.
Lemma bind_ok (m : store) (f : ref quals) args : exclusive (f :: args) -> present m (f :: args) -> exists m' b,
  bind false m f args = Some (m', b) /\ ready b m' /\ length (callee b) = 1 /\
  map (look m') (callee b) = [look m (loc f)] /\ map (look m') (bound b) = map (fun a => look m (loc a)) args /\
  (forall l, In l (own b) -> length m <= l) /\
  (forall l, l < length m -> (given_up (f :: args) l -> look m' l = Gone) /\ (~ given_up (f :: args) l -> look m' l = look m l)).
Proof.
  intros X P. unfold bind. destruct (built m (f :: args) X) as (m1 & E & L). rewrite E.
  assert (Len : length m1 = length m) by (rewrite <- (build_length m (f :: args)), E; reflexivity).
  set (cs := values_of m (f :: args)) in *. assert (Lc : length cs = S (length args)) by (unfold cs, values_of; now rewrite map_length).
  pose proof (map_look_fresh m1 cs) as Fr. rewrite Lc in Fr. cbn [seq map] in Fr. change cs with (look m (loc f) :: map (fun a => look m (loc a)) args) in Fr at 3. injection Fr as F1 F2.
  eexists _, _. split; [reflexivity|]. unfold ready, own. cbn [callee bound]. split.
  { change ([length m1] ++ seq (S (length m1)) (length args)) with (seq (length m1) (S (length args))). split; [apply seq_NoDup|].
    apply Forall_forall. intros l I. apply in_seq in I. rewrite app_length. lia. }
  split; [reflexivity|]. split; [cbn [map]; now rewrite F1|]. split; [exact F2|]. split.
  { intros l I. change ([length m1] ++ seq (S (length m1)) (length args)) with (seq (length m1) (S (length args))) in I. apply in_seq in I. lia. }
  intros l H. rewrite look_app1 by lia. split; intros G; [now apply (moved_from _ _ _ L)|now apply (untouched _ _ _ L)].
Qed.
Lemma bind_value_ok (m : store) args : exclusive args -> present m args -> exists m' b,
  bind_value m args = (m', b) /\ ready b m' /\ callee b = [] /\ map (look m') (bound b) = map (fun a => look m (loc a)) args /\
  (forall l, In l (own b) -> length m <= l) /\
  (forall l, l < length m -> (given_up args l -> look m' l = Gone) /\ (~ given_up args l -> look m' l = look m l)).
Proof.
  intros X P. unfold bind_value. destruct (built m args X) as (m1 & E & L). rewrite E.
  assert (Len : length m1 = length m) by (rewrite <- (build_length m args), E; reflexivity).
  set (cs := values_of m args) in *. assert (Lc : length cs = length args) by (unfold cs, values_of; now rewrite map_length).
  pose proof (map_look_fresh m1 cs) as Fr. rewrite Lc in Fr.
  eexists _, _. split; [reflexivity|]. unfold ready, own. cbn [callee bound app]. split.
  { split; [apply seq_NoDup|]. apply Forall_forall. intros l I. apply in_seq in I. rewrite app_length. lia. }
  split; [reflexivity|]. split; [exact Fr|]. split; [intros l I; apply in_seq in I; lia|].
  intros l H. rewrite look_app1 by lia. split; intros G; [now apply (moved_from _ _ _ L)|now apply (untouched _ _ _ L)].
Qed.

(** ** Const calls *)
Lemma const_goes {W R} front (f : fn V W R) c es c' r : goes front f c es c' r ->
  (forall q args, In (Call q args) es -> constant q = true) -> function c' = function c /\ values c' = values c.
Proof.
  induction 1 as [|c e c1 r1 es c2 r2 D G IH]; intros H; [now split|]. destruct IH as [A B]; [intros q args I; apply (H q args); now right|].
  inversion D; subst; cbn in *; try (now split). specialize (H q args (or_introl eq_refl)).
  assert (Q : constant (given q) = true) by (destruct q; cbn in *; congruence). rewrite Q in *. now split.
Qed.
End Bind.
