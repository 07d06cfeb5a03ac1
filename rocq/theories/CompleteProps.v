(** * C122: is_complete_v *)
From Verif Require Import Base CompleteModel CompleteSpec.

Definition knows (d : list nat) (before : list event) : Prop := forall c, In c d <-> In (Define c) before.
Lemma size_complete d before t : knows d before -> formed t -> is_object t -> (has_size d t = true <-> complete_at before t).
Proof.
  intros K. induction t as [k|c|t IH|t IH|t IH [n|]| |]; cbn; intros F O.
  - split; [constructor|reflexivity].
  - rewrite existsb_exists. split.
    + intros (x & I & E). apply Nat.eqb_eq in E. subst x. constructor. now apply K.
    + intros H. inversion H; subst. exists c. split; [now apply K|apply Nat.eqb_refl].
  - split; [constructor|reflexivity].
  - contradiction.
  - destruct F as (Ou & _ & Fu). rewrite (IH Fu Ou). split; [constructor; assumption|]. intros H. now inversion H.
  - split; [discriminate|]. intros H. inversion H.
  - split; [discriminate|]. intros H. inversion H.
  - contradiction.
Qed.
Definition consistent (before : list event) (s : unit_state) : Prop :=
  knows (defined s) before /\
  forall t, match lookup t (made s) with
            | Some b => exists p q d, before = p ++ Ask t :: q /\ ~ In (Ask t) p /\ knows d p /\ b = has_size d t
            | None => ~ In (Ask t) before
            end.
Lemma lookup_cons t u b l : lookup t ((u, b) :: l) = if type_eq t u then Some b else lookup t l.
Proof. unfold lookup. cbn. destruct (type_eq t u); reflexivity. Qed.
Lemma answers : forall events before s, consistent before s ->
  Forall2 (fun q a => fst a = snd q /\ exists first d, first_asked (fst q) (snd q) first /\ knows d first /\ snd a = has_size d (snd q)) (questions before events) (compile s events).
Proof.
  induction events as [|[c|t] events IH]; intros before s [K L]; cbn; [constructor| |].
  - apply IH. split.
    + intros x. cbn. rewrite in_app_iff, (K x). cbn. intuition congruence.
    + intros t. specialize (L t). cbn. destruct (lookup t (made s)) as [b|].
      * destruct L as (p & q & d & -> & N & Kd & E). exists p, (q ++ [Define c]), d. rewrite <- app_assoc. auto.
      * rewrite in_app_iff. cbn. intros [I|[I|[]]]; [auto|discriminate].
  - pose proof (L t) as Lt. unfold ask. destruct (lookup t (made s)) as [b|] eqn:E.
    + destruct Lt as (p & q & d & -> & N & Kd & ->). constructor; [split; [reflexivity|]; exists p, d; cbn; split; [|auto]; split; [exact N|right; eauto]|].
      apply IH. split; [intros x; rewrite in_app_iff, (K x); cbn; intuition congruence|].
      intros u. specialize (L u). destruct (lookup u (made s)) as [b'|].
      * destruct L as (p' & q' & d' & Q & N' & Kd' & E'). exists p', (q' ++ [Ask t]), d'. rewrite Q, <- app_assoc. auto.
      * intros I. apply in_app_or in I as [I|[I|[]]]; [auto|]. injection I as ->. apply L. apply in_or_app. right. now left.
    + constructor; [split; [reflexivity|]; exists before, (defined s); cbn; split; [|auto]; split; [exact Lt|now left]|].
      apply IH. split; [intros x; cbn; rewrite in_app_iff, (K x); cbn; intuition congruence|].
      intros u. cbn [made]. rewrite lookup_cons. destruct (type_eq u t) as [-> |Nu].
      * exists before, [], (defined s). auto.
      * specialize (L u). destruct (lookup u (made s)) as [b'|].
        -- destruct L as (p' & q' & d' & Q & N' & Kd' & E'). exists p', (q' ++ [Ask t]), d'. rewrite Q, <- app_assoc. auto.
        -- intros I. apply in_app_or in I as [I|[I|[]]]; [auto|]. injection I as ->. congruence.
Qed.
Lemma start : consistent [] {| defined := []; made := [] |}.
Proof. split; [intros c; reflexivity|]. intros t. cbn. tauto. Qed.

(** Every question is answered, and the answer is whether the type was complete where it was first asked. *)
Theorem C122_first_use : forall events, Forall2 (fun q a => fst a = snd q /\
    (formed (snd q) -> is_object (snd q) -> exists first, first_asked (fst q) (snd q) first /\ (snd a = true <-> complete_at first (snd q))))
  (questions [] events) (translation_unit events).
Proof.
  intros events. pose proof (answers events [] _ start) as H. fold (translation_unit events) in H. induction H as [|q a qs as' [E (first & d & F & K & V)] _ IH]; constructor; [|exact IH].
  split; [exact E|]. intros Fm O. exists first. split; [exact F|]. rewrite V. now apply size_complete.
Qed.
Print Assumptions C122_first_use.
Lemma questions_text : forall events before q, In q (questions before events) -> exists a b, before ++ events = a ++ Ask (snd q) :: b /\ fst q = a.
Proof.
  induction events as [|[c|t] events IH]; intros before q I; cbn in I; [contradiction| |].
  - destruct (IH _ _ I) as (a & b & E & F). rewrite <- app_assoc in E. eauto.
  - destruct I as [<-|I]; [cbn; eauto|]. destruct (IH _ _ I) as (a & b & E & F). rewrite <- app_assoc in E. eauto.
Qed.
Lemma grows before more t : complete_at before t -> complete_at (before ++ more) t.
Proof. induction 1; constructor; auto. apply in_or_app. auto. Qed.
Lemma shrinks first between t : (forall c, about t = Some c -> ~ In (Define c) between) -> complete_at (first ++ Ask t :: between) t -> complete_at first t.
Proof.
  intros H C. remember (Ask t :: between) as more eqn:Em. assert (N : forall c, about t = Some c -> ~ In (Define c) more) by (intros c A; subst more; cbn; intros [I|I]; [discriminate|eapply H; eassumption]).
  clear H Em between. induction C as [| |c I|t n C IH]; constructor.
  - apply in_app_or in I as [I|I]; [exact I|]. exfalso. exact (N c eq_refl I).
  - apply IH. exact N.
Qed.
(** If nothing is asked again whose class was defined after the first question, all answers are right. *)
Theorem C122_right : forall events, asked_in_time events -> Forall2 (fun q a => fst a = snd q /\
    (formed (snd q) -> is_object (snd q) -> (snd a = true <-> complete_at (fst q) (snd q)))) (questions [] events) (translation_unit events).
Proof.
  intros events T. pose proof (C122_first_use events) as H.
  assert (G : forall q, In q (questions [] events) -> forall first, first_asked (fst q) (snd q) first -> (complete_at first (snd q) <-> complete_at (fst q) (snd q))).
  { intros q I first [N [-> | (between & E)]]; [reflexivity|]. rewrite E. split; [apply grows|]. apply shrinks. intros c A D.
    destruct (questions_text events [] q I) as (a & b & Ev & Q). cbn in Ev. rewrite Q in E. rewrite E, <- app_assoc in Ev. cbn in Ev.
    apply (T _ _ _ _ Ev A); apply in_or_app; [left; exact D|right; now left]. }
  remember (questions [] events) as qs eqn:Eq. clear Eq T. induction H as [|q a qs as' [E V] _ IH]; constructor.
  - split; [exact E|]. intros Fm O. destruct (V Fm O) as (first & F & W). rewrite W. apply (G q (or_introl eq_refl) first F).
  - apply IH. intros q' I. apply G. now right.
Qed.
Print Assumptions C122_right.
Example C122_nonvacuous :
  let events := [Define 1; Ask (Class 1); Ask (Array (Class 2) (Some 3)); Ask (Pointer (Class 2)); Define 2; Ask (Class 2); Ask Void; Ask (Class 1)] in
  asked_in_time events /\ translation_unit events = [(Class 1, true); (Array (Class 2) (Some 3), false); (Pointer (Class 2), true); (Class 2, true); (Void, false); (Class 1, true)].
Proof.
  split; [|reflexivity]. intros a b t c E A D I.
  do 8 (destruct a as [|? a]; [cbn in E; first [discriminate E|injection E as <- <-]; try discriminate A; cbn in *; decompose [or] I; try discriminate; try contradiction; decompose [or] D; congruence|cbn in E; injection E as <- E]).
  destruct a; discriminate E.
Qed.

(** ** What fails *)
Lemma questions_app : forall a before b, questions before (a ++ b) = questions before a ++ questions (before ++ a) b.
Proof.
  induction a as [|[c|t] a IH]; intros before b; cbn; [now rewrite app_nil_r| |]; rewrite IH, <- app_assoc; reflexivity.
Qed.
Lemma prefix_of (x : event) : forall first a r r', first ++ x :: r = a ++ x :: r' -> ~ In x first -> exists more, a = first ++ more.
Proof.
  induction first as [|y first IH]; intros a r r' E N; [exists a; reflexivity|]. destruct a as [|z a]; cbn in E; injection E as <- E; [exfalso; apply N; now left|].
  destruct (IH a r r' E ltac:(intros I; apply N; now right)) as (more & ->). exists more. reflexivity.
Qed.
(** Asked before the definition, the answer stays false after it. *)
Theorem C122_stale_refuted : forall a b d c, ~ In (Define c) a ->
  let before := a ++ Ask (Class c) :: b ++ Define c :: d in
  complete_at before (Class c) /\ exists answers, translation_unit (before ++ [Ask (Class c)]) = answers ++ [(Class c, false)].
Proof.
  intros a b d c N before. split; [constructor; unfold before; apply in_or_app; right; right; apply in_or_app; right; now left|].
  pose proof (C122_first_use (before ++ [Ask (Class c)])) as H. rewrite questions_app in H. cbn [questions app] in H.
  apply Forall2_app_inv_l in H as (l1 & l2 & _ & H & ->). inversion H as [|? [t x] ? l3 [E V] H2]; subst. inversion H2; subst. cbn in E, V. subst t. exists l1. do 3 f_equal.
  destruct (V I I) as (first & [Nf F] & W). assert (P : exists more, a = first ++ more).
  { destruct F as [F|(between & F)]; [exfalso; apply Nf; rewrite <- F; unfold before; apply in_or_app; right; now left|]. unfold before in F. symmetry in F. eapply prefix_of; eassumption. }
  destruct P as (more & ->). destruct x; [|reflexivity]. exfalso. apply N. apply in_or_app. left. pose proof (proj1 W eq_refl) as Q. now inversion Q.
Qed.
Print Assumptions C122_stale_refuted.
(** A reference to a class that is not defined counts as incomplete, and a function type does. *)
Theorem C122_reference_refuted : forall c, translation_unit [Ask (Ref (Class c)); Ask Function] = [(Ref (Class c), false); (Function, false)].
Proof. reflexivity. Qed.
Print Assumptions C122_reference_refuted.
