(** Proofs for C133. *)
From Coq Require Import List Bool Lia.
From Verif Require Import Base ConstModel ConstSpec.
Import ListNotations.
Open Scope ub_scope.

Lemma all_nth (P : ty -> Prop) ts i u :
  (fix all l := match l with [] => True | t :: l' => P t /\ all l' end) ts -> nth_error ts i = Some u -> P u.
Proof.
  revert i. induction ts as [|t ts IH]; intros i H E; [destruct i; discriminate E|].
  destruct i as [|i]; cbn in E; [inversion E; subst; tauto|]. destruct H as [_ H]. eapply IH; eassumption.
Qed.

Lemma shares_step t a t' c' :
  shares_nothing t -> (no_lists t \/ a <> Front /\ a <> Back) -> a <> Bytes (Some false) -> result t true a = Some (t', c') ->
  shares_nothing t' /\ c' = true /\ (no_lists t -> no_lists t').
Proof.
  intros H N B E. destruct t; destruct a; cbn in E; try discriminate E; cbn in H, N |- *; cbn [no_lists];
    try (inversion E; subst; clear E; cbn; tauto).
  { destruct u as [[]|]; inversion E; subst; first [tauto | congruence]. }
  { destruct (nth_error ts i) as [u|] eqn:U; [|discriminate E].
    pose proof (all_nth shares_nothing ts i u H U) as Hu.
    assert (forall P : Prop, (fix all l := match l with [] => True | t :: l' => no_lists t /\ all l' end) ts -> (no_lists u -> P) -> P) as Hl
      by (intros P L K; apply K; exact (all_nth no_lists ts i u L U)).
    destruct u; inversion E; subst; try (split; [exact Hu|]; split; [reflexivity|]; intros L; apply (Hl _ L); intros X; exact X).
    destruct Hu as [-> Hu]. split; [exact Hu|]. split; [reflexivity|]. intros L. apply (Hl _ L). intros X. exact X. }
  all: try (destruct N as [[]|[N1 N2]]; congruence).
  all: try (destruct t; inversion E; subst; first [tauto | cbn; tauto]).
  destruct t; try discriminate E. destruct c; inversion E; subst. destruct H; discriminate.
Qed.

Theorem const_chain t l t' c' :
  shares_nothing t -> honest_bytes l -> no_lists t \/ only_loops l -> typed t true l = Some (t', c') -> c' = true.
Proof.
  revert t. induction l as [|a l IH]; intros t H B N E; cbn in E; [congruence|].
  destruct (result t true a) as [[u c]|] eqn:R; [|discriminate E]. cbn in E.
  destruct (shares_step t a u c) as (Hu & -> & Nu); try assumption.
  { destruct N as [N|[N1 N2]]; [left; exact N|right]. split; intros ->; [apply N1|apply N2]; left; reflexivity. }
  { intros ->. apply B. left. reflexivity. }
  apply (IH u); try assumption.
  - intros I. apply B. right. exact I.
  - destruct N as [N|[N1 N2]]; [left; tauto|right]. split; intros I; [apply N1|apply N2]; right; exact I.
Qed.

(** ** Places *)
Lemma set_nth_nth {A} i j (x : A) l : nth_error (set_nth i x l) j = if Nat.eqb i j then match nth_error l i with Some _ => Some x | None => None end else nth_error l j.
Proof.
  revert i j. induction l as [|y l IH]; intros i j; cbn.
  - destruct i, j; cbn; try reflexivity. destruct (Nat.eqb i j); reflexivity.
  - destruct i, j; cbn; try reflexivity. apply IH.
Qed.
Lemma part_put o path x o' : put o path x = Some o' -> part o' path = Some x.
Proof.
  revert o o'. induction path as [|i path IH]; intros o o' E; cbn in E |- *; [congruence|].
  destruct o as [| |l]; try discriminate E.
  destruct (nth_error l i) as [y|] eqn:Y; [|discriminate E]. cbn in E.
  destruct (put y path x) as [y'|] eqn:P; [|discriminate E]. inversion E; subst. cbn.
  rewrite set_nth_nth, Nat.eqb_refl, Y. cbn. eapply IH; eassumption.
Qed.
Lemma look_write m p x m' : write m p x = Some m' -> look m' p = Some x.
Proof.
  destruct p as [r path]. unfold write, look. destruct (nth_error m r) as [o|] eqn:O; [|discriminate]. cbn.
  destruct (put o path x) as [o'|] eqn:P; [|discriminate]. cbn. intros E. inversion E; subst.
  rewrite set_nth_nth, Nat.eqb_refl, O. cbn. eapply part_put; eassumption.
Qed.
Lemma put_there o path y x : part o path = Some y -> exists o', put o path x = Some o'.
Proof.
  revert o. induction path as [|i path IH]; intros o E; cbn in E |- *; [eauto|].
  destruct o as [| |l]; try discriminate E. destruct (nth_error l i) as [z|]; [|discriminate E]. cbn in E |- *.
  destruct (IH z E) as [o' ->]. cbn. eauto.
Qed.
Lemma write_there m p y x : look m p = Some y -> exists m', write m p x = Some m'.
Proof.
  destruct p as [r path]. unfold write, look. destruct (nth_error m r) as [o|]; [|discriminate]. cbn. intros E.
  destruct (put_there o path y x E) as [o' ->]. cbn. eauto.
Qed.

(** ** Own parts *)
Lemma not_into_part r o path q : not_into r o -> part o path = Some (Pointer q) -> match q with Place r' _ => r' <> r end.
Proof.
  revert o. induction path as [|i path IH]; intros o H E; cbn in E.
  - inversion E; subst. inversion H; subst. assumption.
  - destruct o as [| |l]; try discriminate E. destruct (nth_error l i) as [x|] eqn:X; [|discriminate E]. cbn in E.
    apply (IH x); [|exact E]. inversion H; subst. rewrite Forall_forall in *. eauto using nth_error_In.
Qed.
Lemma set_nth_Forall {A} (P : A -> Prop) i x l : Forall P l -> P x -> Forall P (set_nth i x l).
Proof.
  revert i. induction l as [|y l IH]; intros i H Hx; destruct i; cbn; try constructor; inversion H; subst; auto.
Qed.
Lemma not_into_put r o path x o' : not_into r o -> not_into r x -> put o path x = Some o' -> not_into r o'.
Proof.
  revert o o'. induction path as [|i path IH]; intros o o' H Hx E; cbn in E; [congruence|].
  destruct o as [| |l]; try discriminate E. destruct (nth_error l i) as [y|] eqn:Y; [|discriminate E]. cbn in E.
  destruct (put y path x) as [y'|] eqn:P; [|discriminate E]. inversion E; subst. inversion H; subst.
  constructor. apply set_nth_Forall; [assumption|]. eapply IH; [|exact Hx|exact P].
  match goal with F : Forall _ l |- _ => rewrite Forall_forall in F; eauto using nth_error_In end.
Qed.

Lemma pointee_root m r p q : Forall (not_into r) m -> pointee m p = Some q -> match q with Place r' _ => r' <> r end.
Proof.
  unfold pointee, look. destruct p as [r' path]. intros H.
  destruct (nth_error m r') as [o|] eqn:O; [|discriminate]. cbn.
  destruct (part o path) as [[|q'|]|] eqn:E; try discriminate. intros Q. inversion Q; subst.
  eapply not_into_part; [|exact E]. rewrite Forall_forall in H. eauto using nth_error_In.
Qed.
Definition root (p : place) : nat := match p with Place r _ => r end.
Lemma root_sub p i : root (sub p i) = root p.
Proof. destruct p. reflexivity. Qed.
Lemma locate_root m r t p a q : Forall (not_into r) m -> locate m t p a = Some q ->
  root q = root p \/ root q <> r.
Proof.
  intros H E.
  assert (forall i, (if refers t i then pointee m (sub p i) else Some (sub p i)) = Some q -> root q = root p \/ root q <> r) as G.
  { intros i Q. destruct (refers t i).
    - right. pose proof (pointee_root _ _ _ _ H Q). destruct q. assumption.
    - left. inversion Q; subst. apply root_sub. }
  unfold locate in E.
  destruct a; try (match type of E with context [index m p ?x] => destruct (index m p x) as [j|] end; [|discriminate E]; apply (G j E)).
  - inversion E; subst. left. destruct p. reflexivity.
  - inversion E; subst. left. reflexivity.
Qed.
(** A step from a const object gives a const one, or follows a pointer. *)
Lemma const_or_away m r t p a t' c' q : Forall (not_into r) m -> a <> Bytes (Some false) ->
  result t true a = Some (t', c') -> locate m t p a = Some q -> c' = true \/ root q <> r.
Proof.
  intros H B R L.
  assert (forall i, pointee m (sub p i) = Some q -> root q <> r) as G.
  { intros i Q. pose proof (pointee_root _ _ _ _ H Q). destruct q. assumption. }
  destruct t; destruct a; cbn in R; try discriminate R; try (inversion R; subst; left; reflexivity).
  { destruct u as [[]|]; inversion R; subst; [left; reflexivity|congruence|left; reflexivity]. }
  { destruct (nth_error ts i) as [u|] eqn:U; [|discriminate R].
    destruct u; inversion R; subst; try (left; reflexivity).
    destruct c'; [left; reflexivity|right]. cbn in L. rewrite U in L. apply (G i L). }
  { right. cbn in L. apply (G 0 L). }
  { right. unfold locate, index in L. destruct (count m p) as [|n]; [discriminate L|]. cbn in L. apply (G n L). }
  all: try (left; destruct t; inversion R; reflexivity).
  all: try (right; cbn in L; apply (G i L)).
  all: try (right; cbn in L; apply (G 0 L)).
  right. unfold locate, index in L. destruct (count m p) as [|n]; [discriminate L|]. cbn in L. apply (G n L).
Qed.
Lemma follow_away m r t c p l t' q : Forall (not_into r) m -> honest_bytes l -> c = true \/ root p <> r ->
  typed t c l = Some (t', false) -> follow m t c p l = Some q -> root q <> r.
Proof.
  revert t c p. induction l as [|a l IH]; intros t c p H B A T F; cbn in T, F.
  - inversion T; subst. inversion F; subst. destruct A as [A|A]; [discriminate A|exact A].
  - destruct (result t c a) as [[u d]|] eqn:R; [|discriminate T]. cbn in T, F.
    destruct (locate m t p a) as [p'|] eqn:L; [|discriminate F]. cbn in F.
    apply (IH u d p'); try assumption; [intros I; apply B; right; exact I|].
    destruct A as [->|A].
    + eapply const_or_away; try eassumption. intros ->. apply B. left. reflexivity.
    + right. destruct (locate_root _ _ _ _ _ _ H L) as [->|]; assumption.
Qed.
Theorem own_parts t r : forall prog m m',
  Forall (not_into r) m -> Forall (fun s => honest_bytes (fst s) /\ not_into r (snd s)) prog ->
  exec t true (Place r []) m prog = Some m' -> nth_error m' r = nth_error m r.
Proof.
  induction prog as [|[l x] prog IH]; intros m m' H P E; cbn in E; [congruence|].
  unfold compiles in E. cbn in E.
  destruct (typed t true l) as [[u c]|] eqn:T; [|discriminate E]. destruct c; [discriminate E|].
  destruct (follow m t true (Place r []) l) as [q|] eqn:F; [|discriminate E]. cbn in E.
  destruct (write m q x) as [m1|] eqn:W; [|discriminate E]. cbn in E.
  inversion P as [|? ? [B X] P']; subst. cbn in B, X.
  assert (root q <> r) as Q by (eapply follow_away; try eassumption; left; reflexivity).
  destruct q as [r' path]. cbn in Q. unfold write in W.
  destruct (nth_error m r') as [o|] eqn:O; [|discriminate W]. cbn in W.
  destruct (put o path x) as [o'|] eqn:U; [|discriminate W]. cbn in W. inversion W; subst.
  rewrite (IH _ _ (set_nth_Forall _ _ _ _ H ltac:(eapply not_into_put; [|exact X|exact U]; rewrite Forall_forall in H; eauto using nth_error_In)) P' E).
  rewrite set_nth_nth. destruct (Nat.eqb_spec r' r); [contradiction|reflexivity].
Qed.

(** ** A byterator at the end of a chain *)
Lemma typed_bytes t c l c' u : typed t c l = Some (Plain, c') ->
  typed t c (l ++ [Bytes u]) = Some (Plain, match u with Some k => k | None => c' end).
Proof.
  revert t c. induction l as [|a l IH]; intros t c T; cbn in T |- *; [inversion T; subst; reflexivity|].
  destruct (result t c a) as [[t' d]|]; [|discriminate T]. exact (IH t' d T).
Qed.
Lemma follow_bytes m t c p l c' q u : typed t c l = Some (Plain, c') -> follow m t c p l = Some q -> follow m t c p (l ++ [Bytes u]) = Some q.
Proof.
  revert t c p. induction l as [|a l IH]; intros t c p T F; cbn in T, F |- *.
  - inversion T; subst. inversion F; subst. reflexivity.
  - destruct (result t c a) as [[t' d]|]; [|discriminate T]. cbn in T, F |- *.
    destruct (locate m t p a) as [p'|]; [|discriminate F]. exact (IH t' d p' T F).
Qed.
