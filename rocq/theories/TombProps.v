(** Property C109: the tombstones that come with the library. *)
From Verif Require Import Base OptionalModel OptionalSpec TombModel TombSpec.

Fixpoint ty_induction (P : ty -> Prop) (HF : P Floating) (HP : P Pointer) (HU : forall s, P (User s)) (HL : forall l ts, Forall P ts -> P (Parts l ts)) (t : ty) : P t :=
  match t with
  | Floating => HF | Pointer => HP | User s => HU s
  | Parts l ts => HL l ts ((fix go (ts : list ty) : Forall P ts := match ts with [] => Forall_nil P | t :: r => Forall_cons t (ty_induction P HF HP HU HL t) (go r) end) ts)
  end.
Definition tombs := fix go (ts : list ty) := match ts with [] => Some [] | t :: r => match tombstone t, go r with Some v, Some vs => Some (v :: vs) | _, _ => None end end.
Definition vals_eqb := fix go (xs ys : list val) := match xs, ys with [], [] => true | x :: xs, y :: ys => val_eqb x y && go xs ys | _, _ => false end.
Lemma marked_iff t : has_tombstone t = true <-> marked t.
Proof.
  induction t as [| |s|l ts IH] using ty_induction.
  - split; [constructor|reflexivity].
  - split; [constructor|reflexivity].
  - destruct s; cbn; split; intros H; try discriminate; try constructor. inversion H.
  - destruct ts as [|t ts]; [cbn; split; [discriminate|intros H; inversion H]|]. cbn [has_tombstone]. rewrite andb_true_iff, forallb_forall. rewrite Forall_forall in IH. split.
    + intros [C F]. constructor; [intros ->; discriminate|]. apply Forall_forall. intros x I. apply (IH x I), F, I.
    + intros H. inversion H as [| | |? ? ? N F]; subst. rewrite Forall_forall in F. split; [now destruct l|]. intros x I. apply (IH x I), F, I.
Qed.
Lemma tombs_ok ts : Forall (fun t => marked t -> exists v, tombstone t = Some v /\ typed v t /\ forall u, typed u t -> (val_eqb u v = true <-> dead u t)) ts -> Forall marked ts ->
  exists vs, tombs ts = Some vs /\ Forall2 typed vs ts /\ forall us, Forall2 typed us ts -> (vals_eqb us vs = true <-> Forall2 dead us ts).
Proof.
  induction ts as [|t ts IH]; intros H M.
  - exists []. split; [reflexivity|]. split; [constructor|]. intros us F. inversion F; subst. split; [constructor|reflexivity].
  - inversion H as [|? ? Ht Hts]; inversion M as [|? ? Mt Mts]; subst. destruct (Ht Mt) as (v & E & T & D). destruct (IH Hts Mts) as (vs & Es & Ts & Ds).
    exists (v :: vs). cbn [tombs]. fold tombs. rewrite E, Es. split; [reflexivity|]. split; [now constructor|].
    intros us F. inversion F as [|u ? us' ? Fu Fus]; subst. cbn [vals_eqb]. fold vals_eqb. rewrite andb_true_iff, (D _ Fu), (Ds _ Fus). split; [intros []; now constructor|intros K; inversion K; auto].
Qed.
Lemma tombstone_ok t : marked t -> exists v, tombstone t = Some v /\ typed v t /\ forall u, typed u t -> (val_eqb u v = true <-> dead u t).
Proof.
  induction t as [| |s|l ts IH] using ty_induction; intros M.
  - exists (Num PosInf). split; [reflexivity|]. split; [constructor|]. intros u T. inversion T as [x| | |]; subst. destruct x; cbn; split; intros K; try discriminate; try constructor; inversion K.
  - exists (Address 0). split; [reflexivity|]. split; [constructor|]. intros u T. inversion T as [|a| |]; subst. cbn. rewrite N.eqb_eq. split; [intros ->; constructor|intros K; inversion K; reflexivity].
  - inversion M; subst. exists (Own z). split; [reflexivity|]. split; [constructor|]. intros u T. inversion T as [| |z' ?|]; subst. cbn. rewrite Z.eqb_eq. split; [intros ->; constructor|intros K; inversion K; reflexivity].
  - pose proof (proj2 (marked_iff _) M) as Hm. assert (Ms : Forall marked ts) by (inversion M; assumption). destruct (tombs_ok ts IH Ms) as (vs & E & T & D).
    exists (Made vs). cbn [tombstone]. fold tombs. rewrite Hm, E. split; [reflexivity|]. split; [now constructor|].
    intros u Tu. inversion Tu as [| | |? us ? F]; subst. change (vals_eqb us vs = true <-> dead (Made us) (Parts l ts)). rewrite (D _ F). split; [now constructor|intros K; inversion K; assumption].
Qed.

(** Exactly these types have a tombstone of the library or of their author; the others do not compile. *)
Theorem C109_which : forall t, (has_tombstone t = true <-> marked t) /\ (marked t <-> exists v, tombstone t = Some v).
Proof.
  intros t. split; [apply marked_iff|]. split.
  - intros M. destruct (tombstone_ok t M) as (v & E & _). eauto.
  - intros (v & E). destruct t as [| |[z|]|l ts]; try constructor; try discriminate. cbn [tombstone] in E. destruct (has_tombstone (Parts l ts)) eqn:H; [|discriminate]. now apply marked_iff.
Qed.
Print Assumptions C109_which.
(** An optional over such a type is empty exactly if every part of its value is a tombstone, and is empty
    when it is made without a value.  A pair or tuple with some tombstones among its parts is a value. *)
Theorem C109_empty : forall t, marked t -> exists ts, tombstone t = Some ts /\
  has_value ts val_eqb (construct_default ts) = Some false /\
  forall v, typed v t -> exists b, has_value ts val_eqb (construct v) = Some b /\ (b = false <-> dead v t).
Proof.
  intros t M. destruct (tombstone_ok t M) as (v & E & T & D). exists v. split; [exact E|].
  assert (R : dead v t -> val_eqb v v = true) by apply (D v T). unfold has_value, construct, construct_default. cbn. split.
  - rewrite R; [reflexivity|]. clear R D. revert v E T. induction t as [| |s|l ts IH] using ty_induction; intros v E T.
    + injection E as <-. constructor.
    + injection E as <-. constructor.
    + destruct s; [|discriminate]. injection E as <-. constructor.
    + cbn [tombstone] in E. fold tombs in E. destruct (has_tombstone (Parts l ts)); [|discriminate]. destruct (tombs ts) as [vs|] eqn:Es; [|discriminate]. injection E as <-. constructor.
      assert (Ms : Forall marked ts) by (inversion M; assumption). inversion T as [| | |? ? ? F]; subst. clear T M.
      revert vs Es F. induction ts as [|t ts IHts]; intros vs Es F; inversion F as [|v ? vs' ? Tv F']; subst; constructor; inversion IH as [|? ? I IH']; inversion Ms as [|? ? Mt Ms']; subst; cbn [tombs] in Es; fold tombs in Es; destruct (tombstone t) as [w|] eqn:Et; try discriminate; destruct (tombs ts) as [ws|] eqn:Ews; try discriminate; injection Es as <- <-.
      * now apply I.
      * now apply IHts.
  - intros u Tu. eexists. split; [reflexivity|]. rewrite negb_false_iff. apply D, Tu.
Qed.
Print Assumptions C109_empty.
(** stdx::tuple, although its parts have tombstones, has none; neither has anything it is a part of. *)
Theorem C109_stdx_tuple_refuted : forall ts, tombstone (Parts StdxTuple ts) = None /\
  forall l us, In (Parts StdxTuple ts) us -> tombstone (Parts l us) = None.
Proof.
  assert (N : forall ts, ~ marked (Parts StdxTuple ts)) by (intros ts H; inversion H; congruence).
  assert (K : forall t, ~ marked t -> tombstone t = None).
  { intros t M. destruct (tombstone t) eqn:E; [|reflexivity]. exfalso. apply M. apply (C109_which t). eauto. }
  intros ts. split; [apply K, N|]. intros l us I. apply K. intros M. inversion M as [| | |? ? ? _ F]; subst. rewrite Forall_forall in F. exact (N _ (F _ I)).
Qed.
Print Assumptions C109_stdx_tuple_refuted.
(** A tombstone given with tombstone_value marks exactly the values equal to it; one that is not equal to
    itself, such as NaN, marks none, and no optional is ever empty. *)
Theorem C109_given : forall c v, exists b, has_value (tombstone_value c) val_eqb (construct v) = Some b /\
  (b = false <-> val_eqb v (match c with Plain x | CxValue x => x end) = true).
Proof. intros c v. eexists. split; [reflexivity|]. rewrite negb_false_iff. now destruct c. Qed.
Print Assumptions C109_given.
Theorem C109_nan_refuted : has_value (tombstone_value (Plain (Num NaN))) val_eqb (construct_default (tombstone_value (Plain (Num NaN)))) = Some true /\
  forall v, has_value (tombstone_value (Plain (Num NaN))) val_eqb (construct v) = Some true.
Proof. split; [reflexivity|]. intros v. cbn. destruct v as [x| | |]; try reflexivity. destruct x; reflexivity. Qed.
Print Assumptions C109_nan_refuted.
Example C109_nonvacuous :
  let t := Parts StdTuple [Floating; Parts StdPair [Pointer; User (Some (-1)%Z)]] in
  marked t /\ tombstone t = Some (Made [Num PosInf; Made [Address 0; Own (-1)]]) /\
  typed (Made [Num PosInf; Made [Address 0; Own 3]]) t /\ ~ dead (Made [Num PosInf; Made [Address 0; Own 3]]) t /\
  tombstone (Parts StdTuple []) = None /\ tombstone (Parts StdTuple [User None]) = None.
Proof.
  cbn. repeat split; repeat constructor; try discriminate. intros H. inversion H as [| | |? ? ? F]; subst. inversion F as [|? ? ? ? _ F1]; subst. inversion F1 as [|? ? ? ? D _]; subst. inversion D as [| | |? ? ? F2]; subst. inversion F2 as [|? ? ? ? _ F3]; subst. inversion F3 as [|? ? ? ? D1 _]; subst. inversion D1.
Qed.
