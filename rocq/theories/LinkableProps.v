(** C124: the concepts single_linkable and double_linkable, and the types the lists accept. *)
From Coq Require Import List Bool PeanoNat Lia.
From Verif Require Import LinkableModel LinkableSpec LinkableProofs.
From Coq Require Import NArith.
From Verif Require Base BaseLemmas IntrusiveListModel MixModel.
Import ListNotations.

Ltac tyc := unfold compiles_stmt, type_of, next_, prev_, v; cbn [path_ty fst].

(** What the concepts hold for, for all programs: the member next points to a class (not
    necessarily the same one) whose next points to itself. *)
Theorem C124_single_iff : forall E T, well_formed E ->
  single_linkable E T = true <-> exists x D, finds E T Next x /\ mtype x = Ptr false D /\ links_to_itself E D Next.
Proof.
  intros E T W. rewrite single_spec. split; intros (x & D & A & B & C); exists x, D.
  - apply member_finds in A, C; auto.
  - apply member_finds in A, C; auto.
Qed.
Print Assumptions C124_single_iff.
Theorem C124_double_iff : forall E T, well_formed E ->
  double_linkable E T = true <->
  forall m, exists x D, finds E T m x /\ mtype x = Ptr false D /\ links_to_itself E D Next /\ links_to_itself E D Prev.
Proof.
  intros E T W. rewrite double_spec. unfold both. split.
  - intros (A & B) m. assert (X : exists x D, member_of E T m = Some x /\ mtype x = Ptr false D /\
      member_of E D Next = Some {| mtype := Ptr false D; mconst := false |} /\ member_of E D Prev = Some {| mtype := Ptr false D; mconst := false |}) by (destruct m; assumption).
    destruct X as (x & D & P & Q & R & S). exists x, D. apply member_finds in P, R, S; auto.
  - intros H. split; [destruct (H Next) as (x & D & P & Q & R & S) | destruct (H Prev) as (x & D & P & Q & R & S)];
      exists x, D; apply member_finds in P, R, S; auto.
Qed.
Print Assumptions C124_double_iff.

(** Every operation of intrusive_forward_list<T> compiles exactly if T's next is a T * that can be
    assigned to and, with the checked policy, T has no member prev or one that is a pointer too. *)
Theorem C124_forward_iff : forall E T checked, well_formed E ->
  (forall o, In o [PushFront; PushBack; PopFront; Clear; Iterate] -> forward_compiles E T checked o = true) <->
  links_to_itself E T Next /\ (checked = true -> forall x, finds E T Prev x -> assignable_pointer x).
Proof.
  intros E T checked W. split.
  - intros H.
    assert (A : compiles_stmt E T (Set_ next_ v) = true).
    { specialize (H PushFront (or_introl eq_refl)). apply (compiles_in _ _ _ (Set_ next_ v) H). apply in_or_app. right. cbn. tauto. }
    assert (B : compiles_stmt E T (Set_ v next_) = true).
    { specialize (H Iterate ltac:(cbn; tauto)). apply (compiles_in _ _ _ (Set_ v next_) H). left. reflexivity. }
    split; [apply (member_finds E W); exact (both_ways E T next_ Next eq_refl A B)|].
    intros -> x F. apply (member_finds E W) in F.
    assert (C : compiles_stmt E T (SetNull prev_) = true).
    { specialize (H PopFront ltac:(cbn; tauto)). apply (compiles_in _ _ _ (SetNull prev_) H). apply in_or_app. right. unfold on_pop, if_prev, has_prev_pointer. rewrite F. cbn. tauto. }
    revert C. tyc. unfold arrow. rewrite F. intros C. apply andb_true_iff in C as (C1 & C2). rewrite orb_false_r in C1. apply negb_true_iff in C1.
    split; [exact C1|]. intros Q. rewrite Q in C2. discriminate.
  - intros (G & P). apply (member_finds E W) in G.
    assert (P' : checked = true -> prev_ok E T) by (intros C x M; apply (member_finds E W) in M; exact (P C x M)).
    destruct (on_ok E T checked G P') as (O1 & O2 & O3).
    assert (Q1 : compiles_stmt E T (Set_ v v) = true) by (tyc; rewrite (good_self E T _ G); reflexivity).
    assert (Q2 : compiles_stmt E T (Set_ next_ v) = true) by (tyc; rewrite (good_arrow E T _ G); cbn [path_ty fst]; rewrite (good_self E T _ G); reflexivity).
    assert (Q3 : compiles_stmt E T (Set_ v next_) = true) by (tyc; rewrite (good_arrow E T _ G); cbn [path_ty fst]; rewrite (good_self E T _ G); reflexivity).
    assert (Q4 : compiles_stmt E T (SetNull next_) = true) by (tyc; rewrite (good_arrow E T _ G); reflexivity).
    assert (Q5 : compiles_stmt E T NeedSingle = true) by exact (good_single E T G).
    assert (Q6 : compiles_stmt E T (IsNull v) = true) by reflexivity.
    assert (Q7 : compiles_stmt E T (SetNull v) = true) by reflexivity.
    intros o [<-|[<-|[<-|[<-|[<-|[]]]]]]; unfold forward_compiles; cbn [forward_code]; rewrite ?compiles_app, ?O1, ?O2, ?O3; unfold compiles; cbn [forallb];
      rewrite ?Q1, ?Q2, ?Q3, ?Q4, ?Q5, ?Q6, ?Q7; reflexivity.
Qed.
Print Assumptions C124_forward_iff.

(** Every operation of intrusive_list<T> compiles exactly if next and prev are T *. *)
Theorem C124_list_iff : forall E T checked, well_formed E ->
  (forall o, list_compiles E T checked o = true) <-> links_to_itself E T Next /\ links_to_itself E T Prev.
Proof.
  intros E T checked W. split.
  - intros H.
    assert (A : forall s, In s [Set_ next_ v; Set_ prev_ v; Set_ v next_; Set_ v prev_] -> compiles_stmt E T s = true).
    { intros s I. specialize (H Remove). apply (compiles_in _ _ _ s H). apply in_or_app. left. cbn in *. tauto. }
    split; apply (member_finds E W).
    + apply (both_ways E T next_ Next eq_refl); apply A; cbn; tauto.
    + apply (both_ways E T prev_ Prev eq_refl); apply A; cbn; tauto.
  - intros (G & H). apply (member_finds E W) in G, H.
    assert (P' : checked = true -> prev_ok E T) by (intros _ x M; rewrite H in M; injection M as <-; split; [reflexivity | discriminate]).
    destruct (on_ok E T checked G P') as (O1 & O2 & O3).
    assert (Q1 : compiles_stmt E T (Set_ v v) = true) by (tyc; rewrite (good_self E T _ G); reflexivity).
    assert (Q2 : compiles_stmt E T (Set_ next_ v) = true) by (tyc; rewrite (good_arrow E T _ G); cbn [path_ty fst]; rewrite (good_self E T _ G); reflexivity).
    assert (Q3 : compiles_stmt E T (Set_ v next_) = true) by (tyc; rewrite (good_arrow E T _ G); cbn [path_ty fst]; rewrite (good_self E T _ G); reflexivity).
    assert (Q4 : compiles_stmt E T (SetNull next_) = true) by (tyc; rewrite (good_arrow E T _ G); reflexivity).
    assert (R2 : compiles_stmt E T (Set_ prev_ v) = true) by (tyc; rewrite (good_arrow E T _ H); cbn [path_ty fst]; rewrite (good_self E T _ G); reflexivity).
    assert (R3 : compiles_stmt E T (Set_ v prev_) = true) by (tyc; rewrite (good_arrow E T _ H); cbn [path_ty fst]; rewrite (good_self E T _ G); reflexivity).
    assert (R4 : compiles_stmt E T (SetNull prev_) = true) by (tyc; rewrite (good_arrow E T _ H); reflexivity).
    assert (R5 : compiles_stmt E T (Set_ prev_ prev_) = true) by (tyc; rewrite (good_arrow E T _ H); cbn [path_ty fst]; rewrite (good_self E T _ G); reflexivity).
    assert (R6 : compiles_stmt E T (Test prev_) = true) by (tyc; rewrite (good_arrow E T _ H); reflexivity).
    assert (R7 : compiles_stmt E T (Set_ [Prev; Next] v) = true)
      by (tyc; rewrite (good_arrow E T _ H); cbn [path_ty fst]; rewrite (good_arrow E T _ G); cbn [path_ty fst]; rewrite (good_self E T _ G); reflexivity).
    assert (Q5 : compiles_stmt E T NeedDouble = true) by exact (good_double E T G H).
    assert (Q6 : compiles_stmt E T (IsNull v) = true) by reflexivity.
    assert (Q7 : compiles_stmt E T (SetNull v) = true) by reflexivity.
    intros o. destruct o; unfold list_compiles; cbn [list_code]; unfold push_back_code; rewrite ?compiles_app, ?O1, ?O2, ?O3; unfold compiles; cbn [forallb];
      rewrite ?Q1, ?Q2, ?Q3, ?Q4, ?Q5, ?Q6, ?Q7, ?R2, ?R3, ?R4, ?R5, ?R6, ?R7; reflexivity.
Qed.
Print Assumptions C124_list_iff.

(** So the concepts hold for every type that the lists accept. *)
Theorem C124_complete : forall E T checked, well_formed E ->
  ((forall o, In o [PushFront; PushBack; PopFront; Clear; Iterate] -> forward_compiles E T checked o = true) -> single_linkable E T = true) /\
  ((forall o, list_compiles E T checked o = true) -> double_linkable E T = true).
Proof.
  intros E T checked W. split.
  - intros H. apply (C124_forward_iff E T checked W) in H as (H & _). apply (member_finds E W) in H. exact (good_single E T H).
  - intros H. apply (C124_list_iff E T checked W) in H as (G & H). apply (member_finds E W) in G, H. exact (good_double E T G H).
Qed.
Print Assumptions C124_complete.

(** FINDING: for a class T that inherits next and prev from a base class D with D * members, the
    concepts hold and nodes can be pushed, but taking nodes out and iterating does not compile. *)
Theorem C124_derived_refuted : forall E D T checked, well_formed E ->
  links_to_itself E D Next -> links_to_itself E D Prev -> T <> D -> inherits E T D ->
  (forall m x, finds E T m x <-> finds E D m x) ->
  single_linkable E T = true /\ double_linkable E T = true /\
  forward_compiles E T checked PushFront = true /\ forward_compiles E T checked PushBack = true /\
  list_compiles E T checked PushFront = true /\ list_compiles E T checked PushBack = true /\ list_compiles E T checked Insert = true /\
  forward_compiles E T checked PopFront = false /\ forward_compiles E T checked Iterate = false /\
  list_compiles E T checked PopFront = false /\ list_compiles E T checked PopBack = false /\
  list_compiles E T checked Remove = false /\ list_compiles E T checked Iterate = false.
Proof.
  intros E D T checked W GN GP ne I F.
  assert (MN : member_of E T Next = Some {| mtype := Ptr false D; mconst := false |}) by (apply (member_finds E W), F; exact GN).
  assert (MP : member_of E T Prev = Some {| mtype := Ptr false D; mconst := false |}) by (apply (member_finds E W), F; exact GP).
  apply (member_finds E W) in GN, GP. apply (derives_inherits E W) in I.
  assert (A : forall m, arrow E (Ptr false T) m = Some (Ptr false D, false)) by (intros []; unfold arrow; rewrite ?MN, ?MP; reflexivity).
  assert (AD : forall m, arrow E (Ptr false D) m = Some (Ptr false D, false)) by (intros []; unfold arrow; rewrite ?GN, ?GP; reflexivity).
  assert (TD : converts E (Ptr false T) (Ptr false D) = true) by (cbn [converts]; rewrite I; reflexivity).
  assert (DT : converts E (Ptr false D) (Ptr false T) = false).
  { cbn [converts]. destruct (derives E D T) eqn:Q; [|reflexivity]. apply derives_le in Q, I. lia. }
  assert (DD : converts E (Ptr false D) (Ptr false D) = true) by (cbn [converts]; rewrite (derives_self E D _ _ GN); reflexivity).
  assert (TT : converts E (Ptr false T) (Ptr false T) = true) by (cbn [converts]; rewrite (derives_self E T _ _ MN); reflexivity).
  assert (S1 : single_linkable E T = true) by (apply single_spec; exists {| mtype := Ptr false D; mconst := false |}, D; auto).
  assert (S2 : double_linkable E T = true) by (apply double_spec; split; exists {| mtype := Ptr false D; mconst := false |}, D; auto).
  assert (HP : has_prev_pointer E T = true) by (unfold has_prev_pointer; rewrite MP; reflexivity).
  assert (Q1 : compiles_stmt E T (Set_ v v) = true) by (tyc; rewrite TT; reflexivity).
  assert (Q2 : compiles_stmt E T (Set_ next_ v) = true) by (tyc; rewrite A; cbn [path_ty fst]; rewrite TD; reflexivity).
  assert (Q2' : compiles_stmt E T (Set_ prev_ v) = true) by (tyc; rewrite A; cbn [path_ty fst]; rewrite TD; reflexivity).
  assert (Q3 : compiles_stmt E T (Set_ v next_) = false) by (tyc; rewrite A; cbn [path_ty fst]; rewrite DT; reflexivity).
  assert (Q3' : compiles_stmt E T (Set_ v prev_) = false) by (tyc; rewrite A; cbn [path_ty fst]; rewrite DT; reflexivity).
  assert (Q4 : compiles_stmt E T (SetNull next_) = true) by (tyc; rewrite A; reflexivity).
  assert (Q4' : compiles_stmt E T (SetNull prev_) = true) by (tyc; rewrite A; reflexivity).
  assert (Q5 : compiles_stmt E T (IsNull next_) = true) by (tyc; rewrite A; reflexivity).
  assert (Q5' : compiles_stmt E T (IsNull prev_) = true) by (tyc; rewrite A; reflexivity).
  assert (Q6 : compiles_stmt E T (IsNull v) = true) by reflexivity.
  assert (Q7 : compiles_stmt E T NeedSingle = true) by exact S1.
  assert (Q8 : compiles_stmt E T NeedDouble = true) by exact S2.
  assert (R5 : compiles_stmt E T (Set_ prev_ prev_) = true) by (tyc; rewrite A; cbn [path_ty fst]; rewrite DD; reflexivity).
  assert (R6 : compiles_stmt E T (Test prev_) = true) by (tyc; rewrite A; reflexivity).
  assert (R7 : compiles_stmt E T (Set_ [Prev; Next] v) = true) by (tyc; rewrite A; cbn [path_ty fst]; rewrite AD; cbn [path_ty fst]; rewrite TD; reflexivity).
  assert (OP : compiles E T (on_push E T checked) = true).
  { destruct checked; [|reflexivity]. unfold on_push, if_prev. rewrite HP. unfold compiles. cbn [app forallb]. rewrite Q7, Q5, Q5'. reflexivity. }
  repeat split; try assumption;
    unfold forward_compiles, list_compiles; cbn [forward_code list_code]; unfold push_back_code; rewrite ?compiles_app, ?OP; unfold compiles; cbn [forallb];
    rewrite ?Q1, ?Q2, ?Q2', ?Q3, ?Q3', ?Q4, ?Q4', ?Q5, ?Q5', ?Q6, ?Q7, ?Q8, ?R5, ?R6, ?R7; cbn [andb]; rewrite ?andb_false_r; reflexivity.
Qed.
Print Assumptions C124_derived_refuted.

(** FINDING: a node with a next of the right type satisfies single_linkable, but if it also has a
    member prev that is no pointer, pushing it with the checked policy does not compile. *)
Theorem C124_prev_type_refuted : forall E T x, well_formed E ->
  links_to_itself E T Next -> finds E T Prev x -> mtype x = NotPtr ->
  single_linkable E T = true /\ forward_compiles E T true PushFront = false /\ forward_compiles E T true PushBack = false.
Proof.
  intros E T x W G P Q. apply (member_finds E W) in G, P. split; [exact (good_single E T G)|].
  assert (B : compiles_stmt E T (IsNull prev_) = false) by (tyc; unfold arrow; rewrite P; cbn [path_ty]; rewrite Q; reflexivity).
  assert (C : compiles E T (on_push E T true) = false).
  { unfold on_push, if_prev, has_prev_pointer. rewrite P. unfold compiles. cbn [app forallb]. rewrite B. cbn [andb]. apply andb_false_r. }
  split; unfold forward_compiles; cbn [forward_code]; rewrite compiles_app, C; reflexivity.
Qed.
Print Assumptions C124_prev_type_refuted.

(** FINDING: and if prev is a pointer, the forward list, which does not need it, takes it for its
    own: a node whose prev is set is rejected though it is in no list, and pop_front sets it to null
    (MixModel.v has the nodes with both pointers). *)
Theorem C124_prev_value_refuted : forall (s : IntrusiveListModel.ilist) n p q,
  Base.rd (IntrusiveListModel.heap s) n = Some {| IntrusiveListModel.prev := Some p; IntrusiveListModel.next := q |} ->
  MixModel.fwd_step IntrusiveListModel.Checked Base.DoesNotReturn s (IntrusiveListModel.LPushFront n) = Base.Stopped s IntrusiveListModel.BadListNode /\
  MixModel.fwd_step IntrusiveListModel.Checked Base.DoesNotReturn s (IntrusiveListModel.LPushBack n) = Base.Stopped s IntrusiveListModel.BadListNode /\
  forall t, MixModel.fwd_step IntrusiveListModel.Checked Base.DoesNotReturn s IntrusiveListModel.LPopFront = Base.Done t (IntrusiveListModel.LNode n) [] ->
    exists nd, Base.rd (IntrusiveListModel.heap t) n = Some nd /\ IntrusiveListModel.prev nd = None.
Proof.
  intros s n p q R. split; [|split].
  - cbn [MixModel.fwd_step]. unfold IntrusiveListModel.with_check, IntrusiveListModel.valid_for_push. cbn [IntrusiveListModel.get]. rewrite R. reflexivity.
  - cbn [MixModel.fwd_step]. unfold IntrusiveListModel.with_check, IntrusiveListModel.valid_for_push. cbn [IntrusiveListModel.get]. rewrite R. reflexivity.
  - intros t. cbn [MixModel.fwd_step]. unfold MixModel.fwd_pop_front.
    destruct (IntrusiveListModel.head s) as [a|]; [|discriminate]. cbn [IntrusiveListModel.get].
    destruct (Base.rd (IntrusiveListModel.heap s) a) as [nd|] eqn:Ra; [|discriminate].
    cbn [IntrusiveListModel.on_pop]. unfold IntrusiveListModel.set_prev, IntrusiveListModel.put. rewrite Ra.
    destruct (Base.wr (IntrusiveListModel.heap s) a _) as [h1|] eqn:W1; [|discriminate].
    unfold IntrusiveListModel.set_next, IntrusiveListModel.put.
    pose proof (BaseLemmas.rd_wr _ _ _ _ a W1) as R1. rewrite N.eqb_refl in R1. rewrite R1.
    destruct (Base.wr h1 a _) as [h2|] eqn:W2; [|discriminate].
    pose proof (BaseLemmas.rd_wr _ _ _ _ a W2) as R2. rewrite N.eqb_refl in R2.
    intros Q. injection Q as <- <-. cbn [IntrusiveListModel.heap]. rewrite R2. eexists. split; reflexivity.
Qed.
Print Assumptions C124_prev_value_refuted.

(** Class 0 is a node with both pointers, class 1 derives from it, class 2 has a next and an
    integer called prev. *)
Example C124_example :
  let node_ c := {| base := None; own := fun _ => Some {| mtype := Ptr false c; mconst := false |} |} in
  let derived_ := {| base := Some 0; own := fun _ => None |} in
  let odd_ := {| base := None; own := fun m => Some {| mtype := match m with Next => Ptr false 2 | Prev => NotPtr end; mconst := false |} |} in
  let E := [node_ 0; derived_; odd_] in
  well_formed E /\
  single_linkable E 0 = true /\ double_linkable E 0 = true /\ list_compiles E 0 true Remove = true /\ forward_compiles E 0 true PopFront = true /\
  links_to_itself E 0 Next /\ inherits E 1 0 /\ (forall m x, finds E 1 m x <-> finds E 0 m x) /\
  double_linkable E 1 = true /\ list_compiles E 1 true Remove = false /\
  single_linkable E 2 = true /\ double_linkable E 2 = false /\ forward_compiles E 2 true PushFront = false /\ forward_compiles E 2 false PushFront = true.
Proof.
  cbv zeta. split.
  { intros [|[|[|c]]] k b H B; cbn in H; try (injection H as <-; cbn in B; try discriminate; injection B as <-; lia). destruct c; discriminate. }
  split; [reflexivity|]. split; [reflexivity|]. split; [reflexivity|]. split; [reflexivity|].
  split; [eapply finds_own; reflexivity|]. split; [eapply inherits_base; [reflexivity | reflexivity | eapply inherits_self; reflexivity]|].
  split; [|repeat split; reflexivity].
  intros m x. split.
  - intros F. inversion F as [c k m' x' K O|c k m' x' b K O B F']; subst; cbn in K; injection K as <-; cbn in O; [discriminate|]. cbn in B. injection B as <-. exact F'.
  - intros F. eapply finds_base; [reflexivity | reflexivity | reflexivity | exact F].
Qed.
