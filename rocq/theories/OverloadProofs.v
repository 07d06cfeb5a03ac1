(** Proofs about overload objects. *)
From Verif Require Import Base OverloadModel OverloadSpec.

Section P.
Variable conv : nat -> nat -> option rank.
Implicit Types (f g : function) (a : arg).

Lemma better_asym : forall a f g, better conv a f g = true -> better conv a g f = false.
Proof.
  intros a f g. unfold better. destruct (passes conv (parameter f) a) as [s|]; [|discriminate]. destruct (passes conv (parameter g) a) as [t|]; [|reflexivity].
  destruct (better_sequence (object_sequence g) (object_sequence f)); [discriminate|]. destruct (better_sequence t s); [discriminate|]. cbn [negb andb orb].
  destruct (better_sequence (object_sequence f) (object_sequence g)); [reflexivity|]. destruct (better_sequence s t); [reflexivity|]. cbn [negb andb orb].
  destruct (parameter f), (parameter g); cbn; intros; congruence.
Qed.
Lemma resolve_best : forall fs co a f, NoDup (map id fs) -> In f fs -> viable conv co a f = true ->
  (forall g, In g fs -> g <> f -> viable conv co a g = true -> better conv a f g = true) -> resolve conv fs co a = Some f.
Proof.
  intros fs co a f ND I Vf B. unfold resolve. set (vs := filter _ fs).
  assert (Ivs : In f vs) by (apply filter_In; auto).
  assert (ID : forall g, In g vs -> id g = id f -> g = f).
  { intros g G E. apply filter_In in G. destruct G as (G & _). clear - ND I G E. induction fs as [|x fs IH]; [contradiction|]. cbn in ND. inversion_clear ND as [|? ? N D].
    destruct I as [->|I], G as [->|G]; auto; exfalso; apply N; [rewrite <- E|rewrite E]; now apply in_map. }
  assert (W : forallb (fun g => Nat.eqb (id g) (id f) || better conv a f g) vs = true).
  { apply forallb_forall. intros g G. destruct (Nat.eqb_spec (id g) (id f)) as [E|N]; [reflexivity|]. cbn. apply filter_In in G. destruct G as (G & Vg). apply B; auto. congruence. }
  assert (U : forall g, In g vs -> forallb (fun h => Nat.eqb (id h) (id g) || better conv a g h) vs = true -> g = f).
  { intros g G H. rewrite forallb_forall in H. specialize (H f Ivs). destruct (Nat.eqb_spec (id f) (id g)) as [E|N]; [symmetry in E; auto|]. cbn in H.
    rewrite forallb_forall in W. specialize (W g G). destruct (Nat.eqb_spec (id g) (id f)) as [E|_]; [congruence|]. cbn in W. rewrite (better_asym _ _ _ W) in H. discriminate. }
  match goal with |- find ?P ?l = _ => destruct (find P l) as [g|] eqn:F end.
  - apply find_some in F. destruct F as (G & H). f_equal. exact (U g G H).
  - exfalso. pose proof (find_none _ _ F f Ivs) as H. cbv beta in H. rewrite W in H. discriminate.
Qed.
Lemma resolve_some : forall fs co a f, resolve conv fs co a = Some f -> In f fs /\ viable conv co a f = true /\
  forall g, In g fs -> viable conv co a g = true -> id g = id f \/ better conv a f g = true.
Proof.
  intros fs co a f H. unfold resolve in H. apply find_some in H. destruct H as (I & H). apply filter_In in I. destruct I as (I & Vf). split; [exact I|]. split; [exact Vf|].
  intros g G Vg. rewrite forallb_forall in H. specialize (H g (proj2 (filter_In _ _ _) (conj G Vg))). apply orb_true_iff in H. destruct H as [H|H]; [left; now apply Nat.eqb_eq|now right].
Qed.
Lemma own_object : forall f g, mutable_ g = mutable_ f \/ mutable_ g = false -> better_sequence (object_sequence g) (object_sequence f) = false.
Proof. intros f g. unfold object_sequence, better_sequence. destruct (mutable_ f), (mutable_ g); cbn; intros [H|H]; congruence. Qed.
Lemma viable_same : forall fs co a f g, no_mixture fs co f -> In g fs -> viable conv co a g = true -> mutable_ g = mutable_ f.
Proof.
  intros fs co a f g [(-> & M)|(-> & M)] I Vg; [|exact (M g I)]. unfold viable in Vg. rewrite M. destruct (mutable_ g); [discriminate|reflexivity].
Qed.
Lemma exact_passes : forall f a, takes_exactly f a -> exists s, passes conv (parameter f) a = Some s /\ (forall r, s <> Converted r) /\ is_template (parameter f) = false /\
  (s = Object \/ s = Binds true false /\ by_const_ref f \/ s = Binds (const a) (rvalue a) /\ const a = false).
Proof.
  intros f a. unfold takes_exactly, by_const_ref. destruct (parameter f) as [| | |c|c|c|c] eqn:P; try contradiction; cbn [passes is_template]; unfold to_type.
  - intros ->. rewrite Nat.eqb_refl. eexists. repeat split; [discriminate|auto].
  - intros ->. rewrite Nat.eqb_refl. eexists. repeat split; [discriminate|]. right. left. split; [reflexivity|]. eexists. reflexivity.
  - intros (-> & C & R). rewrite Nat.eqb_refl, C, R. cbn. eexists. repeat split; [discriminate|]. right. right. auto.
  - intros (-> & C & R). rewrite Nat.eqb_refl, C, R. cbn. eexists. repeat split; [discriminate|]. right. right. auto.
Qed.
Lemma other_passes : forall g a t, for_another g a -> passes conv (parameter g) a = Some t -> exists r, t = Converted r.
Proof.
  intros g a t. unfold for_another. destruct (parameter g) as [| | |c|c|c|c]; try contradiction; cbn [passes]; unfold to_type; intros N.
  all: destruct (Nat.eqb_spec (type a) c) as [E|_]; [congruence|].
  all: cbn [andb]; try discriminate; destruct (conv (type a) c) as [r|]; cbn; try discriminate; intros H; injection H as <-; eauto.
Qed.
Lemma exact_better : forall f g a, takes_exactly f a -> viable conv false a g = true -> mutable_ g = mutable_ f ->
  for_another g a \/ (for_all g /\ (parameter g = AnyForward -> by_const_ref f -> const_lvalue a)) -> better conv a f g = true.
Proof.
  intros f g a F Vg M K. destruct (exact_passes f a F) as (s & S & NC & T & KS). unfold better. rewrite S.
  unfold viable in Vg. apply andb_true_iff in Vg. destruct Vg as (_ & Vg). destruct (passes conv (parameter g) a) as [t|] eqn:G; [|discriminate].
  assert (O : forall x y, mutable_ x = mutable_ y -> better_sequence (object_sequence x) (object_sequence y) = false) by (intros x y E; apply own_object; auto).
  rewrite (O g f M), (O f g (eq_sym M)), T. cbn [negb andb orb].
  destruct K as [K|(K & KF)].
  - destruct (other_passes _ _ _ K G) as (r & ->). assert (B : better_sequence s (Converted r) = true) by (destruct s as [| |q]; [reflexivity|reflexivity|exfalso; exact (NC q eq_refl)]).
    assert (B' : better_sequence (Converted r) s = false) by (destruct s as [| |q]; [reflexivity|reflexivity|exfalso; exact (NC q eq_refl)]). now rewrite B, B'.
  - unfold for_all in K. assert (TG : is_template (parameter g) = true) by (destruct (parameter g); [reflexivity..|contradiction|contradiction|contradiction|contradiction]).
    rewrite TG. cbn [andb orb]. rewrite orb_true_r. cbn [orb]. rewrite andb_true_r.
    destruct KS as [->|[(-> & BC)|(-> & C)]].
    + destruct (parameter g); try contradiction; cbn in G; injection G as <-; reflexivity.
    + destruct (parameter g); try contradiction; cbn in G; injection G as <-; try reflexivity. destruct (KF eq_refl BC) as (-> & ->). reflexivity.
    + rewrite C. destruct (parameter g); try contradiction; cbn in G; injection G as <-; cbn; rewrite ?C; destruct (rvalue a); reflexivity.
Qed.
Lemma viable_false : forall co a g, viable conv co a g = true -> viable conv false a g = true.
Proof. intros co a g. unfold viable. intros H. apply andb_true_iff in H. destruct H as (_ & ->). destruct (mutable_ g); reflexivity. Qed.
Lemma exact_chosen : forall fs co a f, NoDup (map id fs) -> In f fs -> no_mixture fs co f -> takes_exactly f a ->
  (forall g, In g fs -> g <> f -> for_another g a \/ (for_all g /\ (parameter g = AnyForward -> by_const_ref f -> const_lvalue a))) -> resolve conv fs co a = Some f.
Proof.
  intros fs co a f ND I M F K. apply resolve_best; auto.
  - destruct (exact_passes f a F) as (s & S & _). unfold viable. rewrite S, andb_true_r. destruct M as [(-> & ->)|(-> & _)]; [reflexivity|destruct (mutable_ f); reflexivity].
  - intros g G N Vg. apply exact_better; [exact F|eapply viable_false, Vg|eapply viable_same; eassumption|auto].
Qed.
Lemma rest_chosen : forall fs co a f, NoDup (map id fs) -> In f fs -> no_mixture fs co f -> for_all f ->
  (forall g, In g fs -> g <> f -> for_another g a) -> resolve conv fs co a = Some f.
Proof.
  intros fs co a f ND I M F K.
  assert (S : exists s, passes conv (parameter f) a = Some s /\ forall r, s <> Converted r).
  { unfold for_all in F. destruct (parameter f); try contradiction; cbn; eexists; (split; [reflexivity|discriminate]). }
  destruct S as (s & S & NC). apply resolve_best; auto.
  - unfold viable. rewrite S, andb_true_r. destruct M as [(-> & ->)|(-> & _)]; [reflexivity|destruct (mutable_ f); reflexivity].
  - intros g G N Vg. pose proof (viable_same _ _ _ _ _ M G Vg) as E. unfold viable in Vg. apply andb_true_iff in Vg. destruct Vg as (_ & Vg). unfold better. rewrite S.
    destruct (passes conv (parameter g) a) as [t|] eqn:P; [|discriminate]. destruct (other_passes _ _ _ (K g G N) P) as (r & ->).
    rewrite (own_object f g (or_introl E)).
    assert (B : better_sequence s (Converted r) = true) by (destruct s as [| |q]; [reflexivity|reflexivity|exfalso; exact (NC q eq_refl)]).
    assert (B' : better_sequence (Converted r) s = false) by (destruct s as [| |q]; [reflexivity|reflexivity|exfalso; exact (NC q eq_refl)]). rewrite B, B'. cbn [negb andb orb]. now rewrite orb_true_r.
Qed.
Lemma find_ext_in : forall A (p q : A -> bool) l, (forall x, In x l -> p x = q x) -> find p l = find q l.
Proof. intros A p q. induction l as [|x l IH]; intros H; [reflexivity|]. cbn. rewrite (H x (or_introl eq_refl)), IH; [reflexivity|]. intros y I. apply H. now right. Qed.
Lemma order_free : forall fs fs' co a, NoDup (map id fs) -> (forall f, In f fs <-> In f fs') -> NoDup (map id fs') -> resolve conv fs co a = resolve conv fs' co a.
Proof.
  assert (H : forall fs fs' co a f, NoDup (map id fs) -> (forall f, In f fs <-> In f fs') -> NoDup (map id fs') -> resolve conv fs co a = Some f -> resolve conv fs' co a = Some f).
  { intros fs fs' co a f ND E ND' R. destruct (resolve_some _ _ _ _ R) as (I & Vf & B). apply resolve_best; [exact ND'|now apply E|exact Vf|].
    intros g G N Vg. destruct (B g (proj2 (E g) G) Vg) as [X|X]; [|exact X]. exfalso. apply N. clear - ND E I G X. apply E in G. induction fs as [|x fs IH]; [contradiction|]. cbn in ND.
    inversion_clear ND as [|? ? N D]. clear E. revert IH I G. 
    assert (U : forall l, NoDup (map id l) -> In f l -> In g l -> g = f).
    { clear - X. induction l as [|x l IH]; [contradiction|]. cbn. intros ND I G. inversion_clear ND as [|? ? N D]. destruct I as [->|I], G as [->|G]; auto; exfalso; apply N; [rewrite <- X|rewrite X]; now apply in_map. }
    intros _ I G. apply (U (x :: fs)); auto. cbn. now constructor. }
  intros fs fs' co a ND E ND'. destruct (resolve conv fs co a) as [f|] eqn:R; [symmetry; eapply (H fs fs'); eassumption|].
  destruct (resolve conv fs' co a) as [f|] eqn:R'; [|reflexivity]. rewrite (H fs' fs co a f ND' (fun x => iff_sym (E x)) ND R') in R. discriminate.
Qed.

(** ** Visitors *)
Section Visit.
Context {S V R : Type}.
Variable run_ : nat -> S -> V -> S * R.
Lemma visitor_resolves : forall fs co a f, NoDup (map id fs) -> NoDup (map type_for fs) -> (forall g, In g fs -> type_for g <> None) -> In f fs -> no_mixture fs co f ->
  type_for f = Some (type a) -> resolve conv fs co a = Some f.
Proof.
  intros fs co a f ND NT TF I M T. apply exact_chosen; auto.
  - unfold type_for in T. unfold takes_exactly. destruct (parameter f); try discriminate; now injection T.
  - intros g G N. left. unfold for_another. pose proof (TF g G) as X.
    assert (Y : type_for g <> Some (type a)).
    { intros E. apply N. clear - NT T E I G. induction fs as [|x fs IH]; [contradiction|]. cbn in NT. inversion_clear NT as [|? ? Q D]. destruct I as [->|I], G as [->|G]; auto; exfalso; apply Q; [rewrite T, <- E|rewrite E, <- T]; now apply in_map. }
    unfold type_for in X, Y. destruct (parameter g); try congruence; now intros ->.
Qed.
Lemma visitor_calls : forall fs co, NoDup (map id fs) -> NoDup (map type_for fs) -> (forall f, In f fs -> type_for f <> None /\ no_mixture fs co f) ->
  forall (l : list (arg * V)) (o : nat -> S), (forall a v, In (a, v) l -> exists f, In f fs /\ type_for f = Some (type a)) ->
  exists o' rs, calls conv run_ fs co o l = Some (o', rs) /\ length rs = length l /\
    forall f c, In f fs -> type_for f = Some c ->
      alone (run_ (id f)) (mutable_ f) (o (id f)) (map fst (of_type c l rs)) = (o' (id f), map snd (of_type c l rs)).
Proof.
  intros fs co ND NT K. induction l as [|[a v] l IH]; intros o H.
  - exists o, []. repeat split.
  - destruct (H a v (or_introl eq_refl)) as (f & I & T).
    assert (RS : resolve conv fs co a = Some f) by (apply visitor_resolves; auto; [intros g G; apply K, G|apply K, I]).
    cbn [calls]. unfold call. rewrite RS. destruct (run_ (id f) (o (id f)) v) as [s r] eqn:E.
    set (o1 := if mutable_ f then fun i => if Nat.eqb i (id f) then s else o i else o).
    destruct (IH o1) as (o2 & rs & C & L & Q); [intros a' v' I'; apply (H a' v'); now right|]. rewrite C. exists o2, (r :: rs).
    split; [reflexivity|]. split; [cbn; now rewrite L|]. intros g c G TG. specialize (Q g c G TG). unfold of_type in *. cbn [combine filter fst snd].
    destruct (Nat.eqb_spec (type a) c) as [X|X].
    + subst c. assert (g = f) as ->.
      { clear - NT T TG I G. induction fs as [|x fs IH]; [contradiction|]. cbn in NT. inversion_clear NT as [|? ? N D]. destruct I as [->|I], G as [->|G]; auto; exfalso; apply N; [rewrite T, <- TG|rewrite TG, <- T]; now apply in_map. }
      cbn [map fst snd alone]. rewrite E. assert (O1 : o1 (id f) = if mutable_ f then s else o (id f)) by (unfold o1; destruct (mutable_ f); [now rewrite Nat.eqb_refl|reflexivity]).
      rewrite O1 in Q. rewrite Q. reflexivity.
    + assert (O1 : o1 (id g) = o (id g)).
      { unfold o1. destruct (mutable_ f); [|reflexivity]. destruct (Nat.eqb_spec (id g) (id f)) as [Y|_]; [|reflexivity]. exfalso. apply X.
        assert (g = f) as ->; [|congruence]. clear - ND Y I G. induction fs as [|x fs IH]; [contradiction|]. cbn in ND. inversion_clear ND as [|? ? N D]. destruct I as [->|I], G as [->|G]; auto; exfalso; apply N; [rewrite <- Y|rewrite Y]; now apply in_map. }
      rewrite O1 in Q. exact Q.
Qed.
End Visit.

(** ** Mixtures *)
Lemma mutable_wins : forall fs a g, NoDup (map id fs) -> In g fs -> mutable_ g = true -> parameter g = AnyValue -> (forall f, In f fs -> f <> g -> mutable_ f = false) ->
  resolve conv fs false a = Some g.
Proof.
  intros fs a g ND I M P K. apply resolve_best; auto.
  - unfold viable. rewrite M, P. reflexivity.
  - intros f F N Vf. pose proof (K f F N) as MF. unfold viable in Vf. apply andb_true_iff in Vf. destruct Vf as (_ & Vf). unfold better, object_sequence. rewrite P, M, MF. cbn [passes].
    destruct (passes conv (parameter f) a) as [t|]; [|discriminate]. destruct t; reflexivity.
Qed.
Lemma mixture_ambiguous : forall a f g r, takes_exactly f a -> mutable_ f = false -> mutable_ g = true -> passes conv (parameter g) a = Some (Converted r) -> id f <> id g ->
  resolve conv [f; g] false a = None /\ resolve conv [g; f] false a = None.
Proof.
  intros a f g r F MF MG P N. destruct (exact_passes f a F) as (s & S & NC & T & _).
  assert (B1 : better conv a f g = false).
  { unfold better, object_sequence. rewrite S, P, MF, MG. reflexivity. }
  assert (B2 : better conv a g f = false).
  { unfold better, object_sequence. rewrite S, P, MF, MG. cbn [negb better_sequence Bool.eqb andb orb]. destruct s as [| |q]; [reflexivity|reflexivity|exfalso; exact (NC q eq_refl)]. }
  assert (V1 : viable conv false a f = true) by (unfold viable; rewrite S, MF; reflexivity).
  assert (V2 : viable conv false a g = true) by (unfold viable; rewrite P, MG; reflexivity).
  pose proof (proj2 (Nat.eqb_neq _ _) N) as N1. pose proof (proj2 (Nat.eqb_neq _ _) (not_eq_sym N)) as N2.
  unfold resolve. cbn [filter]. rewrite V1, V2. cbn [find forallb]. rewrite B1, B2, N1, N2, !Nat.eqb_refl. split; reflexivity.
Qed.
Lemma forward_wins : forall fs a f g, NoDup (map id fs) -> In f fs -> In g fs -> by_const_ref f -> takes_exactly f a -> parameter g = AnyForward -> ~ const_lvalue a ->
  (forall h, In h fs -> mutable_ h = false) -> (forall h, In h fs -> h <> f -> h <> g -> for_another h a) -> resolve conv fs false a = Some g.
Proof.
  intros fs a f g ND F G (c & P) X PG NC M K. apply resolve_best; auto.
  - unfold viable. rewrite PG, (M g G). reflexivity.
  - intros h H N Vh. unfold viable in Vh. apply andb_true_iff in Vh. destruct Vh as (_ & Vh). unfold better. rewrite PG, (own_object g h) by (right; auto). cbn [passes].
    destruct (passes conv (parameter h) a) as [t|] eqn:E; [|discriminate]. cbn [negb andb].
    assert (W : better_sequence (Binds (const a) (rvalue a)) t = true /\ better_sequence t (Binds (const a) (rvalue a)) = false).
    { assert (D : h = f \/ h <> f) by (destruct h as [i1 p1 m1], f as [i2 p2 m2]; repeat decide equality).
      destruct D as [->|D].
      - rewrite P in E. unfold takes_exactly in X. rewrite P in X. subst c. cbn in E. unfold to_type in E. rewrite Nat.eqb_refl in E. injection E as <-.
        unfold const_lvalue in NC. destruct (const a), (rvalue a); cbn; try (split; reflexivity). exfalso. apply NC. auto.
      - destruct (other_passes _ _ _ (K h H D N) E) as (r & ->). split; reflexivity. }
    destruct W as (-> & ->). cbn [negb andb orb]. now rewrite orb_true_r.
Qed.
End P.
