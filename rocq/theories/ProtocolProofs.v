(** Facts about the tuple protocol, for C107 and C108. *)
From Coq Require Import Bool NArith List Lia.
From Verif Require Import ProtocolModel ProtocolSpec.
Import ListNotations.
Open Scope N_scope.

(** ** Types *)
Fixpoint ty_eqb_eq (a : ty) : forall b, ty_eqb a b = true <-> a = b.
Proof.
  assert (L : forall xs ys, (fix go (xs ys : list ty) := match xs, ys with [], [] => true | x :: xs, y :: ys => ty_eqb x y && go xs ys | _, _ => false end) xs ys = true <-> xs = ys).
  { fix IH 1. intros [|x xs] [|y ys]; try (split; congruence). rewrite andb_true_iff. rewrite (ty_eqb_eq x y), (IH xs ys). split; [intros [-> ->]; reflexivity|intros [= -> ->]; auto]. }
  assert (O : forall x y, (match x, y with None, None => true | Some x, Some y => ty_eqb x y | _, _ => false end) = true <-> x = y).
  { intros [x|] [y|]; try (split; congruence). rewrite (ty_eqb_eq x y). split; congruence. }
  assert (X : forall x y : option N, (match x, y with None, None => true | Some x, Some y => x =? y | _, _ => false end) = true <-> x = y).
  { intros [x|] [y|]; try (split; congruence). rewrite N.eqb_eq. split; congruence. }
  intros b; destruct a as [i|t n|a1 a2|ts|ts|n|n|t e|t e|t n|t n|s g e v|t|t]; destruct b as [i'|t' n'|b1 b2|ts'|ts'|n'|n'|t' e'|t' e'|t' n'|t' n'|s' g' e' v'|t'|t']; cbn [ty_eqb]; try (split; congruence).
  - rewrite PeanoNat.Nat.eqb_eq. split; congruence.
  - rewrite andb_true_iff, (ty_eqb_eq t t'), N.eqb_eq. split; [intros []|intros [= -> ->]]; subst; auto.
  - rewrite andb_true_iff, (ty_eqb_eq a1 b1), (ty_eqb_eq a2 b2). split; [intros []|intros [= -> ->]]; subst; auto.
  - rewrite L. split; congruence.
  - rewrite L. split; congruence.
  - rewrite N.eqb_eq. split; congruence.
  - rewrite N.eqb_eq. split; congruence.
  - rewrite andb_true_iff, (ty_eqb_eq t t'), X. split; [intros []|intros [= -> ->]]; subst; auto.
  - rewrite andb_true_iff, (ty_eqb_eq t t'), X. split; [intros []|intros [= -> ->]]; subst; auto.
  - rewrite andb_true_iff, (ty_eqb_eq t t'), N.eqb_eq. split; [intros []|intros [= -> ->]]; subst; auto.
  - rewrite andb_true_iff, (ty_eqb_eq t t'), N.eqb_eq. split; [intros []|intros [= -> ->]]; subst; auto.
  - rewrite !andb_true_iff, !O, eqb_true_iff.
    assert (S : (match s with Some (k, n) => match s' with Some (k', n') => (match k, k' with SizeT, SizeT | UnsignedInt, UnsignedInt | OtherInt, OtherInt => true | _, _ => false end) && (n =? n') | None => false end | None => match s' with Some _ => false | None => true end end) = true <-> s = s').
    { destruct s as [[k n]|], s' as [[k' n']|]; try (split; congruence). rewrite andb_true_iff, N.eqb_eq. assert (K : (match k, k' with SizeT, SizeT | UnsignedInt, UnsignedInt | OtherInt, OtherInt => true | _, _ => false end) = true <-> k = k') by (destruct k, k'; split; congruence).
      rewrite K. split; [intros [-> ->]; reflexivity|intros [= -> ->]; auto]. }
    rewrite S. split; [intros [[[-> ->] ->] ->]; reflexivity|intros [= -> -> -> ->]; auto].
  - rewrite (ty_eqb_eq t t'). split; congruence.
  - rewrite (ty_eqb_eq t t'). split; congruence.
Qed.
Lemma is_bare_fun t u v : is_bare t u -> is_bare t v -> u = v.
Proof.
  intros H. revert v. induction H; intros v K; inversion K; subst; auto;
    try (exfalso; match goal with H : forall u, Const ?a <> Const u |- _ => eapply H | H : forall u, Ref ?a <> Ref u |- _ => eapply H | H : forall u n, CArray ?a ?b <> CArray u n |- _ => eapply H end; reflexivity).
  f_equal. auto.
Qed.
Lemma unconst_is_bare t : well_formed t -> (forall u, t <> Ref u) -> is_bare t (unconst t).
Proof.
  induction t; intros W R; cbn [unconst]; try (apply bare_plain; congruence).
  - destruct W as [W N]. apply bare_array. apply IHt; [exact W|]. intros u ->. exact N.
  - apply bare_const.
Qed.
Lemma bare_is_bare t : well_formed t -> is_bare t (bare t).
Proof.
  intros W. destruct t; try (apply unconst_is_bare; [exact W|congruence]). destruct W as [W N]. apply bare_ref. apply unconst_is_bare; [exact W|]. intros u ->. exact N.
Qed.
Lemma bare_iff t u : well_formed t -> is_bare t u <-> u = bare t.
Proof. intros W. split; [intros H; eapply is_bare_fun; [exact H|apply bare_is_bare, W]|intros ->; apply bare_is_bare, W]. Qed.
Lemma bare_ref_of t : bare (ref t) = bare t.
Proof. destruct t; reflexivity. Qed.
Lemma bare_well_formed t : well_formed t -> well_formed (bare t).
Proof.
  assert (U : forall t, well_formed t -> well_formed (unconst t)).
  { induction t0; cbn; auto; intros [W N]; auto. split; [auto|]. destruct t0; auto; cbn. destruct N. cbn in W. destruct W as [W N']. destruct t0; auto. }
  intros W. destruct t; cbn [bare]; auto. apply U. apply W.
Qed.

(** ** The protocol *)
Lemma size_t_iff tg k : is_size_t tg k = true <-> k = SizeT \/ k = UnsignedInt /\ size_t_is_unsigned_int tg = true.
Proof. destruct k; cbn; intuition discriminate. Qed.
Lemma elements_size tg u n : elements tg u n -> tuple_size_v u = (fst (tuple_size_v u), n) /\ is_size_t tg (fst (tuple_size_v u)) = true.
Proof. destruct 1; cbn; split; auto; apply size_t_iff; assumption. Qed.
Lemma eqb_refl t : ty_eqb t t = true.
Proof. apply ty_eqb_eq. reflexivity. Qed.
Lemma yes_iff b : of_bool b = Yes <-> b = true.
Proof. destruct b; cbn; split; congruence. Qed.
Lemma protocol_elements tg u n : well_formed u -> elements tg u n -> (n = 0 \/ has_get_protocol u = Yes).
Proof.
  intros W H. destruct H; try (right; unfold has_get_protocol; cbn; rewrite ?bare_ref_of, ?eqb_refl; reflexivity).
  - destruct ts; [left; reflexivity|right]. unfold has_get_protocol; cbn. rewrite bare_ref_of, eqb_refl. reflexivity.
  - destruct ts; [left; reflexivity|right]. unfold has_get_protocol; cbn. rewrite bare_ref_of, eqb_refl. reflexivity.
  - left. reflexivity.
  - right. unfold has_get_protocol; cbn. cbn in W. destruct W as [Wg We]. rewrite (proj1 (bare_iff _ _ Wg) H1) in H2. rewrite (proj1 (bare_iff _ _ We) H2), eqb_refl. reflexivity.
Qed.
Lemma elements_protocol tg u : well_formed u -> size_t_is_unsigned_int tg = false -> is_size_t tg (fst (tuple_size_v u)) = true ->
  snd (tuple_size_v u) = 0 \/ has_get_protocol u = Yes -> elements tg u (snd (tuple_size_v u)).
Proof.
  intros W Nu S H. destruct u as [i|t n|a1 a2|ts|ts|n|n|t [e|]|t e|t n|t n|[[k n]|] g e v|t|t]; cbn in S; try (rewrite Nu in S; discriminate S); cbn [snd tuple_size_v]; try constructor.
  cbn [tuple_size_v snd] in H. apply size_t_iff in S. destruct (N.eq_dec n 0) as [->|Hn]; [now constructor|].
  destruct H as [H|H]; [congruence|]. unfold has_get_protocol in H. cbn in H. destruct g as [g|]; [|discriminate]. destruct e as [e|]; [|discriminate].
  apply yes_iff, ty_eqb_eq in H. cbn in W. destruct W as [Wg We]. apply (elements_user tg k n g e (bare g) v S Hn); [now apply bare_is_bare|rewrite H; now apply bare_is_bare].
Qed.
Lemma protocol_iff tg t : well_formed t -> size_t_is_unsigned_int tg = false ->
  (has_tuple_protocol tg t = Yes <-> has_elements tg t (snd (tuple_size_v (bare t)))).
Proof.
  intros W Nu. pose proof (bare_well_formed _ W) as Wb. unfold has_tuple_protocol. destruct (tuple_size_v (bare t)) as [k n] eqn:E. split.
  - intros H. exists (bare t). split; [now apply bare_is_bare|]. destruct (is_size_t tg k) eqn:K; [|discriminate]. cbn in H.
    pose proof (elements_protocol tg (bare t) Wb Nu) as P. rewrite E in P. cbn in P. apply P; [exact K|]. destruct (n =? 0) eqn:Z; [left; now apply N.eqb_eq|right; exact H].
  - intros (u & B & H). apply (bare_iff _ _ W) in B. subst u. destruct (elements_size _ _ _ H) as [S K]. rewrite E in K. cbn in K. rewrite K. cbn.
    cbn [snd] in H. destruct (protocol_elements _ _ _ Wb H) as [-> | ->]; [reflexivity|]. now destruct (n =? 0).
Qed.
Lemma elements_number tg t n : well_formed t -> has_elements tg t n -> n = snd (tuple_size_v (bare t)).
Proof. intros W (u & B & H). apply (bare_iff _ _ W) in B. subst u. destruct (elements_size _ _ _ H) as [S _]. rewrite S. reflexivity. Qed.
Lemma all_protocol_iff tg ts : all_protocol tg ts = Yes <-> Forall (fun t => has_tuple_protocol tg t = Yes) ts.
Proof.
  induction ts as [|t ts IH]; cbn; [split; auto|]. split.
  - destruct (has_tuple_protocol tg t) eqn:E; try discriminate. intros H. constructor; [exact E|]. now apply IH.
  - intros H. inversion H as [|? ? E H']; subst. rewrite E. now apply IH.
Qed.
Lemma smallest_fold {A} (f : A -> N) l m : smallest (m :: map f l) (fold_left (fun m u => N.min m (f u)) l m).
Proof.
  revert m. induction l as [|x l IH]; intros m; cbn.
  - split; [auto|]. intros n [-> | []]. lia.
  - destruct (IH (N.min m (f x))) as [I L]. split.
    + destruct I as [I|I]; [|auto]. rewrite <- I. destruct (N.min_spec m (f x)) as [[_ ->]|[_ ->]]; auto.
    + pose proof (L _ (or_introl eq_refl)) as K. intros n [H|[H|H]]; [subst; lia|subst; lia|]. apply L. now right.
Qed.
Lemma zip_length_smallest ts : smallest (map (fun t => snd (tuple_size_v (bare t))) ts) (zip_length ts).
Proof. destruct ts as [|t ts]; cbn [map zip_length]; [reflexivity|]. apply (smallest_fold (fun t => snd (tuple_size_v (bare t)))). Qed.
Lemma smallest_fun ns a b : smallest ns a -> smallest ns b -> a = b.
Proof. destruct ns; cbn; [congruence|]. intros [A B] [C D]. specialize (B _ C). specialize (D _ A). lia. Qed.
Lemma unrolled_steps tg ts m : Forall well_formed ts -> size_t_is_unsigned_int tg = false ->
  (unrolled tg ts = Steps m <-> exists ns, Forall2 (has_elements tg) ts ns /\ smallest ns m).
Proof.
  intros W Nu. unfold unrolled. split.
  - destruct (all_protocol tg ts) eqn:E; try discriminate. intros [= <-]. apply all_protocol_iff in E. exists (map (fun t => snd (tuple_size_v (bare t))) ts). split; [|apply zip_length_smallest].
    induction ts as [|t ts IH]; cbn; constructor; inversion W; inversion E; subst; auto. now apply protocol_iff.
  - intros (ns & F & S). assert (Q : ns = map (fun t => snd (tuple_size_v (bare t))) ts /\ Forall (fun t => has_tuple_protocol tg t = Yes) ts).
    { clear S. induction F as [|t n ts ns H F IH]; [split; auto|]. inversion W as [|? ? Wt Wts]; subst. destruct (IH Wts) as [-> Q]. pose proof (elements_number _ _ _ Wt H) as ->. split; [reflexivity|]. constructor; [|exact Q]. now apply protocol_iff. }
    destruct Q as [-> Q]. apply all_protocol_iff in Q. rewrite Q. f_equal. eapply smallest_fun; [apply zip_length_smallest|exact S].
Qed.
Lemma array_like_iff t : well_formed t -> (array_like t <-> has_value_type (bare t) = true).
Proof.
  intros W. unfold array_like. split.
  - intros (u & B & H). apply (bare_iff _ _ W) in B. rewrite <- B. destruct u; cbn in *; auto; contradiction.
  - intros H. exists (bare t). split; [now apply bare_is_bare|]. destruct (bare t); cbn in *; auto; discriminate.
Qed.
Lemma guarded_steps tg ts : Forall well_formed ts -> size_t_is_unsigned_int tg = false ->
  (forall m, guarded tg ts = Steps m <-> unrolled tg ts = Steps m /\ Exists (fun t => ~ array_like t) ts) /\
  (guarded tg ts = Refused <-> (exists m, unrolled tg ts = Steps m) /\ Forall array_like ts).
Proof.
  intros W Nu. unfold guarded. destruct (unrolled tg ts) as [| | |n] eqn:U.
  1,2,3: split; [intros m; split; [intros H; discriminate H|intros [H _]; exact H]|split; [intros H; try discriminate H|intros [[m H] _]; discriminate H]].
  { exfalso. unfold unrolled in U. destruct (all_protocol tg ts); discriminate. }
  assert (P : Forall (fun t => has_tuple_protocol tg t = Yes) ts) by (apply all_protocol_iff; unfold unrolled in U; destruct (all_protocol tg ts); [reflexivity|discriminate|discriminate]).
  assert (Q : Forall (fun t => (match has_array_protocol tg t with Yes => false | _ => true end) = negb (has_value_type (bare t))) ts).
  { clear U. induction P as [|t ts H P IH]; [constructor|]. inversion W; subst. constructor; [|auto]. unfold has_array_protocol. rewrite H. now destruct (has_value_type (bare t)). }
  set (g := fun t => match has_array_protocol tg t with Yes => false | _ => true end) in *.
  assert (R : existsb g ts = true <-> Exists (fun t => ~ array_like t) ts).
  { rewrite existsb_exists, Exists_exists. rewrite Forall_forall in Q, W. split; intros (t & I & H); exists t; (split; [exact I|]); specialize (Q t I); specialize (W t I); rewrite (array_like_iff _ W) in *; fold (g t) in Q; rewrite Q in *; destruct (has_value_type (bare t)); cbn in *; congruence. }
  assert (R' : existsb g ts = false <-> Forall array_like ts).
  { clear R. rewrite Forall_forall in *. split.
    - intros H t I. apply (array_like_iff _ (W t I)). destruct (has_value_type (bare t)) eqn:V; [reflexivity|]. assert (existsb g ts = true) by (apply existsb_exists; exists t; split; [exact I|]; change (g t = true); unfold g; rewrite (Q t I), V; reflexivity). congruence.
    - intros H. destruct (existsb g ts) eqn:E; [|reflexivity]. apply existsb_exists in E. destruct E as (t & I & E). unfold g in E. rewrite (Q t I), (proj1 (array_like_iff _ (W t I)) (H t I)) in E. discriminate. }
  destruct (existsb g ts) eqn:E; split.
  - intros m. split; [intros [= <-]; split; [reflexivity|now apply R]|intros [H _]; exact H].
  - split; [discriminate|intros [_ H]; apply R' in H; discriminate].
  - intros m. split; [discriminate|intros [_ H]; apply R in H; discriminate].
  - split; [intros _; split; [now exists n|now apply R']|reflexivity].
Qed.
Lemma unsigned_takes_all tg t ts : size_t_is_unsigned_int tg = true -> Forall well_formed (t :: ts) ->
  Forall (fun t => exists u, is_bare t u /\ sizeless u) (t :: ts) -> Forall (fun t => has_tuple_protocol tg t = Yes) (t :: ts) /\ unrolled tg (t :: ts) = Steps 0.
Proof.
  intros U W F.
  assert (S : forall t, well_formed t -> (exists u, is_bare t u /\ sizeless u) -> tuple_size_v (bare t) = (UnsignedInt, 0)).
  { clear. intros t W (u & B & S). apply (bare_iff _ _ W) in B. subst u. destruct (bare t) as [i|t' n|a1 a2|ts|ts|n|n|t' [e|]|t' e|t' n|t' n|[[k n]|] g e v|t'|t']; cbn in *; try contradiction; reflexivity. }
  assert (P : Forall (fun t => has_tuple_protocol tg t = Yes) (t :: ts)).
  { rewrite Forall_forall in *. intros x I. unfold has_tuple_protocol. rewrite (S x (W x I) (F x I)). cbn. now rewrite U. }
  split; [exact P|]. unfold unrolled. rewrite (proj2 (all_protocol_iff _ _) P). f_equal. pose proof (zip_length_smallest (t :: ts)) as [I _].
  apply in_map_iff in I. destruct I as (x & E & I). rewrite Forall_forall in W, F. rewrite (S x (W x I) (F x I)) in E. symmetry. exact E.
Qed.

(** ** Capacities *)
Lemma bare_not_const t : well_formed t -> is_const (bare t) = false.
Proof.
  assert (U : forall t, well_formed t -> is_const (unconst t) = false).
  { induction t0; cbn; auto; intros [W N]; auto. now destruct t0; auto. }
  intros W. destruct t; try (apply (U _ W)). apply U, W.
Qed.
Lemma bare_not_ref t u : well_formed t -> bare t <> Ref u.
Proof.
  intros W E. destruct t; try discriminate E.
  - destruct W as [_ N]. cbn in E. subst. exact N.
  - destruct W as [W N]. cbn in E. destruct t; try discriminate E; [|exact N]. cbn in E. subst. apply W.
Qed.
Lemma capacity_bare t n : well_formed t -> (ct_capacity_v (bare t) = Some n <-> room (bare t) n).
Proof.
  intros W. pose proof (bare_not_const _ W) as C. pose proof (bare_well_formed _ W) as Wb. split.
  - intros H. destruct (bare t) as [i|t' m|a1 a2|ts|ts|m|m|t' [e|]|t' [e|]|t' m|t' m|s g e v|t'|t']; cbn in H, C; try discriminate; try rewrite C in H; injection H as ->; constructor.
  - intros H. destruct H; try reflexivity. cbn in *. now rewrite C.
Qed.
Lemma capacity_v_bare t n : well_formed t -> (forall u, t <> Ref u) -> (forall e m, t = CArray e m -> is_const e = false) -> (ct_capacity_v t = Some n <-> room (bare t) n).
Proof.
  intros W R A. destruct (is_const t) eqn:C.
  - destruct t; try discriminate C; [exfalso; rewrite (A _ _ eq_refl : is_const (CArray t n0) = false) in C; discriminate|]. destruct W as [W N].
    replace (bare (Const t)) with (bare t) by (destruct t; auto; contradiction). rewrite <- (capacity_bare t n W).
    destruct t; cbn; try contradiction; reflexivity.
  - assert (B : bare t = t).
    { destruct t; try reflexivity; try discriminate C; [|exfalso; now apply (R t)]. cbn. f_equal. cbn in C. clear - C. induction t; try reflexivity; [|discriminate]. cbn in *. f_equal. auto. }
    rewrite <- (capacity_bare t n W), B. reflexivity.
Qed.
