From Verif Require Import Base BaseLemmas TupleModel TupleSpec TupleProofs TupleProofs2.
From Coq Require Import Permutation.

(** ** Sets *)
Lemma Forall2_nth {X Y} (P : X -> Y -> Prop) l r : Forall2 P l r -> forall i y, nth_error r i = Some y -> exists x, nth_error l i = Some x /\ P x y.
Proof. induction 1 as [|a b l r Hab _ IH]; intros [|i] y Hy; try discriminate; cbn [nth_error] in *; [injection Hy as <-; eauto|apply IH; exact Hy]. Qed.
Lemma Forall2_nth_l {X Y} (P : X -> Y -> Prop) l r : Forall2 P l r -> forall i x, nth_error l i = Some x -> exists y, nth_error r i = Some y /\ P x y.
Proof. induction 1 as [|a b l r Hab _ IH]; intros [|i] y Hy; try discriminate; cbn [nth_error] in *; [injection Hy as <-; eauto|apply IH; exact Hy]. Qed.
Lemma to_sorted_set_ok {E T} (ty : E -> T) same name std_sort t : decides same -> injective name -> sorts std_sort ->
  exists s, to_sorted_set ty same name std_sort t = Some s /\ strictly_ordered (fun e => name (ty e)) s /\
            (forall e, In e s -> In e t) /\ (forall e, In e t -> exists e', In e' s /\ ty e' = ty e).
Proof.
  intros Hs Hn Hst. destruct (sort_correct ty (fun x => x) name std_sort Hst t) as [u [H1 [H2 H3]]]. cbn beta in H3.
  destruct (unique_ok ty same Hs u) as [cs [r [C1 [C2 C3]]]]. exists r. split; [unfold to_sorted_set; rewrite H1; exact C2|].
  pose proof (ordered_chunks ty (fun x => x) name Hn u cs H3 C1) as L. cbn beta in L. repeat split.
  - intros i j x y Hij Hx Hy. destruct (Forall2_nth _ _ _ C3 i x Hx) as [c [Hc Hc0]], (Forall2_nth _ _ _ C3 j y Hy) as [d [Hd Hd0]].
    exact (L i j c d x y Hij Hc Hd (nth_error_In _ _ Hc0) (nth_error_In _ _ Hd0)).
  - intros e He. apply In_nth_error in He. destruct He as [i Hi]. destruct (Forall2_nth _ _ _ C3 i e Hi) as [c [Hc Hc0]].
    apply (Permutation_in _ (Permutation_sym H2)). rewrite <- (cuts _ _ _ C1). apply in_concat. exists c. split; [eapply nth_error_In; exact Hc|eapply nth_error_In; exact Hc0].
  - intros e He. apply (Permutation_in _ H2) in He. rewrite <- (cuts _ _ _ C1) in He. apply in_concat in He. destruct He as [c [Hc He]].
    pose proof Hc as Hc'. apply In_nth_error in Hc'. destruct Hc' as [i Hi]. destruct (Forall2_nth_l _ _ _ C3 i c Hi) as [e' [He' H0]]. exists e'.
    split; [eapply nth_error_In; exact He'|]. exact (homogeneous _ _ _ C1 c e' e Hc (nth_error_In _ _ H0) He).
Qed.

Section Unsorted.
Context {E T : Type}.
Variable ty : E -> T.
Variable same : T -> T -> bool.
Hypothesis same_ok : decides same.
Lemma same_refl x : same x x = true.
Proof. apply same_ok. reflexivity. Qed.
Lemma same_sym x y : same x y = same y x.
Proof. destruct (same x y) eqn:A, (same y x) eqn:B; try reflexivity; [apply same_ok in A|apply same_ok in B]; subst; rewrite same_refl in *; congruence. Qed.
Lemma existsb_in x l : existsb (same x) l = true <-> In x l.
Proof. rewrite existsb_exists. split; [intros [y [Hy Hs]]; apply same_ok in Hs; subst; exact Hy|intros H; exists x; split; [exact H|apply same_refl]]. Qed.
Lemma mp_unique_snoc l x : mp_unique same (l ++ [x]) = if existsb (same x) (mp_unique same l) then mp_unique same l else mp_unique same l ++ [x].
Proof. unfold mp_unique. rewrite fold_left_app. reflexivity. Qed.
Lemma mp_unique_in l x : In x (mp_unique same l) <-> In x l.
Proof.
  revert x. induction l as [|y l IH] using rev_ind; intros x; [reflexivity|]. rewrite mp_unique_snoc. rewrite in_app_iff. cbn.
  destruct (existsb (same y) (mp_unique same l)) eqn:Ex.
  - apply existsb_in in Ex. rewrite IH in *. split; [tauto|]. intros [H|[<-|[]]]; assumption.
  - rewrite in_app_iff, IH. reflexivity.
Qed.
Lemma mp_find_app_in l r x : In x l -> mp_find same (l ++ r) x = mp_find same l x /\ mp_find same l x < length l.
Proof.
  induction l as [|y l IH]; intros H; [destruct H|]. cbn [mp_find app length]. destruct (same y x) eqn:Es; [split; [reflexivity|lia]|].
  destruct H as [->|H]; [rewrite same_refl in Es; discriminate|]. destruct (IH H) as [-> ?]. split; [reflexivity|lia].
Qed.
Lemma mp_find_app_out l r x : ~ In x l -> mp_find same (l ++ r) x = length l + mp_find same r x.
Proof.
  induction l as [|y l IH]; intros H; [reflexivity|]. cbn [mp_find app length]. destruct (same y x) eqn:Es; [apply same_ok in Es; subst; exfalso; apply H; left; reflexivity|].
  rewrite IH by (intros F; apply H; right; exact F). reflexivity.
Qed.
Lemma combine_snoc {X Y} (a : list X) (b : list Y) x y : length a = length b -> combine (a ++ [x]) (b ++ [y]) = combine a b ++ [(x, y)].
Proof. revert b. induction a as [|u a IH]; intros [|v b] H; try discriminate H; [reflexivity|]. cbn. rewrite IH by (cbn in H; lia). reflexivity. Qed.
Lemma filter_ext_in' {X} (f g : X -> bool) l : (forall x, In x l -> f x = g x) -> List.filter f l = List.filter g l.
Proof. induction l as [|x l IH]; intros H; [reflexivity|]. cbn. rewrite H by (left; reflexivity). rewrite IH by (intros; apply H; right; assumption). reflexivity. Qed.
Lemma first_snoc t e : first_of_type same ty (t ++ [e]) = first_of_type same ty t ++ (if existsb (fun e' => same (ty e') (ty e)) t then [] else [e]).
Proof.
  unfold first_of_type. rewrite app_length. cbn [length]. rewrite Nat.add_1_r, seq_S. cbn [Nat.add]. rewrite combine_snoc by apply seq_length.
  rewrite filter_app, map_app. f_equal.
  - f_equal. apply filter_ext_in'. intros [i x] Hi. cbn [fst snd]. apply in_combine_l in Hi. apply in_seq in Hi.
    do 2 f_equal. rewrite firstn_app. replace (i - length t) with 0 by lia. cbn [firstn]. rewrite app_nil_r. reflexivity.
  - cbn [List.filter fst snd]. rewrite firstn_app, Nat.sub_diag, firstn_all. cbn [firstn]. rewrite app_nil_r.
    destruct (existsb (fun e' => same (ty e') (ty e)) t); reflexivity.
Qed.
Lemma to_unsorted_set_ok t : to_unsorted_set ty same t = Some (first_of_type same ty t).
Proof.
  unfold to_unsorted_set. rewrite (pack_via (mp_unique same (map ty t)) (fun x => get t (mp_find same (map ty t) x))).
  induction t as [|e t IH] using rev_ind; [reflexivity|]. rewrite first_snoc, map_app. cbn [map]. rewrite mp_unique_snoc.
  assert (Hold : mapo (fun x => get (t ++ [e]) (mp_find same (map ty t ++ [ty e]) x)) (mp_unique same (map ty t)) = Some (first_of_type same ty t)).
  { rewrite <- IH. apply mapo_ext. intros x Hx. apply (proj1 (mp_unique_in _ _)) in Hx. destruct (mp_find_app_in (map ty t) [ty e] x Hx) as [-> H]. rewrite map_length in H. unfold get. apply nth_error_app1. exact H. }
  assert (Hex : existsb (same (ty e)) (mp_unique same (map ty t)) = existsb (fun e' => same (ty e') (ty e)) t).
  { apply eq_true_iff_eq. rewrite existsb_in, mp_unique_in, existsb_exists, in_map_iff. split; intros [x [A B]]; exists x; [split; [exact B|apply same_ok; exact A]|split; [apply same_ok; exact B|exact A]]. }
  rewrite Hex. destruct (existsb (fun e' => same (ty e') (ty e)) t) eqn:Ex.
  - rewrite app_nil_r. exact Hold.
  - rewrite mapo_app, Hold. cbn [mapo]. rewrite mp_find_app_out.
    + cbn [mp_find]. rewrite same_refl, Nat.add_0_r, map_length. unfold get. rewrite nth_mid. reflexivity.
    + intros F. assert (existsb (same (ty e)) (mp_unique same (map ty t)) = true) by (apply existsb_in, mp_unique_in; exact F). congruence.
Qed.
End Unsorted.

(** ** Products *)
Fixpoint prod_list {E} (ts : list (list E)) : list (list E) :=
  match ts with [] => [[]] | t :: r => flat_map (fun e => map (cons e) (prod_list r)) t end.
Lemma cartesian_list {E} (ts : list (list E)) : cartesian_product ts = Some (prod_list ts).
Proof.
  induction ts as [|t ts IH]; [reflexivity|]. cbn [cartesian_product prod_list]. rewrite IH. rewrite apply1_ok.
  assert (Hp : forall e, match apply1 (fun subs => mapo (fun s => tuple_cat [[e]; s]) subs) (prod_list ts) with Some x => x | None => None end = Some (map (cons e) (prod_list ts))).
  { intros e. rewrite apply1_ok. rewrite (mapo_ext _ (fun s => Some (e :: s))); [apply mapo_some|]. intros s _. rewrite tuple_cat_ok. cbn. rewrite app_nil_r. reflexivity. }
  rewrite (mapo_ext _ (fun e => Some (map (cons e) (prod_list ts)))) by (intros e _; apply Hp). rewrite mapo_some, tuple_cat_ok, flat_map_concat_map. reflexivity.
Qed.
Lemma product_cons n ns : product (n :: ns) = n * product ns.
Proof. reflexivity. Qed.
Lemma flat_map_nth {X Y} (f : X -> list Y) m : forall l i k x, (forall x, In x l -> length (f x) = m) -> nth_error l i = Some x -> k < m ->
  nth_error (flat_map f l) (i * m + k) = nth_error (f x) k.
Proof.
  induction l as [|a l IH]; intros [|i] k x Hl Hx Hk; try discriminate; cbn [nth_error flat_map] in *.
  - injection Hx as <-. rewrite nth_error_app1; [reflexivity|]. rewrite Hl by (left; reflexivity). lia.
  - rewrite nth_error_app2; rewrite Hl by (left; reflexivity); [|nia]. replace (S i * m + k - m) with (i * m + k) by nia. apply IH; [intros; apply Hl; right; assumption|exact Hx|exact Hk].
Qed.
Lemma flat_map_length' {X Y} (f : X -> list Y) m l : (forall x, In x l -> length (f x) = m) -> length (flat_map f l) = length l * m.
Proof. induction l as [|a l IH]; intros H; [reflexivity|]. cbn [flat_map length]. rewrite app_length, H by (left; reflexivity). rewrite IH by (intros; apply H; right; assumption). lia. Qed.
Lemma prod_length {E} (ts : list (list E)) : length (prod_list ts) = product (map (@length E) ts).
Proof.
  induction ts as [|t ts IH]; [reflexivity|]. cbn [prod_list map]. rewrite product_cons. apply flat_map_length'. intros x _. rewrite map_length. exact IH.
Qed.
Lemma rank_lt {E} (ts : list (list E)) is : choice ts is -> rank (map (@length E) ts) is < product (map (@length E) ts).
Proof.
  induction 1 as [|t i ts is Hi _ IH]; [cbn; lia|]. cbn [map rank]. rewrite product_cons. nia.
Qed.
Lemma prod_nth {E} (ts : list (list E)) is : choice ts is -> exists c, nth_error (prod_list ts) (rank (map (@length E) ts) is) = Some c /\ picks ts is c.
Proof.
  induction 1 as [|t i ts is Hi Hc IH].
  - exists []. split; [reflexivity|]. repeat split. intros [|k] ? ? H; discriminate.
  - destruct IH as [c [Hn [P1 [P2 P3]]]]. destruct (nth_error t i) as [x|] eqn:Ex; [|apply nth_error_None in Ex; lia]. exists (x :: c). split.
    + cbn [map rank prod_list]. rewrite (flat_map_nth _ (product (map (@length E) ts)) t i _ x).
      * rewrite nth_error_map, Hn. reflexivity.
      * intros y _. rewrite map_length. apply prod_length.
      * exact Ex.
      * apply rank_lt. exact Hc.
    + repeat split; cbn [length]; try congruence. intros [|k] t' i' H1 H2; cbn [nth_error] in *; [|eapply P3; eassumption]. injection H1 as <-. injection H2 as <-. symmetry. exact Ex.
Qed.
Lemma rank_onto {E} (ts : list (list E)) : forall k, k < product (map (@length E) ts) -> exists is, choice ts is /\ rank (map (@length E) ts) is = k.
Proof.
  induction ts as [|t ts IH]; intros k Hk.
  - exists []. split; [constructor|]. cbn in *. lia.
  - cbn [map] in *. rewrite product_cons in Hk. set (m := product (map (@length E) ts)) in *. assert (Hm : m <> 0) by (intros E0; rewrite E0 in Hk; lia).
    destruct (IH (k mod m)) as [is [Hc Hr]]; [apply Nat.mod_upper_bound; exact Hm|]. exists (k / m :: is). split.
    + constructor; [|exact Hc]. apply Nat.div_lt_upper_bound; [exact Hm|]. lia.
    + cbn [rank]. fold m. rewrite Hr. pose proof (Nat.div_mod k m Hm). lia.
Qed.
Lemma rank_order {E} (ts : list (list E)) is : choice ts is -> forall js, choice ts js -> (before is js <-> rank (map (@length E) ts) is < rank (map (@length E) ts) js).
Proof.
  induction 1 as [|t i ts is Hi Hc IH]; intros js Hj; inversion Hj as [|t' j ts' js' Hj1 Hj2]; subst; cbn [before rank map]; [lia|].
  pose proof (rank_lt ts is Hc) as R1. pose proof (rank_lt ts js' Hj2) as R2. specialize (IH js' Hj2). set (m := product (map (@length E) ts)) in *. split.
  - intros [H|[-> H]]; [nia|]. apply IH in H. lia.
  - intros H. destruct (lt_eq_lt_dec i j) as [[H1|H1]|H1]; [left; exact H1| |nia]. right. split; [exact H1|]. subst. apply IH. lia.
Qed.

(** ** Comparison *)
Section Compare.
Context {E E' : Type}.
Lemma pack_rows (l : list E) (r : list E') {Y} (f : E -> E' -> Y) : length l = length r ->
  pack (tuple_size l) (fun i => match get l i with Some x => match get r i with Some y => Some (f x y) | None => None end | None => None end)
  = Some (map (fun p => f (fst p) (snd p)) (combine l r)).
Proof.
  intros H. apply pack_ok; [rewrite map_length, combine_length, H; unfold tuple_size; lia|]. intros i _. rewrite nth_error_map. unfold get. clear H. revert r i.
  induction l as [|x l IH]; intros [|y r] [|i]; try reflexivity; cbn [nth_error combine]; [destruct (nth_error l i); reflexivity|apply IH].
Qed.
Lemma fold_andb l : forall b, List.fold_left andb l b = b && forallb (fun x => x) l.
Proof. induction l as [|x l IH]; intros b; cbn; [rewrite andb_true_r; reflexivity|]. rewrite IH, andb_assoc. reflexivity. Qed.
Lemma tuple_eq_ok (eqv : E -> E' -> bool) l r : length l = length r ->
  exists b, tuple_eq eqv l r = Some b /\ (b = true <-> Forall2 (fun x y => eqv x y = true) l r).
Proof.
  intros H. unfold tuple_eq. unfold tuple_size at 1 2. rewrite H, Nat.eqb_refl, pack_rows by exact H. eexists. split; [reflexivity|]. rewrite fold_andb. cbn [andb].
  revert r H. induction l as [|x l IH]; intros [|y r] H; try discriminate H; cbn [combine map forallb fst snd]; [split; [constructor|reflexivity]|].
  rewrite andb_true_iff, IH by (cbn in H; lia). split; [intros [A B]; constructor; assumption|intros F; inversion F; auto].
Qed.
Lemma compare_from_ok (cmp : E -> E' -> option comparison) l : forall r c0, length l = length r -> l <> [] -> lexicographic cmp l r (compare_from cmp c0 (combine l r)).
Proof.
  induction l as [|x l IH]; intros [|y r] c0 H Hne; try discriminate H; [congruence|]. cbn [combine compare_from].
  destruct (nonzero (cmp x y)) eqn:Hz.
  - right. split; [destruct (cmp x y) as [[]|]; discriminate|]. exists [], x, l, [], y, r. repeat split; constructor.
  - assert (Exy : cmp x y = Some Eq) by (destruct (cmp x y) as [[]|]; try discriminate; reflexivity). rewrite Exy.
    destruct l as [|x2 l].
    + destruct r; [|discriminate H]. left. split; [reflexivity|]. constructor; [exact Exy|constructor].
    + destruct (IH r (Some Eq)) as [[Hc HF]|[Hc [l0 [u [l1 [r0 [v [r1 [E1 [E2 [HF Hv]]]]]]]]]]]; [cbn in *; lia|discriminate| |].
      * left. split; [exact Hc|constructor; assumption].
      * right. split; [exact Hc|]. exists (x :: l0), u, l1, (y :: r0), v, r1. split; [cbn [app]; f_equal; exact E1|]. split; [cbn [app]; f_equal; exact E2|]. split; [constructor; assumption|exact Hv].
Qed.
Lemma tuple_cmp_ok (cmp : E -> E' -> option comparison) l r : length l = length r ->
  exists c, tuple_cmp cmp l r = Some c /\ lexicographic cmp l r c.
Proof.
  intros H. unfold tuple_cmp. unfold tuple_size at 1 2 3. rewrite H, Nat.eqb_refl. destruct r as [|y r].
  - destruct l; [|discriminate H]. exists (Some Eq). split; [reflexivity|]. left. split; [reflexivity|constructor].
  - destruct l as [|x l]; [discriminate H|]. cbn [length Nat.eqb get nth_error]. rewrite pack_rows by exact H.
    replace (map (fun p => (fst p, snd p)) (combine (x :: l) (y :: r))) with (combine (x :: l) (y :: r)).
    2: { rewrite <- (map_id (combine _ _)) at 1. apply map_ext. intros [? ?]; reflexivity. }
    eexists. split; [reflexivity|]. apply compare_from_ok; [exact H|discriminate].
Qed.
Lemma tuple_sizes (cmp : E -> E' -> option comparison) (eqv : E -> E' -> bool) l r : length l <> length r -> tuple_eq eqv l r = None /\ tuple_cmp cmp l r = None.
Proof. intros H. unfold tuple_eq, tuple_cmp, tuple_size. destruct (Nat.eqb_spec (length l) (length r)); [congruence|split; reflexivity]. Qed.
Lemma one_of_ok (eqv : E -> E' -> bool) t y : exists b, one_of_eq eqv t y = Some b /\ (b = true <-> exists x, In x t /\ eqv x y = true).
Proof.
  unfold one_of_eq. rewrite apply1_ok. eexists. split; [reflexivity|]. induction t as [|x t IH]; cbn; [split; [discriminate|intros [x [[] _]]]|].
  rewrite orb_true_iff, IH. split; [intros [H|[z [Hz H]]]; eauto|intros [z [[->|Hz] H]]; eauto].
Qed.
(** The lexicographic result is determined. *)
Lemma lexicographic_fun (cmp : E -> E' -> option comparison) l r c d : lexicographic cmp l r c -> lexicographic cmp l r d -> c = d.
Proof.
  assert (A : forall l0 x l1 r0 y r1, Forall2 (fun x y => cmp x y = Some Eq) (l0 ++ x :: l1) (r0 ++ y :: r1) -> Forall2 (fun x y => cmp x y = Some Eq) l0 r0 -> cmp x y = Some Eq).
  { intros l0 x l1 r0 y r1 HF H0. induction H0 as [|a b l0 r0 _ _ IH]; inversion HF; subst; [assumption|apply IH; assumption]. }
  assert (B : forall l0 r0, Forall2 (fun x y => cmp x y = Some Eq) l0 r0 -> forall x l1 y r1 m0 u m1 s0 v s1, l0 ++ x :: l1 = m0 ++ u :: m1 -> r0 ++ y :: r1 = s0 ++ v :: s1 ->
     Forall2 (fun x y => cmp x y = Some Eq) m0 s0 -> cmp x y <> Some Eq -> cmp u v <> Some Eq -> cmp x y = cmp u v).
  { induction 1 as [|a b l0 r0 Hab _ IH]; intros x l1 y r1 m0 u m1 s0 v s1 E1 E2 Hm Hx Hu; inversion Hm; subst; cbn [app] in *; try congruence.
    - injection E1 as -> E1. injection E2 as -> E2. eapply IH; eassumption. }
  intros [[-> HF]|[Hc [l0 [x [l1 [r0 [y [r1 [E1 [E2 [HF Hx]]]]]]]]]]] [[-> HG]|[Hd [m0 [u [m1 [s0 [v [s1 [D1 [D2 [HG Hu]]]]]]]]]]].
  - reflexivity.
  - exfalso. subst. apply Hd. eapply A; eassumption.
  - exfalso. subst. apply Hc. eapply A; eassumption.
  - rewrite E1 in D1. rewrite E2 in D2. rewrite <- Hx, <- Hu. apply (B l0 r0 HF x l1 y r1 m0 u m1 s0 v s1 D1 D2 HG); congruence.
Qed.
End Compare.
