From Verif Require Import Base BaseLemmas TupleModel TupleSpec.
From Coq Require Import Permutation.

(** ** Packs *)
Lemma mapo_ext {X Y} (f g : X -> option Y) l : (forall x, In x l -> f x = g x) -> mapo f l = mapo g l.
Proof.
  induction l as [|x l IH]; intros H; [reflexivity|]. cbn [mapo]. rewrite H by (left; reflexivity).
  rewrite IH by (intros; apply H; right; assumption). reflexivity.
Qed.
Lemma mapo_app {X Y} (f : X -> option Y) l1 l2 : mapo f (l1 ++ l2)
  = match mapo f l1 with Some a => match mapo f l2 with Some b => Some (a ++ b) | None => None end | None => None end.
Proof.
  induction l1 as [|x l1 IH]; cbn [mapo app].
  - destruct (mapo f l2); reflexivity.
  - rewrite IH. destruct (f x), (mapo f l1), (mapo f l2); reflexivity.
Qed.
Lemma mapo_map {X Y Z} (f : Y -> option Z) (g : X -> Y) l : mapo f (map g l) = mapo (fun x => f (g x)) l.
Proof. induction l as [|x l IH]; [reflexivity|]. cbn [mapo map]. rewrite IH. reflexivity. Qed.
Lemma mapo_some {X Y} (g : X -> Y) l : mapo (fun x => Some (g x)) l = Some (map g l).
Proof. induction l as [|x l IH]; [reflexivity|]. cbn [mapo map]. rewrite IH. reflexivity. Qed.
Lemma mapo_Forall2 {X Y} (f : X -> option Y) l r : mapo f l = Some r <-> Forall2 (fun x y => f x = Some y) l r.
Proof.
  revert r; induction l as [|x l IH]; intros r; cbn [mapo].
  - split; [intros E; injection E as <-; constructor|intros H; inversion H; reflexivity].
  - split.
    + destruct (f x) as [y|] eqn:Ef; [|discriminate]. destruct (mapo f l) as [ys|] eqn:El; [|discriminate].
      intros E; injection E as <-. constructor; [exact Ef|]. apply IH. reflexivity.
    + intros H; inversion H; subst. rewrite H2. apply IH in H4. rewrite H4. reflexivity.
Qed.
Lemma mapo_length {X Y} (f : X -> option Y) l r : mapo f l = Some r -> length r = length l.
Proof. intros H. apply mapo_Forall2 in H. induction H; cbn; congruence. Qed.
Lemma mapo_nth {X Y} (f : X -> option Y) l r i x : mapo f l = Some r -> nth_error l i = Some x -> nth_error r i = f x.
Proof.
  intros H. apply mapo_Forall2 in H. revert i. induction H as [|a b l r Hab H IH]; intros [|i] E; try discriminate; cbn [nth_error] in *.
  - injection E as <-. symmetry. exact Hab.
  - apply IH. exact E.
Qed.
Lemma mapo_nth' {X Y} (f : X -> option Y) l r i y : mapo f l = Some r -> nth_error r i = Some y -> exists x, nth_error l i = Some x /\ f x = Some y.
Proof.
  intros H. apply mapo_Forall2 in H. revert i. induction H as [|a b l r Hab H IH]; intros [|i] E; try discriminate; cbn [nth_error] in *.
  - injection E as <-. eauto.
  - apply IH. exact E.
Qed.

Lemma nth_seq n i : i < n -> nth_error (seq 0 n) i = Some i.
Proof. intros H. rewrite (nth_error_nth' _ 0) by (rewrite seq_length; lia). rewrite seq_nth by lia. reflexivity. Qed.
Lemma nth_error_eq {X} (l r : list X) : (forall i, nth_error l i = nth_error r i) -> l = r.
Proof.
  revert r. induction l as [|x l IH]; intros [|y r] H; [reflexivity|discriminate (H 0)|discriminate (H 0)|].
  pose proof (H 0) as H0. cbn in H0. injection H0 as <-. f_equal. apply IH. intros i. exact (H (S i)).
Qed.
Lemma nth_seq_from a n i : nth_error (seq a n) i = if i <? n then Some (a + i) else None.
Proof.
  revert a i. induction n as [|n IH]; intros a i; cbn [seq].
  - destruct i; reflexivity.
  - destruct i as [|i]; cbn [nth_error]; [rewrite Nat.add_0_r; reflexivity|]. rewrite IH.
    change (S i <? S n) with (i <? n). destruct (i <? n); [f_equal; lia|reflexivity].
Qed.

Lemma pack_ok {Y} n (f : nat -> option Y) l : length l = n -> (forall i, i < n -> f i = nth_error l i) -> pack n f = Some l.
Proof.
  intros Hl H. unfold pack. apply mapo_Forall2. subst n.
  assert (G : forall k, k <= length l -> Forall2 (fun x y => f x = Some y) (seq (length l - k) k) (skipn (length l - k) l)).
  { induction k as [|k IH]; intros Hk.
    - rewrite Nat.sub_0_r, skipn_all. constructor.
    - cbn [seq]. destruct (nth_error l (length l - S k)) as [x|] eqn:E.
      2: apply nth_error_None in E; lia.
      assert (skipn (length l - S k) l = x :: skipn (length l - k) l) as ->.
      { replace (length l - k) with (S (length l - S k)) by lia. clear -E. revert E. generalize (length l - S k). intros m. revert l.
        induction m as [|m IHm]; intros [|a l] E; try discriminate; cbn in *; [congruence|]. apply IHm. exact E. }
      constructor; [rewrite H by lia; exact E|]. replace (S (length l - S k)) with (length l - k) by lia. apply IH. lia. }
  specialize (G (length l) (le_n _)). rewrite Nat.sub_diag in G. exact G.
Qed.
Lemma pack_length {Y} n (f : nat -> option Y) l : pack n f = Some l -> length l = n.
Proof. intros H. apply mapo_length in H. rewrite seq_length in H. exact H. Qed.
Lemma pack_nth {Y} n (f : nat -> option Y) l i : pack n f = Some l -> i < n -> nth_error l i = f i.
Proof. intros H Hi. eapply mapo_nth; [exact H|]. apply nth_seq. exact Hi. Qed.
Lemma pack_get {E} (t : list E) : pack (tuple_size t) (get t) = Some t.
Proof. apply pack_ok; reflexivity. Qed.
Lemma pack_via {X Y} (idx : list X) (g : X -> option Y) :
  pack (length idx) (fun i => match nth_error idx i with Some x => g x | None => None end) = mapo g idx.
Proof.
  unfold pack. assert (G : forall pre l, idx = pre ++ l -> mapo (fun i => match nth_error idx i with Some x => g x | None => None end) (seq (length pre) (length l)) = mapo g l).
  { intros pre l. revert pre. induction l as [|x l IH]; intros pre E; [reflexivity|]. cbn [length seq mapo].
    assert (nth_error idx (length pre) = Some x) as ->. { rewrite E, nth_error_app2 by lia. rewrite Nat.sub_diag. reflexivity. }
    specialize (IH (pre ++ [x])). rewrite app_length in IH. cbn [length] in IH. replace (S (length pre)) with (length pre + 1) by lia.
    rewrite IH by (rewrite <- app_assoc; exact E). reflexivity. }
  exact (G [] idx eq_refl).
Qed.
Lemma pack_some {X} n (g : nat -> X) : pack n (fun i => Some (g i)) = Some (map g (seq 0 n)).
Proof. apply mapo_some. Qed.

(** ** Folds *)
Lemma fold_left_ok {W V} (op : W -> V -> V -> W * V) w t init :
  fold_left op w t init = Some (List.fold_left (fun s x => op (fst s) (snd s) x) t (w, init)).
Proof.
  unfold fold_left. rewrite pack_get. f_equal. generalize (w, init). induction t as [|x t IH]; intros s; [reflexivity|]. cbn. apply IH.
Qed.
Lemma fold_right_ok {W V} (op : W -> V -> V -> W * V) w t init :
  fold_right op w t init = Some (List.fold_right (fun x s => op (fst s) x (snd s)) (w, init) t).
Proof.
  unfold fold_right. rewrite pack_get. f_equal. induction t as [|x t IH]; [reflexivity|]. cbn. rewrite IH. reflexivity.
Qed.
Lemma join_ok {W V} (op : W -> V -> V -> W * V) w x t :
  join op w (x :: t) = Some (List.fold_left (fun s y => op (fst s) (snd s) y) t (w, x)).
Proof.
  unfold join. rewrite pack_get. f_equal. generalize (w, x). induction t as [|y t IH]; intros s; [reflexivity|]. cbn. apply IH.
Qed.
Lemma apply1_ok {E R} (f : list E -> R) t : apply1 f t = Some (f t).
Proof. unfold apply1. rewrite pack_get. reflexivity. Qed.
Lemma tail_ok {E} (t : list E) : tail t = Some (tl t).
Proof.
  destruct t as [|x t]; [reflexivity|]. unfold tail, tuple_size. cbn [length Nat.eqb tl].
  apply pack_ok; [lia|]. intros i _. unfold get. rewrite Nat.add_1_r. reflexivity.
Qed.
Lemma cons_ok {E} (e : E) t : tuple_cons e t = Some (e :: t).
Proof. unfold tuple_cons. rewrite pack_get. reflexivity. Qed.
Lemma snoc_ok {E} (e : E) t : tuple_snoc t e = Some (t ++ [e]).
Proof. unfold tuple_snoc. rewrite pack_get. reflexivity. Qed.

(** ** tuple_cat *)
Lemma set_nth_split {X} (a : list X) p v : p < length a -> set_nth p v a = firstn p a ++ v :: skipn (S p) a.
Proof.
  revert p. induction a as [|x a IH]; intros [|p] H; cbn [length] in H; try lia; [reflexivity|]. cbn [set_nth firstn skipn app]. rewrite IH by lia. reflexivity.
Qed.
Lemma arr_put_ok {X} (a : list X) p v : p < length a -> arr_put a p v = Some (firstn p a ++ v :: skipn (S p) a).
Proof. intros H. unfold arr_put. destruct (Nat.ltb_spec p (length a)); [|lia]. rewrite set_nth_split by lia. reflexivity. Qed.
Lemma split_at {X} (a : list X) p : p < length a -> exists x, nth_error a p = Some x /\ a = firstn p a ++ x :: skipn (S p) a.
Proof.
  revert p. induction a as [|x a IH]; intros [|p] H; cbn [length] in H; try lia; [exists x; split; reflexivity|].
  destruct (IH p) as [y [Ey Ea]]; [lia|]. exists y. split; [exact Ey|]. cbn [firstn skipn app]. f_equal. exact Ea.
Qed.
Lemma put_mid {X} (pre : list X) x post v : arr_put (pre ++ x :: post) (length pre) v = Some (pre ++ v :: post).
Proof.
  unfold arr_put. destruct (Nat.ltb_spec (length pre) (length (pre ++ x :: post))) as [_|H]; [|rewrite app_length in H; cbn in H; lia].
  f_equal. induction pre as [|y pre IH]; [reflexivity|]. cbn [app length set_nth]. f_equal. exact IH.
Qed.
Lemma nth_mid {X} (pre : list X) x post : nth_error (pre ++ x :: post) (length pre) = Some x.
Proof. rewrite nth_error_app2 by lia. rewrite Nat.sub_diag. reflexivity. Qed.

Lemma fill_inner_ok is : forall pre mid post, length mid = length is ->
  fill_inner (pre ++ mid ++ post) (length pre) is
  = Some (pre ++ map (fun oi => IndexPair (outer (fst oi)) (snd oi)) (combine mid is) ++ post, length pre + length is).
Proof.
  induction is as [|i is IH]; intros pre [|m mid] post H; try discriminate H.
  - cbn. rewrite Nat.add_0_r. reflexivity.
  - cbn [fill_inner length] in *. cbn [app]. rewrite nth_mid, put_mid.
    specialize (IH (pre ++ [IndexPair (outer m) i]) mid post). rewrite app_length, <- !app_assoc in IH. cbn [length app] in IH.
    replace (S (length pre)) with (length pre + 1) by lia. rewrite IH by lia. cbn [combine map fst snd app]. do 2 f_equal. lia.
Qed.
Lemma fill_outer_ok n is : forall pre mid post, length mid = length is ->
  fill_outer (pre ++ mid ++ post) (length pre) n is
  = Some (pre ++ map (fun o => IndexPair n (inner o)) mid ++ post, length pre + length is).
Proof.
  induction is as [|i is IH]; intros pre [|m mid] post H; try discriminate H.
  - cbn. rewrite Nat.add_0_r. reflexivity.
  - cbn [fill_outer length] in *. cbn [app]. rewrite nth_mid, put_mid.
    specialize (IH (pre ++ [IndexPair n (inner m)]) mid post). rewrite app_length, <- !app_assoc in IH. cbn [length app] in IH.
    replace (S (length pre)) with (length pre + 1) by lia. rewrite IH by lia. cbn [map app]. do 2 f_equal. lia.
Qed.
Definition sum (l : list nat) : nat := List.fold_right Nat.add 0 l.
Lemma fold_sum l : forall a, List.fold_left Nat.add l a = a + sum l.
Proof. unfold sum. induction l as [|x l IH]; intros a; cbn [List.fold_left List.fold_right]; [lia|]. rewrite IH. lia. Qed.
Lemma repeat_app' {X} (x : X) a b : repeat x (a + b) = repeat x a ++ repeat x b.
Proof. apply repeat_app. Qed.
Lemma combine_repeat {X Y} (x : X) (l : list Y) : combine (repeat x (length l)) l = map (fun y => (x, y)) l.
Proof. induction l as [|y l IH]; [reflexivity|]. cbn. rewrite IH. reflexivity. Qed.
Lemma fill_inners_ok sizes : forall pre, 
  fill_inners (pre ++ repeat (IndexPair 0 0) (sum sizes)) (length pre) sizes
  = Some (pre ++ concat (map (fun s => map (IndexPair 0) (seq 0 s)) sizes)).
Proof.
  induction sizes as [|s sizes IH]; intros pre; [reflexivity|]. cbn [fill_inners sum List.fold_right]. fold (sum sizes). rewrite repeat_app'.
  rewrite fill_inner_ok by (rewrite repeat_length, seq_length; reflexivity). cbn [fst snd].
  replace (repeat (IndexPair 0 0) s) with (repeat (IndexPair 0 0) (length (seq 0 s))) by (rewrite seq_length; reflexivity).
  rewrite combine_repeat, map_map. cbn [fst snd outer]. rewrite app_assoc.
  replace (length pre + length (seq 0 s)) with (length (pre ++ map (fun x => IndexPair 0 x) (seq 0 s))) by (rewrite app_length, map_length; reflexivity).
  rewrite IH. cbn [map concat]. rewrite <- app_assoc. reflexivity.
Qed.
Fixpoint pairs (k : nat) (sizes : list nat) : list index_pair :=
  match sizes with [] => [] | s :: r => map (IndexPair k) (seq 0 s) ++ pairs (S k) r end.
Lemma fill_outers_ok sizes : forall pre k, 
  fill_outers (pre ++ concat (map (fun s => map (IndexPair 0) (seq 0 s)) sizes)) (length pre) k sizes = Some (pre ++ pairs k sizes).
Proof.
  induction sizes as [|s sizes IH]; intros pre k; [reflexivity|]. cbn [fill_outers map concat].
  rewrite fill_outer_ok by (rewrite map_length; reflexivity). cbn [fst snd]. rewrite map_map. cbn [inner]. rewrite app_assoc.
  replace (length pre + length (seq 0 s)) with (length (pre ++ map (fun x => IndexPair k x) (seq 0 s))) by (rewrite app_length, map_length; reflexivity).
  rewrite IH. cbn [pairs]. rewrite <- app_assoc. reflexivity.
Qed.
Lemma element_indices_ok sizes : element_indices sizes = Some (pairs 0 sizes).
Proof.
  unfold element_indices. rewrite fold_sum. cbn [Nat.add]. pose proof (fill_inners_ok sizes []) as F. cbn [app length] in F. rewrite F.
  exact (fill_outers_ok sizes [] 0).
Qed.
Lemma pairs_length sizes : forall k, length (pairs k sizes) = sum sizes.
Proof. induction sizes as [|s r IH]; intros k; [reflexivity|]. cbn [pairs sum List.fold_right]. rewrite app_length, map_length, seq_length, IH. reflexivity. Qed.
Lemma gather_all_ok {E} (ts : list (list E)) : gather_all ts = Some (concat ts).
Proof.
  unfold gather_all. rewrite element_indices_ok, fold_sum. cbn [Nat.add]. rewrite <- (pairs_length _ 0). rewrite pack_via.
  assert (G : forall pre r, ts = pre ++ r ->
    mapo (fun p => match get ts (outer p) with Some t => get t (inner p) | None => None end) (pairs (length pre) (map tuple_size r)) = Some (concat r)).
  { intros pre r. revert pre. induction r as [|t r IH]; intros pre E0; [reflexivity|]. cbn [map pairs concat]. rewrite mapo_app, mapo_map. cbn [outer inner].
    unfold get at 1. rewrite E0, nth_mid. rewrite <- E0.
    pose proof (pack_get t) as P. unfold pack, get in P. unfold get at 1. rewrite P.
    specialize (IH (pre ++ [t])). rewrite app_length in IH. cbn [length] in IH. rewrite Nat.add_1_r in IH. rewrite IH by (rewrite <- app_assoc; exact E0). reflexivity. }
  exact (G [] ts eq_refl).
Qed.
Lemma tuple_cat_ok {E} (ts : list (list E)) : tuple_cat ts = Some (concat ts).
Proof.
  destruct ts as [|t [|u ts]]; [reflexivity|cbn; rewrite app_nil_r; reflexivity|]. exact (gather_all_ok (t :: u :: ts)).
Qed.
Lemma apply_ok {E R} (f : list E -> R) ts : apply f ts = Some (f (concat ts)).
Proof. unfold apply. rewrite gather_all_ok. reflexivity. Qed.

(** ** Rows *)
Lemma fold_min_le l : forall a, List.fold_left Nat.min l a <= a /\ Forall (fun x => List.fold_left Nat.min l a <= x) l.
Proof.
  induction l as [|x l IH]; intros a; cbn; [split; [lia|constructor]|]. destruct (IH (Nat.min a x)) as [H1 H2]. split; [lia|]. constructor; [lia|exact H2].
Qed.
Lemma fold_min_in l : forall a, List.fold_left Nat.min l a = a \/ Exists (fun x => List.fold_left Nat.min l a = x) l.
Proof.
  induction l as [|x l IH]; intros a; cbn; [left; reflexivity|]. destruct (IH (Nat.min a x)) as [H|H]; [|right; right; exact H].
  destruct (Nat.min_spec a x) as [[_ E]|[_ E]]; rewrite E in H |- *; [left; exact H|right; left; exact H].
Qed.
Lemma zip_length_ok {E} (ts : list (list E)) : ts <> [] ->
  Forall (fun t => zip_length ts <= length t) ts /\ Exists (fun t => zip_length ts = length t) ts.
Proof.
  destruct ts as [|t ts]; [congruence|]. intros _. unfold zip_length. cbn [map]. unfold tuple_size at 2 4. 
  pose proof (fold_min_le (map tuple_size ts) (length t)) as [H1 H2]. pose proof (fold_min_in (map tuple_size ts) (length t)) as H3.
  split.
  - constructor; [exact H1|]. rewrite Forall_map in H2. exact H2.
  - destruct H3 as [H3|H3]; [left; exact H3|right]. rewrite Exists_map in H3. exact H3.
Qed.
Lemma args_at_ok {E} (ts : list (list E)) i : Forall (fun t => i < length t) ts -> exists r, args_at ts i = Some r.
Proof.
  unfold args_at. induction 1 as [|t ts Ht _ [r IH]]; cbn [mapo]; [eauto|]. unfold get at 1. destruct (nth_error t i) eqn:E0; [|apply nth_error_None in E0; lia].
  rewrite IH. eauto.
Qed.
Lemma pack_total {Y} n (f : nat -> option Y) : (forall i, i < n -> exists y, f i = Some y) -> exists l, pack n f = Some l.
Proof.
  intros H. unfold pack. assert (G : forall l, (forall i, In i l -> i < n) -> exists r, mapo f l = Some r).
  { induction l as [|i l IH]; intros Hl; cbn [mapo]; [eauto|]. destruct (H i) as [y Ey]; [apply Hl; left; reflexivity|]. rewrite Ey.
    destruct IH as [r Er]; [intros; apply Hl; right; assumption|]. rewrite Er. eauto. }
  apply G. intros i Hi. apply in_seq in Hi. lia.
Qed.
Lemma rows_ok {E} (ts : list (list E)) : exists rows, pack (zip_length ts) (args_at ts) = Some rows /\ is_rows ts rows.
Proof.
  destruct ts as [|t ts]; [exists []; split; [reflexivity|]; split; [intros [|i] r H; discriminate|split; congruence]|].
  set (us := t :: ts). assert (Hne : us <> []) by discriminate. destruct (zip_length_ok us Hne) as [H1 H2].
  destruct (pack_total (zip_length us) (args_at us)) as [rows Hr].
  { intros i Hi. apply args_at_ok. eapply Forall_impl; [|exact H1]. intros a Ha. eapply Nat.lt_le_trans; [exact Hi|exact Ha]. }
  exists rows. split; [exact Hr|]. pose proof (pack_length _ _ _ Hr) as Hl. split; [|split; [congruence|intros _; rewrite Hl; split; assumption]].
  intros i r Hi. assert (i < zip_length us) by (rewrite <- Hl; apply nth_error_Some; congruence).
  rewrite (pack_nth _ _ _ _ Hr) in Hi by assumption. unfold args_at in Hi. apply mapo_Forall2 in Hi. exact Hi.
Qed.
Lemma calls_ok {W X Y} (f : W -> X -> W * Y) l : forall w, calls f w l (fst (effects f w l)) (snd (effects f w l)).
Proof.
  induction l as [|x l IH]; intros w; cbn [effects]; [constructor|]. destruct (f w x) as [w1 y] eqn:E. specialize (IH w1). destruct (effects f w1 l) as [w2 ys].
  econstructor; [exact E|exact IH].
Qed.
Lemma calls_app {W X Y} (f : W -> X -> W * Y) a : forall w w1 b w2 ys zs, calls f w a w1 ys -> calls f w1 b w2 zs -> calls f w (a ++ b) w2 (ys ++ zs).
Proof. induction a as [|x a IH]; intros w w1 b w2 ys zs H1 H2; inversion H1; subst; [exact H2|]. econstructor; [eassumption|]. eapply IH; eassumption. Qed.
Lemma transform_ok {W E R} (op : W -> list E -> W * R) w ts : exists rows w' rs,
  is_rows ts rows /\ transform op w ts = Some (w', rs) /\ calls op w rows w' rs.
Proof.
  destruct (rows_ok ts) as [rows [Hp Hr]]. exists rows, (fst (effects op w rows)), (snd (effects op w rows)). split; [exact Hr|]. split; [|apply calls_ok].
  unfold transform. rewrite Hp. destruct (effects op w rows); reflexivity.
Qed.
Lemma for_each_ok {W E R} (op : W -> list E -> W * R) w ts : exists rows w' rs,
  is_rows ts rows /\ for_each op w ts = Some w' /\ calls op w rows w' rs.
Proof.
  destruct (rows_ok ts) as [rows [Hp Hr]]. exists rows, (fst (effects op w rows)), (snd (effects op w rows)). split; [exact Hr|]. split; [|apply calls_ok].
  unfold for_each. rewrite Hp. reflexivity.
Qed.
Lemma is_rows_unique {E} (ts : list (list E)) r1 r2 : is_rows ts r1 -> is_rows ts r2 -> r1 = r2.
Proof.
  intros [A1 [B1 C1]] [A2 [B2 C2]]. destruct ts as [|t ts]; [rewrite B1, B2; reflexivity|].
  destruct C1 as [F1 X1]; [discriminate|]. destruct C2 as [F2 X2]; [discriminate|].
  assert (length r1 = length r2). { rewrite Exists_exists in X1, X2. rewrite Forall_forall in F1, F2. destruct X1 as [a [Ia Ea]], X2 as [b [Ib Eb]].
    specialize (F1 b Ib). specialize (F2 a Ia). lia. }
  apply nth_error_eq. intros i. destruct (nth_error r1 i) as [x|] eqn:E1.
  - destruct (nth_error r2 i) as [y|] eqn:E2.
    + f_equal. specialize (A1 i x E1). specialize (A2 i y E2). clear -A1 A2. revert y A2. unfold is_row in *.
      induction A1 as [|a b l r Hab _ IH]; intros y A2; inversion A2; subst; [reflexivity|]. f_equal; [congruence|]. apply IH. assumption.
    + apply nth_error_None in E2. assert (i < length r1) by (apply nth_error_Some; congruence). lia.
  - apply nth_error_None in E1. symmetry. apply nth_error_None. lia.
Qed.

Lemma mapo_indexed {E} (ts : list (list E)) : forall l, 
  mapo (fun i => match args_at ts i with Some r => Some (i, r) | None => None end) l
  = match mapo (args_at ts) l with Some rs => Some (combine l rs) | None => None end.
Proof.
  induction l as [|i l IH]; [reflexivity|]. cbn [mapo]. rewrite IH. destruct (args_at ts i); [|reflexivity]. destruct (mapo (args_at ts) l); reflexivity.
Qed.
Lemma enumerate_ok {W E} (op : W -> nat -> list E -> W) w ts : exists rows w' us,
  is_rows ts rows /\ enumerate op w ts = Some w' /\
  calls (fun w ir => (op w (fst ir) (snd ir), tt)) w (combine (seq 0 (length rows)) rows) w' us.
Proof.
  destruct (rows_ok ts) as [rows [Hp Hr]]. pose proof (pack_length _ _ _ Hp) as Hl. set (f := fun w ir => (op w (fst ir) (snd ir), tt)).
  exists rows, (fst (effects f w (combine (seq 0 (length rows)) rows))), (snd (effects f w (combine (seq 0 (length rows)) rows))). split; [exact Hr|]. split; [|apply calls_ok].
  unfold enumerate. unfold pack in *. rewrite mapo_indexed, Hp. rewrite Hl. reflexivity.
Qed.

(** ** Predicates *)
Lemma and_fold_false {W E} (f : W -> list E -> W * bool) rows : forall w, and_fold f w false rows = (w, false).
Proof. induction rows as [|r rows IH]; intros w; [reflexivity|]. cbn [and_fold]. apply IH. Qed.
Lemma or_fold_true {W E} (f : W -> list E -> W * bool) rows : forall w, or_fold f w true rows = (w, true).
Proof. induction rows as [|r rows IH]; intros w; [reflexivity|]. cbn [or_fold]. apply IH. Qed.
Lemma until_more {W E} stop (f : W -> list E -> W * bool) w r w1 rows w' found :
  f w r = (w1, negb stop) -> until stop f w1 rows w' found -> until stop f w (r :: rows) w' found.
Proof.
  intros Hf [k [Hk H]]. exists (S k). split; [cbn; lia|]. destruct found.
  - destruct H as [j [-> H]]. exists (S j). split; [reflexivity|]. cbn [firstn repeat app] in *. econstructor; [exact Hf|exact H].
  - destruct H as [-> H]. split; [reflexivity|]. cbn [repeat]. econstructor; [exact Hf|exact H].
Qed.
Lemma and_fold_ok {W E} (f : W -> list E -> W * bool) rows : forall w, until false f w rows (fst (and_fold f w true rows)) (negb (snd (and_fold f w true rows))).
Proof.
  induction rows as [|r rows IH]; intros w; cbn [and_fold].
  - exists 0. split; [cbn; lia|]. cbn. split; [reflexivity|constructor].
  - destruct (f w r) as [w1 [|]] eqn:Ef.
    + eapply until_more; [exact Ef|]. apply IH.
    + rewrite and_fold_false. cbn [fst snd negb]. exists 1. split; [cbn; lia|]. exists 0. split; [reflexivity|]. cbn. econstructor; [exact Ef|constructor].
Qed.
Lemma or_fold_ok {W E} (f : W -> list E -> W * bool) rows : forall w, until true f w rows (fst (or_fold f w false rows)) (snd (or_fold f w false rows)).
Proof.
  induction rows as [|r rows IH]; intros w; cbn [or_fold].
  - exists 0. split; [cbn; lia|]. cbn. split; [reflexivity|constructor].
  - destruct (f w r) as [w1 [|]] eqn:Ef.
    + rewrite or_fold_true. cbn [fst snd]. exists 1. split; [cbn; lia|]. exists 0. split; [reflexivity|]. cbn. econstructor; [exact Ef|constructor].
    + eapply until_more; [exact Ef|]. apply IH.
Qed.
Lemma all_of_ok {W E} (f : W -> list E -> W * bool) w ts : exists rows w' b,
  is_rows ts rows /\ all_of f w ts = Some (w', b) /\ until false f w rows w' (negb b).
Proof.
  destruct (rows_ok ts) as [rows [Hp Hr]]. exists rows, (fst (and_fold f w true rows)), (snd (and_fold f w true rows)). split; [exact Hr|]. split; [|apply and_fold_ok].
  unfold all_of. rewrite Hp. destruct (and_fold f w true rows); reflexivity.
Qed.
Lemma any_of_ok {W E} (f : W -> list E -> W * bool) w ts : exists rows w' b,
  is_rows ts rows /\ any_of f w ts = Some (w', b) /\ until true f w rows w' b.
Proof.
  destruct (rows_ok ts) as [rows [Hp Hr]]. exists rows, (fst (or_fold f w false rows)), (snd (or_fold f w false rows)). split; [exact Hr|]. split; [|apply or_fold_ok].
  unfold any_of. rewrite Hp. destruct (or_fold f w false rows); reflexivity.
Qed.
Lemma none_of_ok {W E} (f : W -> list E -> W * bool) w ts : exists rows w' b,
  is_rows ts rows /\ none_of f w ts = Some (w', b) /\ until true f w rows w' (negb b).
Proof.
  destruct (any_of_ok f w ts) as [rows [w' [b [H1 [H2 H3]]]]]. exists rows, w', (negb b). split; [exact H1|]. unfold none_of. rewrite H2. split; [reflexivity|]. rewrite negb_involutive. exact H3.
Qed.

(** ** filter *)
Section Filter.
Context {E T : Type}.
Variable ty : E -> T.
Variable pred : T -> bool.
Let ok (e : E) := pred (ty e).
Lemma num_matches_from t : forall a, List.fold_left (fun n e => n + (if pred (ty e) then 1 else 0)) t a = a + length (List.filter ok t).
Proof. induction t as [|e t IH]; intros a; cbn [List.fold_left List.filter length]; [lia|]. rewrite IH. unfold ok at 2. destruct (pred (ty e)); cbn [length]; lia. Qed.
Lemma num_matches_ok t : num_matches ty pred t = length (List.filter ok t).
Proof. unfold num_matches. rewrite num_matches_from. reflexivity. Qed.
(** the indices of the matches *)
Fixpoint match_idx (i : nat) (t : list E) : list nat :=
  match t with [] => [] | e :: r => if ok e then i :: match_idx (S i) r else match_idx (S i) r end.
Lemma match_idx_length t : forall i, length (match_idx i t) = length (List.filter ok t).
Proof. induction t as [|e t IH]; intros i; cbn; [reflexivity|]. destruct (ok e); cbn; rewrite IH; reflexivity. Qed.
Lemma copy_indices_ok t : forall pre i, 
  copy_indices ty pred (pre ++ repeat 0 (length (List.filter ok t))) (length pre) i t = Some (pre ++ match_idx i t).
Proof.
  induction t as [|e t IH]; intros pre i; cbn [copy_indices List.filter match_idx]; [reflexivity|]. destruct (ok e) eqn:K; unfold ok in K; rewrite K.
  - cbn [length repeat]. rewrite put_mid. specialize (IH (pre ++ [i]) (S i)). rewrite app_length in IH. cbn [length] in IH. rewrite Nat.add_1_r in IH.
    rewrite <- !app_assoc in IH. cbn [app] in IH. exact IH.
  - apply IH.
Qed.
Lemma filter_ok t : filter ty pred t = Some (List.filter ok t).
Proof.
  unfold filter. rewrite num_matches_ok. pose proof (copy_indices_ok t [] 0) as C. cbn [app length] in C. rewrite C.
  rewrite <- (match_idx_length t 0), pack_via.
  assert (G : forall pre r, t = pre ++ r -> mapo (get t) (match_idx (length pre) r) = Some (List.filter ok r)).
  { intros pre r. revert pre. induction r as [|e r IH]; intros pre Et; [reflexivity|]. cbn [match_idx List.filter].
    specialize (IH (pre ++ [e])). rewrite app_length in IH. cbn [length] in IH. rewrite Nat.add_1_r in IH. rewrite <- app_assoc in IH. specialize (IH Et).
    destruct (ok e); [|exact IH]. cbn [mapo]. rewrite IH. unfold get. rewrite Et, nth_mid. reflexivity. }
  exact (G [] t eq_refl).
Qed.
End Filter.

(** ** get by type *)
Lemma get_by_ok {E T} (ty : E -> T) same keys t k e :
  get_by ty same keys t k = Some e <->
  exists l r, t = l ++ e :: r /\ answers ty same keys k e = true /\ (forall x, In x (l ++ r) -> answers ty same keys k x = false).
Proof.
  unfold get_by. split.
  - intros H. destruct (List.filter (answers ty same keys k) t) as [|x [|]] eqn:F; try discriminate. injection H as ->.
    assert (Hin : In e (List.filter (answers ty same keys k) t)) by (rewrite F; left; reflexivity). apply filter_In in Hin. destruct Hin as [Hin Ha].
    apply in_split in Hin. destruct Hin as [l [r ->]]. exists l, r. split; [reflexivity|]. split; [exact Ha|].
    rewrite filter_app in F. cbn [List.filter] in F. rewrite Ha in F. apply (f_equal (@length E)) in F as FL. rewrite app_length in FL. cbn [length] in FL.
    intros x Hx. destruct (answers ty same keys k x) eqn:Ex; [|reflexivity]. apply in_app_or in Hx.
    assert (In x (List.filter (answers ty same keys k) l) \/ In x (List.filter (answers ty same keys k) r)) as Hf by (destruct Hx; [left|right]; apply filter_In; auto).
    destruct (List.filter (answers ty same keys k) l), (List.filter (answers ty same keys k) r); cbn [length] in FL; try lia; destruct Hf as [[]|[]].
  - intros [l [r [-> [Ha H]]]]. rewrite filter_app. cbn [List.filter]. rewrite Ha.
    assert (Z : forall l', (forall x, In x l' -> answers ty same keys k x = false) -> List.filter (answers ty same keys k) l' = []).
    { induction l' as [|x l' IH]; intros Hl'; [reflexivity|]. cbn [List.filter]. rewrite Hl' by (left; reflexivity). apply IH. intros; apply Hl'; right; assumption. }
    rewrite !Z by (intros; apply H, in_or_app; auto). reflexivity.
Qed.
Lemma contains_ok {E T} (ty : E -> T) same keys t k :
  contains_type ty same keys t k = existsb (answers ty same keys k) t.
Proof.
  unfold contains_type, answers. induction t as [|e t IH]; [reflexivity|]. cbn [existsb] in *. rewrite <- IH.
  destruct (existsb (same k) (keys e)), (same k (ty e)), (existsb (fun e0 => existsb (same k) (keys e0)) t), (existsb (fun e0 => same k (ty e0)) t); reflexivity.
Qed.
