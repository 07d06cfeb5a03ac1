(** Proofs about apply and join. *)
From Verif Require Import Base BaseLemmas TupleModel TupleSpec TupleProofs MoveModel MoveSpec MoveProofs MoveProofs2 MoveProofs4 ApplyJoinModel ApplyJoinSpec.
From Coq Require Import Permutation.

Section Apply.
Context {V T W : Type}.
Notation store := (store V).
Notation ref := (ref T).
Variable copies : T -> bool.
Implicit Types (f : callable V T W) (m : store) (rs : list ref).

Lemma invoke_ok f w m rs s r : unaliased rs -> present m rs -> invoke f (w, m) rs = (s, r) -> called_once f w m rs (fst s) r (snd s).
Proof.
  intros U P E. apply call_parts in E as (xs & E & M). exists xs. split; [exact E|]. rewrite M. cbn [fst snd]. split.
  - intros i j row q ys x Hr Hq Hc Hy Hx. destruct i as [|[|i]]; try discriminate. injection Hr as <-. injection Hy as <-. now apply (write_all_written rs m xs j).
  - intros l H. apply write_all_kept. intros q I. apply H. cbn [concat]. now rewrite app_nil_r.
Qed.
Lemma all_ok ts : concat (map (@elements_of T) ts) = all_elements ts.
Proof. unfold all_elements. rewrite flat_map_concat_map. f_equal. Qed.
Lemma apply_tuples_ok f s ts : apply_tuples copies f s ts = return_auto copies (invoke f s (concat ts)).
Proof. unfold apply_tuples. now rewrite apply_ok. Qed.
Lemma apply_one_ok f s t : apply_any copies f s [StdxTuple t] = Some (invoke f s t).
Proof. cbn [apply_any]. unfold apply_tuple. apply apply1_ok. Qed.
Lemma apply_any_ok f s ts : ~ one_tuple ts -> apply_any copies f s ts = return_auto copies (invoke f s (all_elements ts)).
Proof.
  intros N. unfold apply_any. destruct ts as [|[t|t] [|]]; try (rewrite apply_tuples_ok, all_ok; reflexivity). exfalso. apply N. now exists t.
Qed.

Variable order : nat -> list nat.
Hypothesis Ho : any_order order.
Lemma pieces_ok m rs : exclusive rs -> exists m', unordered order initialize m rs = Some (m', values_of m rs) /\ left_behind m rs m'.
Proof.
  intros X. destruct (unordered_ok order Ho initialize (fun r => look m (loc r)) m rs) as (args & P & E).
  - intros args P. apply (build_values m args). now apply (exclusive_perm rs).
  - exists (fst (effects initialize m args)). split; [exact E|].
    destruct (build_store m args) as [G K]. split; intros l H.
    + apply G. now apply (given_up_perm rs).
    + apply K. intros Q. apply H. now apply (given_up_perm args); [apply Permutation_sym|].
Qed.
Lemma joins_go (op : operation V W) xs : forall w a, exists w' b, List.fold_left (fun s x => op (fst s) (Rvalue, snd s) (Rvalue, x)) xs (w, a) = (w', b) /\ joins op w a xs w' b.
Proof.
  induction xs as [|x xs IH]; intros w a; [exists w, a; split; [reflexivity|constructor]|]. cbn [List.fold_left fst snd].
  destruct (op w (Rvalue, a) (Rvalue, x)) as [w1 b] eqn:E. destruct (IH w1 b) as (w' & c & F & J). exists w', c. split; [exact F|]. econstructor; eassumption.
Qed.
Lemma joins_fun (op : operation V W) xs : forall w a w1 b w2 c, joins op w a xs w1 b -> joins op w a xs w2 c -> w1 = w2 /\ b = c.
Proof.
  induction xs as [|x xs IH]; intros w a w1 b w2 c H K; inversion H; inversion K; subst; [now split|].
  match goal with A : op w _ _ = (?p, ?q), B : op w _ _ = (?r, ?s) |- _ => rewrite A in B; injection B as <- <- end. eapply IH; eassumption.
Qed.
Lemma keep_true rs : obtainable copies rs -> forallb (may_keep copies) rs = true.
Proof. intros H. apply forallb_forall. intros r I. unfold may_keep. destruct (H r I) as [->| ->]; [reflexivity|now destruct (cat r)]. Qed.
Lemma join_model_ok (op : operation V W) w xs x : exists w' b, TupleModel.join (fun w a b => op w (Rvalue, a) (Rvalue, b)) w (x :: xs) = Some (w', b) /\ joins op w x xs w' b.
Proof.
  unfold TupleModel.join. rewrite pack_get. cbn iota beta. destruct (joins_go op xs w x) as (w' & b & E & J). exists w', b. split; [|exact J].
  f_equal. rewrite <- E. clear. generalize (w, x). induction xs as [|y xs IH]; intros s; [reflexivity|]. cbn. apply IH.
Qed.
Lemma join_ok (op : operation V W) w m r rs : exclusive (r :: rs) -> obtainable copies (r :: rs) ->
  exists w' m' b, join_m copies order op (w, m) (r :: rs) = Some ((w', m'), b) /\ joins op w (look m (loc r)) (values_of m rs) w' b /\ left_behind m (r :: rs) m'.
Proof.
  intros X O. unfold join_m. rewrite (keep_true _ O). destruct (pieces_ok m (r :: rs) X) as (m' & E & L). cbn [snd fst]. rewrite E. cbn iota beta. cbn [snd fst values_of map].
  destruct (join_model_ok op w (values_of m rs) (look m (loc r))) as (w' & b & J & K). exists w', m', b. unfold values_of in J. rewrite J. cbn iota beta. split; [reflexivity|]. split; [exact K|exact L].
Qed.
Lemma join_refused (op : operation V W) s rs : (exists r, In r rs /\ cat r <> Rvalue /\ copies (of_type r) = false) -> join_m copies order op s rs = None.
Proof.
  intros (r & I & C & K). unfold join_m. destruct (forallb (may_keep copies) rs) eqn:F; [|reflexivity]. rewrite forallb_forall in F. specialize (F r I).
  unfold may_keep in F. destruct (cat r); congruence.
Qed.
(** fold_left with the same operation. *)
Lemma folds_joins (op : operation V W) m rs : category_blind op -> forall w a w' b xs, folds (leaving op) w a (map (seen m) rs) w' b xs -> joins op w a (values_of m rs) w' b /\ xs = values_of m rs.
Proof.
  intros B. induction rs as [|r rs IH]; intros w a w' b xs F; inversion F; subst; [now split; [constructor|]|].
  match goal with H : leaving op _ _ _ = _ |- _ => unfold leaving in H; injection H as <- <- <- end.
  match goal with H : folds _ _ _ _ _ _ _ |- _ => apply IH in H as [J ->] end. split; [|reflexivity]. cbn [values_of map]. econstructor; [|exact J].
  rewrite (B _ Rvalue Rvalue Rvalue (cat r)). apply surjective_pairing.
Qed.
Lemma noted_joins xs : forall w (a : cell V) w' b, joins noting w a xs w' b -> w' = w ++ repeat Rvalue (length xs) /\ b = a.
Proof.
  induction xs as [|x xs IH]; intros w a w' b J; inversion J; subst; [now rewrite app_nil_r|].
  match goal with H : noting _ _ _ = _ |- _ => unfold noting in H; cbn [fst snd] in H; injection H as <- <- end.
  match goal with H : joins _ _ _ _ _ _ |- _ => apply IH in H as [-> ->] end. split; [|reflexivity]. now rewrite <- app_assoc.
Qed.
Lemma noted_folds m rs : forall w (a : cell V) w' b xs, folds (leaving noting) w a (map (seen m) rs) w' b xs -> w' = w ++ map cat rs /\ b = a.
Proof.
  induction rs as [|r rs IH]; intros w a w' b xs F; inversion F; subst; [now rewrite app_nil_r|].
  match goal with H : leaving noting _ _ _ = _ |- _ => unfold leaving, noting, seen in H; cbn [fst snd] in H; injection H as <- <- <- end.
  match goal with H : folds _ _ _ _ _ _ _ |- _ => apply IH in H as [-> ->] end. split; [|reflexivity]. now rewrite <- app_assoc.
Qed.
End Apply.
