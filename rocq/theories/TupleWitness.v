(** A sorting function that meets std::sort's contract: the theorems' hypotheses can be met. *)
From Verif Require Import Base BaseLemmas TupleModel TupleSpec TupleProofs TupleProofs2.
From Coq Require Import Permutation.

Fixpoint name_ltb (a b : list N) : bool :=
  match a, b with
  | _, [] => false
  | [], _ :: _ => true
  | x :: a', y :: b' => (x <? y)%N || ((x =? y)%N && name_ltb a' b')
  end.
Fixpoint insert (p : list N * nat) (l : list (list N * nat)) : list (list N * nat) :=
  match l with [] => [p] | q :: r => if name_ltb (fst q) (fst p) then q :: insert p r else p :: l end.
Definition insertion_sort (l : list (list N * nat)) : list (list N * nat) := List.fold_right insert [] l.

Lemma name_ltb_ok a : forall b, name_ltb a b = true <-> name_lt a b.
Proof.
  induction a as [|x a IH]; intros [|y b]; cbn [name_ltb name_lt]; try (split; [discriminate|tauto]); [tauto|].
  rewrite orb_true_iff, andb_true_iff, N.ltb_lt, N.eqb_eq, IH. tauto.
Qed.
Lemma insert_perm p l : Permutation (p :: l) (insert p l).
Proof.
  induction l as [|q l IH]; cbn [insert]; [reflexivity|]. destruct (name_ltb (fst q) (fst p)); [|reflexivity].
  etransitivity; [apply perm_swap|]. constructor. exact IH.
Qed.
Lemma ordered_cons {X} (nm : X -> list N) x l : (forall y, In y l -> ~ name_lt (nm y) (nm x)) -> ordered nm l -> ordered nm (x :: l).
Proof.
  intros H O [|i] [|j] a b Hij Ha Hb; try lia; cbn [nth_error] in *.
  - injection Ha as <-. apply H. eapply nth_error_In. exact Hb.
  - apply (O i j); [lia|assumption|assumption].
Qed.
Lemma ordered_inv {X} (nm : X -> list N) x l : ordered nm (x :: l) -> (forall y, In y l -> ~ name_lt (nm y) (nm x)) /\ ordered nm l.
Proof.
  intros O. split.
  - intros y Hy. apply In_nth_error in Hy. destruct Hy as [j Hj]. apply (O 0 (S j)); [lia|reflexivity|exact Hj].
  - intros i j a b Hij Ha Hb. apply (O (S i) (S j)); [lia|exact Ha|exact Hb].
Qed.
Lemma insert_ordered p l : ordered fst l -> ordered fst (insert p l).
Proof.
  induction l as [|q l IH]; intros O; cbn [insert].
  - apply ordered_cons; [intros y []|]. exact O.
  - destruct (name_ltb (fst q) (fst p)) eqn:E.
    + apply ordered_inv in O. destruct O as [O1 O2]. apply ordered_cons; [|apply IH; exact O2].
      intros y Hy. apply (Permutation_in _ (Permutation_sym (insert_perm p l))) in Hy. destruct Hy as [<-|Hy]; [|apply O1; exact Hy].
      apply name_ltb_ok in E. intros E'. apply (name_lt_irrefl (fst q)). eapply name_lt_trans; eassumption.
    + assert (Hq : ~ name_lt (fst q) (fst p)) by (rewrite <- name_ltb_ok; congruence). apply ordered_cons; [|exact O].
      apply ordered_inv in O. destruct O as [O1 O2]. intros y [<-|Hy]; [exact Hq|]. intros L. 
      destruct (name_lt_total (fst y) (fst q)) as [L'|[L'|L']].
      * exact (O1 y Hy L').
      * rewrite L' in L. exact (Hq L).
      * apply Hq. eapply name_lt_trans; eassumption.
Qed.
Lemma insertion_sorts : sorts insertion_sort.
Proof.
  intros a. induction a as [|p a [IH1 IH2]]; cbn [insertion_sort List.fold_right].
  - split; [constructor|]. intros [|i] j x y _ H; discriminate.
  - fold (insertion_sort a). split; [|apply insert_ordered; exact IH2].
    etransitivity; [|apply insert_perm]. constructor. exact IH1.
Qed.
