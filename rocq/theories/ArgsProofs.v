From Verif Require Import Base BaseLemmas TupleModel TupleSpec TupleProofs ArgsModel.

Section Proofs.
Context {W A R : Type}.
Variable f : W -> list A -> W * R.

Lemma nth_skip (l : list A) b i : nth_error (skipn b l) i = nth_error l (b + i).
Proof. revert b. induction l as [|x l IH]; intros [|b]; try reflexivity; cbn [skipn]; [destruct i; reflexivity|]. rewrite IH. reflexivity. Qed.
Lemma nth_first (l : list A) n i : i < n -> nth_error (firstn n l) i = nth_error l i.
Proof. revert n i. induction l as [|x l IH]; intros [|n] i H; try lia; [destruct i; reflexivity|]. destruct i as [|i]; [reflexivity|]. cbn [firstn nth_error]. apply IH. lia. Qed.
Lemma exec_ok c (t : list A) b : b + c <= length t -> exec c t b = Some (firstn c (skipn b t)).
Proof.
  intros H. unfold exec. apply pack_ok; [rewrite firstn_length, skipn_length; lia|]. intros i Hi. rewrite nth_first, nth_skip by exact Hi. reflexivity.
Qed.
Lemma rows_cut c : forall r (pre t : list A), c > 0 -> length t = r * c -> exists bs,
  mapo (fun k => exec c (pre ++ t) (length pre + k * c - 0)) (seq 0 r) = Some bs /\ concat bs = t /\ Forall (fun b => length b = c) bs /\ length bs = r.
Proof.
  induction r as [|r IH]; intros pre t Hc Hl.
  - destruct t; [|cbn in Hl; lia]. exists []. repeat split. constructor.
  - destruct (IH (pre ++ firstn c t) (skipn c t) Hc) as [bs [H1 [H2 [H3 H4]]]]; [rewrite skipn_length; lia|].
    exists (firstn c t :: bs). assert (Hf : length (firstn c t) = c) by (rewrite firstn_length; lia). split; [|split; [|split]].
    + cbn [seq mapo]. rewrite exec_ok by (rewrite app_length; lia). 
      assert (Es : skipn (length pre + 0 * c - 0) (pre ++ t) = t) by (rewrite Nat.mul_0_l, Nat.add_0_r, Nat.sub_0_r, skipn_app, skipn_all, Nat.sub_diag; reflexivity). rewrite Es.
      rewrite <- seq_shift, mapo_map. rewrite <- app_assoc, firstn_skipn in H1.
      assert (E : mapo (fun k => exec c (pre ++ t) (length pre + S k * c - 0)) (seq 0 r) = Some bs); [|rewrite E; reflexivity].
      rewrite <- H1. apply mapo_ext. intros k _. f_equal. rewrite app_length, Hf. lia.
    + cbn [concat]. rewrite H2. apply firstn_skipn.
    + constructor; assumption.
    + cbn. lia.
Qed.
Lemma batches_ok n arity w args : (if n =? 0 then arity else n) > 0 -> length args mod (if n =? 0 then arity else n) = 0 ->
  exists bs w' rs, for_each_n_args f n arity w args = Some w' /\ concat bs = args /\ Forall (fun b => length b = (if n =? 0 then arity else n)) bs /\ calls f w bs w' rs.
Proof.
  set (c := if n =? 0 then arity else n). intros Hc Hm. unfold for_each_n_args. fold c. destruct (Nat.eqb_spec c 0); [lia|]. rewrite Hm. cbn [Nat.eqb].
  destruct (rows_cut c (length args / c) [] args Hc) as [bs [H1 [H2 [H3 H4]]]]. { pose proof (Nat.div_mod_eq (length args) c). lia. }
  unfold apply_rows, pack. cbn [app length Nat.add] in H1.
  assert (E : mapo (fun r => exec c args (r * c)) (seq 0 (length args / c)) = Some bs). { rewrite <- H1. apply mapo_ext. intros k _. f_equal. lia. }
  rewrite E. exists bs, (fst (effects f w bs)), (snd (effects f w bs)). split; [reflexivity|]. split; [exact H2|]. split; [exact H3|]. apply calls_ok.
Qed.
Lemma batches_bad n arity w args : (if n =? 0 then arity else n) = 0 \/ length args mod (if n =? 0 then arity else n) <> 0 -> for_each_n_args f n arity w args = None.
Proof.
  unfold for_each_n_args. set (c := if n =? 0 then arity else n). intros [->|H]; [reflexivity|]. destruct (Nat.eqb_spec c 0); [reflexivity|]. destruct (Nat.eqb_spec (length args mod c) 0); [contradiction|reflexivity].
Qed.
Lemma app_same_length (a : list A) : forall b c d, length a = length b -> a ++ c = b ++ d -> a = b /\ c = d.
Proof. induction a as [|x a IH]; intros [|y b] c d Hl E; try discriminate Hl; [split; [reflexivity|exact E]|]. cbn in E. injection E as -> E. injection Hl as Hl. destruct (IH b c d Hl E) as [-> ->]. split; reflexivity. Qed.
Lemma cuts_unique c (bs : list (list A)) : forall ds, c > 0 -> concat bs = concat ds -> Forall (fun b => length b = c) bs -> Forall (fun b => length b = c) ds -> bs = ds.
Proof.
  induction bs as [|b bs IH]; intros [|d ds] Hc E F G; [reflexivity| | |].
  - inversion G; subst. cbn in E. apply (f_equal (@length A)) in E. rewrite app_length in E. cbn in E. lia.
  - inversion F; subst. cbn in E. apply (f_equal (@length A)) in E. rewrite app_length in E. cbn in E. lia.
  - inversion F as [|? ? F1 F2]; subst. inversion G as [|? ? G1 G2]; subst. cbn [concat] in E.
    assert (b = d /\ concat bs = concat ds) as [-> E'] by (apply app_same_length; [congruence|exact E]). f_equal. apply IH; assumption.
Qed.
Lemma bind_front_ok bound w args : bind_front f bound w args = Some (f w (bound ++ args)).
Proof. unfold bind_front. rewrite pack_get. reflexivity. Qed.
Lemma bind_back_ok bound w args : bind_back f bound w args = Some (f w (args ++ bound)).
Proof. unfold bind_back. rewrite pack_get. reflexivity. Qed.
End Proofs.
