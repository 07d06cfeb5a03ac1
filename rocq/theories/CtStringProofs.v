(** Proofs about ct_string. *)
From Verif Require Import Base BaseLemmas CtStringModel CtStringSpec.
Open Scope N_scope.

Lemma view_app l c : view (l ++ [c]) = l.
Proof. unfold view. rewrite app_length. cbn [length]. replace (length l + 1 - 1)%nat with (length l) by lia. rewrite firstn_app, Nat.sub_diag, firstn_all. cbn. apply app_nil_r. Qed.
Lemma good_app s : good s -> exists c, s = view s ++ [c].
Proof. intros H. destruct (exists_last H) as (l & c & ->). exists c. rewrite view_app. reflexivity. Qed.
Lemma size_view s : size s = len (view s).
Proof.
  destruct s as [|x s]; [reflexivity|]. unfold size, view, len. rewrite firstn_length. cbn [length]. lia.
Qed.
Lemma wr_app_mid (a : list chr) x y b : wr (a ++ x :: b) (len a) y = Some (a ++ y :: b).
Proof.
  unfold wr. rewrite len_app, len_cons. destruct (N.ltb_spec (len a) (len a + (len b + 1))); [|lia]. f_equal.
  unfold len at 1. rewrite Nat2N.id. apply set_nth_app_len.
Qed.
Lemma copy_at_ok src : forall a b, copy_at (a ++ repeat 0 (length src) ++ b) (len a) src = Some (a ++ src ++ b).
Proof.
  induction src as [|c src IH]; intros a b; cbn [copy_at length repeat app]; [reflexivity|]. rewrite wr_app_mid. cbv beta iota.
  replace (len a + 1) with (len (a ++ [c])) by (rewrite len_app; reflexivity).
  specialize (IH (a ++ [c]) b). rewrite <- !app_assoc in IH. exact IH.
Qed.
Lemma repeat_split {A} (x : A) a b : repeat x (a + b) = repeat x a ++ repeat x b.
Proof. apply repeat_app. Qed.
Lemma of_ptr_ok p sz : sz <= len p -> of_ptr (sz + 1) p sz = Some (firstn (N.to_nat sz) p ++ [0]).
Proof.
  intros H. unfold of_ptr. destruct (N.leb_spec sz (len p)); [|lia]. unfold len in *.
  replace (N.to_nat (sz + 1)) with (length (firstn (N.to_nat sz) p) + 1)%nat by (rewrite firstn_length; lia).
  rewrite repeat_split. exact (copy_at_ok (firstn (N.to_nat sz) p) [] [0]).
Qed.
Theorem concat_ok a b : good a -> good b -> concat a b = Some ((view a ++ view b) ++ [0]).
Proof.
  intros Ha Hb. destruct (good_app a Ha) as (ca & Ea), (good_app b Hb) as (cb & Eb).
  unfold concat. assert (La : len a = len (view a) + 1) by (rewrite Ea at 1; rewrite len_app; reflexivity).
    assert (Lb : len b = len (view b) + 1) by (rewrite Eb at 1; rewrite len_app; reflexivity). rewrite La, Lb.
    replace (N.to_nat (len (view a) + 1 + (len (view b) + 1) - 1)) with (length (view a) + (length (view b) + 1))%nat by (unfold len; lia).
    rewrite !repeat_split. pose proof (copy_at_ok (view a) [] (repeat 0 (length (view b)) ++ repeat 0 1)) as C1. cbn [app] in C1. change (len (@nil N)) with 0 in C1. rewrite C1. cbv beta iota.
    replace (len (view a) + 1 - 1) with (len (view a)) by lia. rewrite (copy_at_ok (view b) (view a) (repeat 0 1)). rewrite app_assoc. reflexivity.
Qed.
Lemma chars_eq_ok a : forall b, chars_eq a b = true <-> a = b.
Proof.
  induction a as [|x a IH]; intros [|y b]; cbn [chars_eq]; try (split; [discriminate|discriminate]); [split; reflexivity|].
  rewrite andb_true_iff, N.eqb_eq, IH. split; [intros (-> & ->); reflexivity|intros H; inversion H; auto].
Qed.
Lemma find_in_absent c s : ~ In c s -> find_in c s = len s.
Proof.
  induction s as [|x s IH]; intros H; cbn [find_in]; [reflexivity|]. destruct (N.eqb_spec x c) as [E|E]; [exfalso; apply H; left; exact E|].
  rewrite IH by (intros Hi; apply H; right; exact Hi). rewrite len_cons. lia.
Qed.
Lemma find_in_first c a b : ~ In c a -> find_in c (a ++ c :: b) = len a.
Proof.
  induction a as [|x a IH]; intros H; cbn [find_in app].
  - rewrite N.eqb_refl. reflexivity.
  - destruct (N.eqb_spec x c) as [E|E]; [exfalso; apply H; left; exact E|]. rewrite IH by (intros Hi; apply H; right; exact Hi). rewrite len_cons. lia.
Qed.
Theorem split_absent c s : ~ In c s -> split c s = Some (s, [0]).
Proof. intros H. unfold split. rewrite find_in_absent by exact H. rewrite N.eqb_refl. reflexivity. Qed.
Theorem split_present c a b e : ~ In c a -> split c (a ++ c :: b ++ [e]) = Some (a ++ [0], b ++ [0]).
Proof.
  intros H. unfold split. rewrite find_in_first by exact H.
  assert (L : len (a ++ c :: b ++ [e]) = len a + (len b + 2)) by (rewrite len_app, len_cons, len_app; change (len [e]) with 1; lia).
  unfold size. rewrite L. destruct (N.eqb_spec (len a) (len a + (len b + 2))); [lia|]. destruct (N.ltb_spec (len a + (len b + 2) - 1) (len a + 1)); [lia|].
  rewrite of_ptr_ok by (rewrite L; lia). replace (len a + (len b + 2) - 1 - len a) with (len b + 1) by lia.
  replace (len b + 1 - 1) with (len b) by lia.
  replace (N.to_nat (len a)) with (length a) by (unfold len; lia). rewrite firstn_app, Nat.sub_diag, firstn_all. cbn [firstn]. rewrite app_nil_r.
  replace (skipn (N.to_nat (len a + 1)) (a ++ c :: b ++ [e])) with (b ++ [e]).
  2:{ replace (N.to_nat (len a + 1)) with (length (a ++ [c])) by (rewrite app_length; unfold len; cbn [length]; lia).
      replace (a ++ c :: b ++ [e]) with ((a ++ [c]) ++ b ++ [e]) by (rewrite <- app_assoc; reflexivity).
      rewrite skipn_app, skipn_all, Nat.sub_diag. reflexivity. }
  rewrite of_ptr_ok by (rewrite len_app; lia). replace (N.to_nat (len b)) with (length b) by (unfold len; lia).
  rewrite firstn_app, Nat.sub_diag, firstn_all. cbn [firstn]. rewrite app_nil_r. reflexivity.
Qed.
(** The terminator itself is found. *)
Theorem split_terminator c a : ~ In c a -> split c (a ++ [c]) = None.
Proof.
  intros H. unfold split. rewrite find_in_first by exact H. unfold size. rewrite len_app. change (len [c]) with 1.
  destruct (N.eqb_spec (len a) (len a + 1)); [lia|]. destruct (N.ltb_spec (len a + 1 - 1) (len a + 1)); [reflexivity|lia].
Qed.
Lemma in_split_first c (s : list chr) : In c s -> exists a b, s = a ++ c :: b /\ ~ In c a.
Proof.
  induction s as [|x s IH]; intros H; [destruct H|]. destruct (N.eq_dec x c) as [->|E].
  - exists [], s. auto.
  - destruct H as [H|H]; [contradiction|]. destruct (IH H) as (a & b & -> & Hn). exists (x :: a), b. split; [reflexivity|]. intros [Hi|Hi]; contradiction.
Qed.
Lemma gets_ok s : forall k, (k <= length s)%nat -> gets s (map N.of_nat (seq 0 k)) = Some (firstn k s).
Proof.
  assert (G : forall k a b, s = a ++ b -> (k <= length b)%nat -> gets s (map N.of_nat (seq (length a) k)) = Some (firstn k b)).
  { induction k as [|k IH]; intros a b E Hk; cbn [seq map gets firstn]; [reflexivity|]. destruct b as [|c b]; [cbn in Hk; lia|].
    rewrite rd_nth_error, Nat2N.id, E, nth_error_app2, Nat.sub_diag by lia. cbn [nth_error]. rewrite <- E.
    specialize (IH (a ++ [c]) b). rewrite app_length, <- app_assoc in IH. cbn [length app] in IH. replace (length a + 1)%nat with (S (length a)) in IH by lia.
    rewrite IH; [reflexivity|exact E|cbn in Hk; lia]. }
  intros k Hk. exact (G k [] s eq_refl Hk).
Qed.
Theorem to_type_ok s : good s -> to_type s = Some (view s).
Proof.
  intros H. unfold to_type. rewrite gets_ok; [|unfold size, len; lia]. f_equal. unfold view. f_equal. unfold size, len. lia.
Qed.
Theorem reversed_ok s : good s -> reversed s = rev (view s).
Proof. intros H. destruct (good_app s H) as (c & E). unfold reversed. rewrite E at 1. rewrite rev_app_distr. reflexivity. Qed.
