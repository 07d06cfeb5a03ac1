From Verif Require Import Base BaseLemmas TupleSpec TypeMapModel.

Section Proofs.
Context {K V : Type}.
Variable same_k : K -> K -> bool.
Variable same_v : V -> V -> bool.
Variable Dk : decides same_k.
Variable Dv : decides same_v.

Lemma no_repeat_ok (m : list (K * V)) : no_repeat same_k same_v m = true <-> NoDup m.
Proof.
  induction m as [|[k v] m IH]; cbn [no_repeat]; [split; [constructor|reflexivity]|]. rewrite andb_true_iff, negb_true_iff, IH, NoDup_cons_iff.
  assert (E : existsb (fun q => same_k (fst (k, v)) (fst q) && same_v (snd (k, v)) (snd q)) m = false <-> ~ In (k, v) m); [|tauto].
  rewrite <- not_true_iff_false, existsb_exists. split; intros H C; apply H.
  - exists (k, v). split; [exact C|]. cbn. apply andb_true_iff. split; [apply Dk|apply Dv]; reflexivity.
  - destruct C as [[k' v'] [C1 C2]]. cbn in C2. apply andb_true_iff in C2. destruct C2 as [A B]. apply Dk in A. apply Dv in B. subst. exact C1.
Qed.
Lemma filter_one {A B} (f : A -> B) (same : B -> B -> bool) (D : decides same) (m : list A) a : NoDup (map f m) -> In a m -> List.filter (fun p => same (f a) (f p)) m = [a].
Proof.
  induction m as [|p m IH]; intros N H; [destruct H|]. cbn [map] in N. apply NoDup_cons_iff in N. destruct N as [N1 N2]. cbn [List.filter]. destruct H as [->|H].
  - rewrite (proj2 (D _ _) eq_refl). f_equal. clear IH N2. induction m as [|q m IHm]; [reflexivity|]. cbn [List.filter]. destruct (same (f a) (f q)) eqn:E.
    + apply D in E. destruct N1. left. congruence.
    + apply IHm. intros C. apply N1. right. exact C.
  - destruct (same (f a) (f p)) eqn:E; [|apply IH; assumption]. apply D in E. destruct N1. rewrite <- E. apply in_map. exact H.
Qed.
Lemma filter_none {A B} (f : A -> B) (same : B -> B -> bool) (D : decides same) (m : list A) b : ~ In b (map f m) -> List.filter (fun p => same b (f p)) m = [].
Proof.
  induction m as [|p m IH]; intros H; [reflexivity|]. cbn [List.filter]. destruct (same b (f p)) eqn:E; [apply D in E; destruct H; left; congruence|]. apply IH. intros C. apply H. right. exact C.
Qed.
Lemma nodup_of {B} (f : K * V -> B) m : NoDup (map f m) -> NoDup m.
Proof. apply NoDup_map_inv. Qed.
Lemma lookup_found m k v d : NoDup (map fst m) -> In (k, v) m -> lookup same_k same_v m k d = Some v.
Proof.
  intros N H. unfold lookup. rewrite (proj2 (no_repeat_ok m) (nodup_of fst m N)). rewrite (filter_one fst same_k Dk m (k, v) N H : List.filter (fun p => same_k k (fst p)) m = _). reflexivity.
Qed.
Lemma lookup_missing m k d : NoDup m -> ~ In k (map fst m) -> lookup same_k same_v m k d = Some d.
Proof. intros N H. unfold lookup. rewrite (proj2 (no_repeat_ok m) N), (filter_none fst same_k Dk m k H). reflexivity. Qed.
Lemma reverse_found m k v d : NoDup (map snd m) -> In (k, v) m -> reverse_lookup same_k same_v m v d = Some k.
Proof.
  intros N H. unfold reverse_lookup. rewrite (proj2 (no_repeat_ok m) (nodup_of snd m N)). rewrite (filter_one snd same_v Dv m (k, v) N H : List.filter (fun p => same_v v (snd p)) m = _). reflexivity.
Qed.
Lemma reverse_missing m v d : NoDup m -> ~ In v (map snd m) -> reverse_lookup same_k same_v m v d = Some d.
Proof. intros N H. unfold reverse_lookup. rewrite (proj2 (no_repeat_ok m) N), (filter_none snd same_v Dv m v H). reflexivity. Qed.
Lemma lookup_two m k v1 v2 d : NoDup m -> In (k, v1) m -> In (k, v2) m -> v1 <> v2 -> lookup same_k same_v m k d = Some d.
Proof.
  intros N H1 H2 Hne. unfold lookup. rewrite (proj2 (no_repeat_ok m) N). set (l := List.filter _ m).
  assert (A1 : In (k, v1) l) by (apply filter_In; split; [exact H1|apply Dk; reflexivity]). assert (A2 : In (k, v2) l) by (apply filter_In; split; [exact H2|apply Dk; reflexivity]).
  destruct l as [|a [|b l']]; [destruct A1| |reflexivity]. destruct A1 as [->|[]]. destruct A2 as [A2|[]]. congruence.
Qed.
Lemma lookup_repeated m k d : ~ NoDup m -> lookup same_k same_v m k d = None.
Proof. intros N. unfold lookup. destruct (no_repeat same_k same_v m) eqn:E; [apply no_repeat_ok in E; contradiction|reflexivity]. Qed.
Lemma lookup_v_ok {X} void (value_of : V -> option X) m k v d :
  (NoDup (map fst m) -> In (k, v) m -> v <> void -> lookup_v same_k same_v void value_of m k d = value_of v) /\
  (NoDup (map fst m) -> In (k, void) m -> lookup_v same_k same_v void value_of m k d = Some d) /\
  (NoDup m -> ~ In k (map fst m) -> lookup_v same_k same_v void value_of m k d = Some d).
Proof.
  unfold lookup_v. split; [|split].
  - intros N H Hne. rewrite (lookup_found m k v void N H). destruct (same_v v void) eqn:E; [apply Dv in E; contradiction|reflexivity].
  - intros N H. rewrite (lookup_found m k void void N H), (proj2 (Dv _ _) eq_refl). reflexivity.
  - intros N H. rewrite (lookup_missing m k void N H), (proj2 (Dv _ _) eq_refl). reflexivity.
Qed.
End Proofs.
