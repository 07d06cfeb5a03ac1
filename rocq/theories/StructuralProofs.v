(** Proofs about is_structural_v. *)
From Verif Require Import Base StructuralModel StructuralSpec.

Lemma type_eqb_eq a : forall b, type_eqb a b = true <-> a = b.
Proof.
  induction a as [s|a IH|a IH|c]; intros [s'|b|b|c']; cbn; try (split; congruence);
    try (rewrite Nat.eqb_eq; split; congruence).
  - fold (type_eqb a b). rewrite IH. split; congruence.
  - fold (type_eqb a b). rewrite IH. split; congruence.
Qed.
Lemma filter_none {A} (f : A -> bool) l : Forall (fun x => f x = false) l -> filter f l = [].
Proof. induction 1 as [|x l H _ IH]; [reflexivity|]. cbn. now rewrite H. Qed.
Lemma filter_only {A} (f : A -> bool) a x b : f x = true -> Forall (fun y => f y = false) (a ++ b) -> filter f (a ++ x :: b) = [x].
Proof.
  intros Hx H. apply Forall_app in H as [Ha Hb]. rewrite filter_app. cbn. rewrite Hx, (filter_none f a Ha), (filter_none f b Hb). reflexivity.
Qed.
Lemma viable_count t n k : viable t n k = true -> takes_count n k.
Proof.
  unfold viable, takes_count. intros H. apply andb_prop in H as [H _]. apply andb_prop in H as [H1 H2].
  apply Nat.leb_le in H1, H2. lia.
Qed.
Lemma viable_zero t k : takes_count 0 k -> viable t 0 k = true.
Proof. unfold viable, takes_count. intros [H1 H2]. cbn [firstn forallb]. rewrite andb_true_r. apply andb_true_intro. split; apply Nat.leb_le; lia. Qed.
Lemma viable_copies c n k : copies c k -> viable (Class c) n k = false.
Proof.
  intros [H1 H2]. unfold viable. rewrite H1, H2. cbn [length]. destruct n as [|[|n]]; cbn; try reflexivity.
  now rewrite Nat.eqb_refl.
Qed.
Lemma search_from classes c n more m k : n <= m <= n + more ->
  (forall i, n <= i < m -> constructible classes c i = None) -> constructible classes c m = Some k -> search classes c n more = Some (m, k).
Proof.
  revert n; induction more as [|more IH]; intros n Hm Hn Hk.
  - assert (n = m) by lia. subst m. cbn [search]. now rewrite Hk.
  - cbn [search]. destruct (Nat.eq_dec n m) as [->|Hne]; [now rewrite Hk|]. rewrite (Hn n) by lia. apply IH; [lia| |exact Hk].
    intros i Hi. apply Hn. lia.
Qed.
Lemma search_sound classes c n more m k : search classes c n more = Some (m, k) -> n <= m <= n + more /\ constructible classes c m = Some k.
Proof.
  revert n; induction more as [|more IH]; intros n; cbn [search]; destruct (constructible classes c n) eqn:E; intros H.
  - injection H as <- <-. split; [lia|exact E].
  - discriminate H.
  - injection H as <- <-. split; [lia|exact E].
  - apply IH in H as [Ha Hb]. split; [lia|exact Hb].
Qed.
Lemma search_none classes c n more : (forall i, n <= i <= n + more -> constructible classes c i = None) -> search classes c n more = None.
Proof.
  revert n; induction more as [|more IH]; intros n H; cbn [search]; rewrite H by lia; [reflexivity|]. apply IH. intros i Hi. apply H. lia.
Qed.
(** The only constructor apart from copying. *)
Lemma constructible_only classes c before k after ts n : constructors (classes c) = before ++ k :: after -> Forall (copies c) (before ++ after) ->
  parameters k = map Takes ts -> defaults k = 0 -> ~ In (Class c) ts ->
  constructible classes c n = if Nat.eqb n (length ts) then Some k else None.
Proof.
  intros Hc Ho Hp Hd Hn. unfold constructible. rewrite Hc.
  assert (Ho' : Forall (fun y => viable (Class c) n y = false) (before ++ after)).
  { eapply Forall_impl; [|exact Ho]. intros a Ha. now apply viable_copies. }
  destruct (Nat.eqb_spec n (length ts)) as [->|Hne].
  - rewrite filter_only; [reflexivity| |exact Ho']. unfold viable. rewrite Hp, Hd, map_length, Nat.sub_0_r, Nat.leb_refl. cbn [andb].
    rewrite <- (map_length Takes ts), firstn_all. rewrite forallb_forall. intros p Hi. apply in_map_iff in Hi as (u & <- & Hu). cbn [converts].
    destruct (type_eqb (Class c) u) eqn:E; [|reflexivity]. apply type_eqb_eq in E. subst u. contradiction.
  - rewrite filter_none; [reflexivity|]. apply Forall_app in Ho' as [Hb Ha]. apply Forall_app. split; [exact Hb|]. constructor; [|exact Ha].
    destruct (viable (Class c) n k) eqn:E; [|reflexivity]. apply viable_count in E as [E1 E2]. rewrite Hp, map_length in *. lia.
Qed.
Scheme made_ind2 := Minimality for made Sort Prop with all_made_ind2 := Minimality for all_made Sort Prop.
Lemma made_constructs classes h t v : made classes h t v -> try_construct classes h t = Some v.
Proof.
  intros H. revert h t v H.
  apply (made_ind2 classes (fun h t v => try_construct classes h t = Some v)
    (fun h ts vs => all_of (fun p => match taken p with Some u => try_construct classes h u | None => None end) (map Takes ts) = Some vs)).
  - reflexivity.
  - intros h c before k after v Hc H0 Ho Hr. cbn [try_construct].
    assert (E : constructible classes c 0 = Some k).
    { unfold constructible. rewrite Hc, filter_only; [reflexivity|now apply viable_zero|]. eapply Forall_impl; [|exact Ho]. cbn beta. intros a Ha.
      destruct (viable (Class c) 0 a) eqn:E; [|reflexivity]. apply viable_count in E. contradiction. }
    cbn [search]. rewrite E. exact Hr.
  - intros h c before k after ts vs v Hc Ho Hp Hd Hl Hn _ IH Hr. cbn [try_construct].
    rewrite (search_from classes c 0 10 (length ts) k).
    + rewrite Hp, <- (map_length Takes ts), firstn_all, IH. exact Hr.
    + lia.
    + intros i Hi. rewrite (constructible_only classes c before k after ts i Hc Ho Hp Hd Hn). destruct (Nat.eqb_spec i (length ts)); [lia|reflexivity].
    + rewrite (constructible_only classes c before k after ts _ Hc Ho Hp Hd Hn). now rewrite Nat.eqb_refl.
  - reflexivity.
  - intros h t ts v vs _ IH1 _ IH2. cbn [map all_of taken]. now rewrite IH1, IH2.
Qed.
Lemma template_parameter_structural classes t : template_parameter classes t = true -> structural classes t.
Proof. destruct t; cbn; intros H; try discriminate H; now constructor. Qed.
