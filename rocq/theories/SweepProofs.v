From Coq Require Import Permutation.
From Verif Require Import Base BaseLemmas CxSetModel CxSetProofs CxMapModel SweepModel.
Open Scope N_scope.

Section Loop.
Context {C E : Type} (size : C -> N) (st : C -> list E) (erase : C -> E -> option C) (same : E -> E -> bool) (p : E -> bool).
(** What erase does: the last element goes to the first slot that matches. *)
Context (Herase : forall c l x t, st c = l ++ t -> size c = len l -> len (st c) < size_mod ->
  match find_idx (fun y => same y x) l with
  | None => erase c x = Some c
  | Some i => forall y s', rd (st c) (len l - 1) = Some y -> wr (st c) (N.of_nat i) y = Some s' ->
      exists c', erase c x = Some c' /\ st c' = s' /\ size c' = len l - 1
  end).
Context (Hsame : forall x, same x x = true).
Notation sweep := (sweep_from size (fun c i => rd (st c) i) erase p).
Definition apart (l : list E) : Prop := NoDup l /\ forall x y, In x l -> In y l -> same x y = true -> x = y.

Lemma find_first l1 x l2 : (forall y, In y l1 -> same y x = false) -> find_idx (fun y => same y x) (l1 ++ x :: l2) = Some (length l1).
Proof.
  induction l1 as [|a l1 IH]; intros H; cbn; [rewrite Hsame; reflexivity|].
  rewrite (H a (or_introl eq_refl)), IH; [reflexivity|]. intros y Hy. apply H. right; exact Hy.
Qed.
(** [x] erased from [l1 ++ x :: l2]: the slots from [len l1 + 1] on stay as they are. *)
Lemma erase_at c l1 x l2 t : st c = (l1 ++ x :: l2) ++ t -> size c = len (l1 ++ x :: l2) -> len (st c) < size_mod ->
  (forall y, In y l1 -> same y x = false) ->
  exists c' l' z, erase c x = Some c' /\ st c' = l' ++ z :: t /\ size c' = len l' /\ Permutation (x :: l') (l1 ++ x :: l2) /\
    (forall j, len l1 < j -> rd (st c') j = rd (st c) j) /\ len (st c') = len (st c).
Proof.
  intros Es En Hm Hf. pose proof (Herase c _ x t Es En Hm) as H. rewrite find_first in H by exact Hf.
  destruct (swap_remove l1 x l2 t) as (y & l' & z & R & W & L & P).
  assert (Ln : len (l1 ++ x :: l2) - 1 = len l1 + len l2) by (rewrite len_app, len_cons; lia).
  rewrite Ln in H. rewrite <- Es in R, W. destruct (H y _ R W) as (c' & E1 & E2 & E3).
  exists c', l', z. split; [exact E1|]. split; [exact E2|]. split; [lia|]. split; [exact P|]. split.
  - intros j Hj. rewrite E2, (rd_wr _ _ _ _ j W). destruct (N.eqb_spec j (len l1)); [lia | reflexivity].
  - rewrite E2. exact (wr_len _ _ _ _ W).
Qed.
Lemma erase_none c l x t : st c = l ++ t -> size c = len l -> len (st c) < size_mod -> (forall y, In y l -> same y x = false) -> erase c x = Some c.
Proof.
  intros Es En Hm Hf. pose proof (Herase c l x t Es En Hm) as H. destruct (find_idx (fun y => same y x) l) as [i|] eqn:F; [|exact H].
  destruct (find_idx_Some _ _ _ F) as (l1 & y & l2 & -> & _ & Hy & _). cbn in Hy. rewrite Hf in Hy; [discriminate|]. apply in_or_app; right; left; reflexivity.
Qed.

Lemma apart_perm l l' : apart l -> Permutation l l' -> apart l'.
Proof.
  intros (N & D) P. split; [eapply Permutation_NoDup; eauto|]. intros x y Hx Hy. apply D; eapply Permutation_in; try (symmetry; exact P); assumption.
Qed.
Lemma apart_no l1 x l2 y : apart (l1 ++ x :: l2) -> In y l1 -> same y x = false.
Proof.
  intros (N & D) Hy. destruct (same y x) eqn:S; [|reflexivity]. exfalso.
  assert (y = x) by (apply D; [apply in_or_app; left; exact Hy | apply in_or_app; right; left; reflexivity | exact S]). subst y.
  apply NoDup_remove in N as (_ & N). apply N. apply in_or_app; auto.
Qed.
Lemma rd_inj {A} (l : list A) i j x : NoDup l -> rd l i = Some x -> rd l j = Some x -> i = j.
Proof.
  intros N Hi Hj. rewrite rd_nth_error in *. rewrite NoDup_nth_error in N. apply N2Nat.inj. apply N; [|congruence].
  apply nth_error_Some. congruence.
Qed.

(** The end is taken once: every slot still holds its element when the loop gets there. *)
Lemma once_ok l rest : apart l -> forall done c cur t n, l = done ++ rest -> st c = cur ++ t -> size c = len cur -> len (st c) < size_mod ->
  Permutation cur (filter (fun x => negb (p x)) done ++ rest) -> len l <= len (st c) ->
  (forall j, len done <= j -> j < len l -> rd (st c) j = rd l j) -> (length rest <= n)%nat ->
  exists c' cur' t', sweep n (Some (len l)) c (len done) = Ends rest c' /\ st c' = cur' ++ t' /\ size c' = len cur' /\ len (st c') = len (st c) /\
    Permutation cur' (filter (fun x => negb (p x)) l).
Proof.
  intros A. induction rest as [|x rest IH]; intros done c cur t n El Es En Hm P Hl Hs Hn.
  - exists c, cur, t. rewrite app_nil_r in El, P. subst l. destruct n; cbn [sweep_from]; rewrite N.eqb_refl; auto.
  - assert (Ll : len l = len done + (1 + len rest)) by (rewrite El, len_app, len_cons; lia).
    assert (Rx : rd l (len done) = Some x) by (rewrite El; apply rd_len).
    destruct n as [|n]; [cbn in Hn; lia|]. cbn [sweep_from]. destruct (N.eqb_spec (len done) (len l)) as [F|_]; [lia|].
    rewrite (Hs (len done)), Rx by lia.
    assert (Ld : len done + 1 = len (done ++ [x])) by (rewrite len_app; reflexivity).
    assert (Edone : l = (done ++ [x]) ++ rest) by (rewrite <- app_assoc; exact El).
    destruct (p x) eqn:Px.
    + assert (Hin : In x cur) by (eapply Permutation_in; [symmetry; exact P|]; apply in_or_app; right; left; reflexivity).
      assert (Sub : forall y, In y cur -> In y l).
      { intros y Hy. apply (Permutation_in _ P) in Hy. rewrite El. rewrite in_app_iff in *. destruct Hy as [Hy|Hy]; [left; apply filter_In in Hy; tauto | auto]. }
      assert (Nc : NoDup cur).
      { eapply Permutation_NoDup; [symmetry; exact P|]. destruct A as (N & _). rewrite El in N. clear - N.
        induction done as [|a done IHd]; cbn [filter app] in *; [exact N|]. inversion N; subst. destruct (negb (p a)); [|auto].
        cbn [app]. constructor; [|auto]. intros K. apply H1. rewrite in_app_iff in *. destruct K as [K|K]; [left; apply filter_In in K; tauto | auto]. }
      apply in_split in Hin as (l1 & l2 & Ec).
      assert (Ac : apart cur) by (split; [exact Nc|]; intros y z Hy Hz; apply A; auto).
      assert (Le1 : len l1 <= len done).
      { destruct (N.le_gt_cases (len l1) (len done)) as [G|G]; [exact G|]. exfalso.
        assert (Lc : len cur <= len l).
        { apply Permutation_length in P. rewrite El. unfold len. rewrite P, !app_length.
          assert (length (filter (fun x => negb (p x)) done) <= length done)%nat by (clear; induction done as [|a d IH]; cbn; [lia|]; destruct (negb (p a)); cbn; lia). lia. }
        rewrite Ec, len_app, len_cons in Lc.
        assert (R1 : rd (st c) (len l1) = Some x) by (rewrite Es, Ec, <- app_assoc; apply rd_len).
        rewrite (Hs (len l1)) in R1 by lia. destruct A as (N & _). pose proof (rd_inj _ _ _ _ N R1 Rx). lia. }
      subst cur. destruct (erase_at c l1 x l2 t Es En Hm (fun y => apart_no l1 x l2 y Ac)) as (c1 & l' & z & E1 & E2 & E3 & P' & Hk & Ls).
      rewrite E1. rewrite Ld. destruct (IH (done ++ [x]) c1 l' (z :: t) n Edone E2 E3) as (c' & cur' & t' & S & R); try lia.
      * rewrite filter_app. cbn [filter]. rewrite Px. cbn [negb]. rewrite app_nil_r.
        apply (Permutation_cons_inv (a := x)). rewrite P', P. symmetry. apply Permutation_middle.
      * intros j Hj Hj2. rewrite <- Ld in Hj. rewrite Hk by lia. apply Hs; lia.
      * cbn in Hn. lia.
      * exists c', cur', t'. rewrite S. split; [reflexivity|]. rewrite Ls in R. exact R.
    + rewrite Ld. destruct (IH (done ++ [x]) c cur t n Edone Es En Hm) as (c' & cur' & t' & S & R); try lia.
      * rewrite filter_app. cbn [filter]. rewrite Px. cbn [negb]. rewrite <- app_assoc. exact P.
      * intros j Hj Hj2. rewrite <- Ld in Hj. apply Hs; lia.
      * cbn in Hn. lia.
      * exists c', cur', t'. rewrite S. split; [reflexivity | exact R].
Qed.

(** The end is taken anew. *)
Lemma anew_walk q : forall done r c t n, st c = (done ++ q ++ r) ++ t -> size c = len (done ++ q ++ r) -> (forall x, In x q -> p x = false) ->
  sweep (length q + n) None c (len done) =
  match sweep n None c (len (done ++ q)) with Ends v c' => Ends (q ++ v) c' | RunsOff => RunsOff end.
Proof.
  induction q as [|x q IH]; intros done r c t n Es En Hp.
  - rewrite app_nil_r. cbn [length Nat.add app]. destruct (sweep n None c (len done)); reflexivity.
  - cbn [length Nat.add sweep_from]. destruct (N.eqb_spec (len done) (size c)) as [F|_]; [rewrite En, !len_app, len_cons in F; lia|].
    assert (R : rd (st c) (len done) = Some x) by (rewrite Es, <- app_assoc; cbn [app]; apply rd_len).
    rewrite R, (Hp x (or_introl eq_refl)). assert (Ld : len done + 1 = len (done ++ [x])) by (rewrite len_app; reflexivity). rewrite Ld.
    rewrite (IH (done ++ [x]) r c t n); [|rewrite Es; f_equal; rewrite <- app_assoc; reflexivity | rewrite <- app_assoc; exact En | intros y Hy; apply Hp; right; exact Hy].
    rewrite <- app_assoc. cbn [app]. destruct (sweep n None c (len (done ++ x :: q))); reflexivity.
Qed.
Lemma anew_misses c l1 x l2 y t : st c = (l1 ++ x :: l2 ++ [y]) ++ t -> size c = len (l1 ++ x :: l2 ++ [y]) -> len (st c) < size_mod ->
  apart (l1 ++ x :: l2 ++ [y]) -> (forall z, In z (l1 ++ l2) -> p z = false) -> p x = true ->
  exists c' t', sweep (length (st c)) None c 0 = Ends (l1 ++ x :: l2) c' /\ st c' = (l1 ++ y :: l2) ++ t' /\ size c' = len (l1 ++ y :: l2).
Proof.
  intros Es En Hm A Hp Px.
  pose proof (Herase c _ x t Es En Hm) as H. rewrite find_first in H by (intros z Hz; eapply apart_no; eauto).
  assert (Ln : len (l1 ++ x :: l2 ++ [y]) - 1 = len (l1 ++ x :: l2)) by (rewrite !len_app, !len_cons, len_app; change (len [y]) with 1; lia).
  assert (R : rd (st c) (len (l1 ++ x :: l2 ++ [y]) - 1) = Some y).
  { rewrite Ln, Es. replace ((l1 ++ x :: l2 ++ [y]) ++ t) with ((l1 ++ x :: l2) ++ y :: t) by (rewrite <- !app_assoc; cbn; rewrite <- app_assoc; reflexivity). apply rd_len. }
  assert (W : wr (st c) (N.of_nat (length l1)) y = Some ((l1 ++ y :: l2 ++ [y]) ++ t)) by (rewrite Es, <- !app_assoc; cbn [app]; apply wr_app_len).
  destruct (H _ _ R W) as (c1 & E1 & E2 & E3).
  assert (Lst : length (st c) = (length l1 + (S (length l2 + (S (length t)))))%nat) by (rewrite Es; repeat (rewrite app_length; cbn [length]); lia).
  rewrite Lst. replace 0 with (len (@nil E)) by reflexivity.
  rewrite (anew_walk l1 [] (x :: l2 ++ [y]) c t); [|exact Es | exact En | intros z Hz; apply Hp; apply in_or_app; auto].
  cbn [app sweep_from]. destruct (N.eqb_spec (len l1) (size c)) as [F|_]; [rewrite En, len_app, len_cons in F; lia|].
  assert (Rx : rd (st c) (len l1) = Some x) by (rewrite Es, <- app_assoc; apply rd_len). rewrite Rx, Px, E1.
  replace (len l1 + 1) with (len (l1 ++ [y])) by (rewrite len_app; reflexivity).
  rewrite (anew_walk l2 (l1 ++ [y]) [] c1 ([y] ++ t)).
  - cbn [sweep_from]. assert (Q : len ((l1 ++ [y]) ++ l2) = size c1) by (rewrite E3, Ln; repeat (rewrite len_app || rewrite len_cons); change (len (@nil E)) with 0; lia).
    rewrite Q, N.eqb_refl. exists c1, (y :: t). rewrite app_nil_r. split; [reflexivity|]. split; [|rewrite E3, Ln, !len_app, !len_cons; reflexivity].
    rewrite E2, <- !app_assoc. cbn. rewrite <- app_assoc. reflexivity.
  - rewrite E2, app_nil_r, <- !app_assoc. cbn. rewrite <- app_assoc. reflexivity.
  - rewrite E3, Ln, app_nil_r, !len_app, !len_cons. change (len (@nil E)) with 0. lia.
  - intros z Hz. apply Hp. apply in_or_app; auto.
Qed.

Lemma past n : forall c cur t i, st c = cur ++ t -> size c = len cur -> len (st c) < size_mod -> len cur < i -> sweep n None c i = RunsOff.
Proof.
  induction n as [|n IH]; intros c cur t i Es En Hm Hi; cbn [sweep_from]; (destruct (N.eqb_spec i (size c)) as [F|_]; [lia|]); [reflexivity|].
  destruct (rd (st c) i) as [x|]; [|reflexivity]. destruct (p x).
  - pose proof (Herase c cur x t Es En Hm) as H. destruct (find_idx (fun y => same y x) cur) as [j|] eqn:F.
    + destruct (find_idx_Some _ _ _ F) as (l1 & y & l2 & -> & Lj & _ & _). destruct (swap_remove l1 y l2 t) as (z & l' & w & R & W & L & _).
      rewrite <- Es in R, W. assert (Ln : len (l1 ++ y :: l2) - 1 = len l1 + len l2) by (rewrite len_app, len_cons; lia).
      rewrite Ln in H. destruct (H z (l' ++ w :: t)) as (c' & E1 & E2 & E3); [exact R | rewrite <- Lj; exact W|].
      rewrite E1, (IH c' l' (w :: t) (i + 1)); [reflexivity | exact E2 | lia | | lia].
      rewrite E2. rewrite (wr_len _ _ _ _ W). exact Hm.
    + rewrite H, (IH c cur t (i + 1)); [reflexivity | exact Es | exact En | exact Hm | lia].
  - rewrite (IH c cur t (i + 1)); [reflexivity | exact Es | exact En | exact Hm | lia].
Qed.
Lemma anew_runs_off c l1 x t : st c = (l1 ++ [x]) ++ t -> size c = len (l1 ++ [x]) -> len (st c) < size_mod ->
  apart (l1 ++ [x]) -> (forall z, In z l1 -> p z = false) -> p x = true -> sweep (length (st c)) None c 0 = RunsOff.
Proof.
  intros Es En Hm A Hp Px.
  assert (Lst : length (st c) = (length l1 + (S (length t)))%nat) by (rewrite Es; repeat (rewrite app_length; cbn [length]); lia).
  rewrite Lst. replace 0 with (len (@nil E)) by reflexivity. rewrite (anew_walk l1 [] [x] c t); [|exact Es | exact En | exact Hp].
  cbn [app sweep_from]. destruct (N.eqb_spec (len l1) (size c)) as [F|_]; [rewrite En, len_app, len_cons in F; lia|].
  assert (Rx : rd (st c) (len l1) = Some x) by (rewrite Es, <- app_assoc; apply rd_len). rewrite Rx, Px.
  destruct (erase_at c l1 x [] t Es En Hm (fun y => apart_no l1 x [] y A)) as (c1 & l' & z & E1 & E2 & E3 & P' & _ & Ls).
  rewrite E1, (past _ c1 l' (z :: t)); [reflexivity | exact E2 | exact E3 | lia |].
  apply Permutation_length in P'. unfold len. rewrite app_length in P'. cbn in P'. lia.
Qed.
End Loop.

Lemma s_items_split {K} (s : cset K) l : s_items s = Some l -> exists t, s_storage s = l ++ t /\ s_size s = len l.
Proof.
  unfold s_items. destruct (N.leb_spec (s_size s) (len (s_storage s))); [|discriminate]. intros [= <-].
  exists (skipn (N.to_nat (s_size s)) (s_storage s)). rewrite firstn_skipn. split; [reflexivity|]. unfold len in *. rewrite firstn_length. lia.
Qed.
Lemma s_items_app {K} (s : cset K) l t : s_storage s = l ++ t -> s_size s = len l -> s_items s = Some l.
Proof.
  intros E N. unfold s_items. rewrite E, N. destruct (N.leb_spec (len l) (len (l ++ t))) as [_|F]; [|rewrite len_app in F; lia].
  rewrite len_to_nat, firstn_app_len. reflexivity.
Qed.
Lemma m_items_split {K V} (s : cmap K V) l : m_items s = Some l -> exists t, m_storage s = l ++ t /\ m_size s = len l.
Proof.
  unfold m_items. destruct (N.leb_spec (m_size s) (len (m_storage s))); [|discriminate]. intros [= <-].
  exists (skipn (N.to_nat (m_size s)) (m_storage s)). rewrite firstn_skipn. split; [reflexivity|]. unfold len in *. rewrite firstn_length. lia.
Qed.
Lemma m_items_app {K V} (s : cmap K V) l t : m_storage s = l ++ t -> m_size s = len l -> m_items s = Some l.
Proof.
  intros E N. unfold m_items. rewrite E, N. destruct (N.leb_spec (len l) (len (l ++ t))) as [_|F]; [|rewrite len_app in F; lia].
  rewrite len_to_nat, firstn_app_len. reflexivity.
Qed.
Lemma len_pos {A} (l : list A) i p : find_idx p l = Some i -> 0 < len l.
Proof. destruct l; [discriminate|]. intros _. rewrite len_cons. lia. Qed.
Lemma s_erase_law {K} (eqb : K -> K -> bool) (c : cset K) l x t : s_storage c = l ++ t -> s_size c = len l -> len (s_storage c) < size_mod ->
  match find_idx (fun y => eqb y x) l with
  | None => option_map fst (s_erase eqb c x) = Some c
  | Some i => forall y s', rd (s_storage c) (len l - 1) = Some y -> wr (s_storage c) (N.of_nat i) y = Some s' ->
      exists c', option_map fst (s_erase eqb c x) = Some c' /\ s_storage c' = s' /\ s_size c' = len l - 1
  end.
Proof.
  intros Es En Hm. unfold s_erase. rewrite (s_items_app c l t Es En). destruct (find_idx (fun y => eqb y x) l) as [i|] eqn:F; [|reflexivity].
  intros y s' R W. rewrite En, sz_dec_pos, R, W; [|exact (len_pos _ _ _ F) | rewrite Es, len_app in Hm; lia].
  eexists. split; [reflexivity|]. split; reflexivity.
Qed.
Lemma m_erase_law {K V} (eqb : K -> K -> bool) (c : cmap K V) l (x : K * V) t : m_storage c = l ++ t -> m_size c = len l -> len (m_storage c) < size_mod ->
  match find_idx (fun y => eqb (fst y) (fst x)) l with
  | None => option_map fst (m_erase eqb c (fst x)) = Some c
  | Some i => forall y s', rd (m_storage c) (len l - 1) = Some y -> wr (m_storage c) (N.of_nat i) y = Some s' ->
      exists c', option_map fst (m_erase eqb c (fst x)) = Some c' /\ m_storage c' = s' /\ m_size c' = len l - 1
  end.
Proof.
  intros Es En Hm. unfold m_erase, m_find. rewrite (m_items_app c l t Es En). cbn [option_map].
  destruct (find_idx (fun y => eqb (fst y) (fst x)) l) as [i|] eqn:F; [|reflexivity].
  intros y s' R W. rewrite En, sz_dec_pos, R, W; [|exact (len_pos _ _ _ F) | rewrite Es, len_app in Hm; lia].
  eexists. split; [reflexivity|]. split; reflexivity.
Qed.
Lemma apart_set {K} (eqb : K -> K -> bool) l : (forall x y, eqb x y = true <-> x = y) -> NoDup l -> apart eqb l.
Proof. intros Heq N. split; [exact N|]. intros x y _ _. apply Heq. Qed.
Lemma apart_map {K V} (eqb : K -> K -> bool) (l : list (K * V)) : (forall x y, eqb x y = true <-> x = y) -> NoDup (map fst l) ->
  apart (fun a b : K * V => eqb (fst a) (fst b)) l.
Proof.
  intros Heq N. split; [eapply NoDup_map_inv; eauto|]. intros x y Hx Hy E. apply Heq in E.
  induction l as [|a l IH]; [destruct Hx|]. cbn in N. inversion N; subst. destruct Hx as [->|Hx], Hy as [->|Hy]; auto.
  - exfalso. apply H1. rewrite E. apply in_map. exact Hy.
  - exfalso. apply H1. rewrite <- E. apply in_map. exact Hx.
Qed.
