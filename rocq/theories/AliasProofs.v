(** Proofs about arguments that refer to elements. *)
From Verif Require Import Base BaseLemmas CxVectorModel CxQueueModel CxSetModel CxMapModel CxMultimapModel AliasModel.
Open Scope N_scope.

Lemma search_find {K E} (eqb : K -> K -> bool) (key : E -> K) (element : N -> option K) (k : K) (l : list E) : forall i,
  (forall j, (j < length l)%nat -> element (i + N.of_nat j) = option_map key (nth_error l j)) ->
  search eqb element (Some k) (length l) i = Some (option_map (fun j => i + N.of_nat j) (find_idx (fun e => eqb (key e) k) l)).
Proof.
  induction l as [|e l IH]; intros i H; [reflexivity|]. cbn [length search find_idx]. assert (H0 := H 0%nat ltac:(cbn; lia)). cbn in H0.
  rewrite N.add_0_r in H0. rewrite H0. destruct (eqb (key e) k) eqn:E1; [cbn; rewrite N.add_0_r; reflexivity|].
  rewrite IH.
  - destruct (find_idx (fun e0 => eqb (key e0) k) l) as [j|]; cbn [option_map]; [|reflexivity]. do 2 f_equal. lia.
  - intros j Hj. replace (i + 1 + N.of_nat j) with (i + N.of_nat (S j)) by lia. apply (H (S j)). cbn. lia.
Qed.
Lemma items_nth {A} n (st l : list A) : (n <=? len st) = true -> firstn (N.to_nat n) st = l ->
  length l = N.to_nat n /\ forall j, (j < length l)%nat -> rd st (N.of_nat j) = nth_error l j.
Proof.
  intros Hn <-. apply N.leb_le in Hn. unfold len in Hn. assert (L : length (firstn (N.to_nat n) st) = N.to_nat n) by (rewrite firstn_length; lia).
  split; [exact L|]. intros j Hj. rewrite L in Hj. rewrite <- (rd_firstn st (N.to_nat n)) by lia. rewrite rd_nth_error, Nat2N.id. reflexivity.
Qed.
Lemma find_idx_lt {A} (p : A -> bool) l i : find_idx p l = Some i -> (i < length l)%nat.
Proof.
  revert i; induction l as [|x l IH]; intros i; cbn; [discriminate|]. destruct (p x); [intros E; injection E as <-; lia|].
  destruct (find_idx p l) as [j|]; cbn; [|discriminate]. intros E; injection E as <-. specialize (IH j eq_refl). lia.
Qed.
Section Set_.
Context {K : Type} (eqb : K -> K -> bool).
Lemma set_search (s : cset K) l k : s_items s = Some l ->
  search eqb (s_at s) (Some k) (N.to_nat (s_size s)) 0 = Some (option_map N.of_nat (find_idx (fun x => eqb x k) l)).
Proof.
  unfold s_items. destruct (s_size s <=? len (s_storage s)) eqn:Hn; [|discriminate]. intros E. injection E as E.
  destruct (items_nth _ _ _ Hn E) as [L R]. rewrite <- L. rewrite (search_find eqb (fun x => x) (s_at s) k l 0).
  - destruct (find_idx _ l) as [j|]; reflexivity.
  - intros j Hj. rewrite N.add_0_l. unfold s_at. rewrite R by exact Hj. destruct (nth_error l j); reflexivity.
Qed.
Section Within.
Context {S Place : Type} (at_ : S -> Place -> option K) (get_set : S -> option (cset K)) (put_set : S -> cset K -> option S).
Lemma within_contains s c l a k : get_set s = Some c -> s_items c = Some l -> read at_ s a = Some k ->
  sw_contains eqb at_ get_set s a = s_contains eqb c k.
Proof.
  intros Hg Hi Hr. unfold sw_contains, sw_search, s_contains. rewrite Hg, Hr, Hi, (set_search c l k Hi).
  destruct (find_idx _ l); reflexivity.
Qed.
Lemma within_insert s c l a k : get_set s = Some c -> s_items c = Some l -> read at_ s a = Some k ->
  put_set s c = Some s ->
  sw_insert eqb at_ get_set put_set s a =
  match s_insert eqb c k with Some (c', b) => match put_set s c' with Some s' => Some (s', b) | None => None end | None => None end.
Proof.
  intros Hg Hi Hr Hp. unfold sw_insert, s_insert. rewrite (within_contains s c l a k Hg Hi Hr), Hg, Hr.
  destruct (s_contains eqb c k) as [[]|]; [now rewrite Hp| |reflexivity]. destruct (wr (s_storage c) (s_size c) k); reflexivity.
Qed.
Lemma within_erase s c l a k : get_set s = Some c -> s_items c = Some l -> read at_ s a = Some k ->
  put_set s c = Some s ->
  sw_erase eqb at_ get_set put_set s a =
  match s_erase eqb c k with Some (c', b) => match put_set s c' with Some s' => Some (s', b) | None => None end | None => None end.
Proof.
  intros Hg Hi Hr Hp. unfold sw_erase, s_erase, sw_search. rewrite Hg, Hr, Hi, (set_search c l k Hi).
  destruct (find_idx _ l) as [i|]; cbn [option_map]; [|now rewrite Hp]. destruct (rd (s_storage c) (sz_dec (s_size c))); [|reflexivity].
  destruct (wr (s_storage c) (N.of_nat i) k0); reflexivity.
Qed.
End Within.
End Set_.
Section Map_.
Context {K V : Type} (eqb : K -> K -> bool).
Lemma map_search (m : cmap K V) l k : m_items m = Some l ->
  search eqb (m_key_at m) (Some k) (N.to_nat (m_size m)) 0 = Some (option_map N.of_nat (find_idx (fun e => eqb (fst e) k) l)).
Proof.
  unfold m_items. destruct (m_size m <=? len (m_storage m)) eqn:Hn; [|discriminate]. intros E. injection E as E.
  destruct (items_nth _ _ _ Hn E) as [L R]. rewrite <- L. rewrite (search_find eqb fst (m_key_at m) k l 0).
  - destruct (find_idx _ l) as [j|]; reflexivity.
  - intros j Hj. rewrite N.add_0_l. unfold m_key_at. rewrite R by exact Hj. reflexivity.
Qed.
Lemma m_find_search (m : cmap K V) l a k : m_items m = Some l -> read m_key_at m a = Some k ->
  ma_search eqb m a = option_map (option_map N.of_nat) (m_find eqb m k).
Proof. intros Hi Hr. unfold ma_search, m_find. rewrite Hr, (map_search m l k Hi), Hi. reflexivity. Qed.
Lemma assign_set_at (m : cmap K V) i v : m_assign_at m (N.of_nat i) v = m_set_at m i v.
Proof. unfold m_assign_at, m_set_at. destruct (rd (m_storage m) (N.of_nat i)) as [[k ?]|]; [|reflexivity]. destruct (wr _ _ _); reflexivity. Qed.
Lemma ma_contains_ok (m : cmap K V) l a k : m_items m = Some l -> read m_key_at m a = Some k -> ma_contains eqb m a = m_contains eqb m k.
Proof.
  intros Hi Hr. unfold ma_contains, m_contains. rewrite (m_find_search m l a k Hi Hr). destruct (m_find eqb m k) as [[]|]; reflexivity.
Qed.
Lemma ma_put_ok (m : cmap K V) l a k b v : m_items m = Some l -> read m_key_at m a = Some k -> read m_value_at m b = Some v ->
  ma_put eqb m a b = m_put eqb m k v.
Proof.
  intros Hi Hr Hv. unfold ma_put, m_put. rewrite (m_find_search m l a k Hi Hr). destruct (m_find eqb m k) as [[i|]|]; cbn [option_map]; [| |reflexivity].
  - rewrite Hv, assign_set_at. destruct (m_set_at m i v); reflexivity.
  - replace (read m_key_at _ a) with (Some k) by (rewrite <- Hr; destruct a; reflexivity).
    replace (read m_value_at _ b) with (Some v) by (rewrite <- Hv; destruct b; reflexivity). cbn [m_storage m_size].
    destruct (wr (m_storage m) (m_size m) (k, v)); reflexivity.
Qed.
Lemma ma_erase_ok (m : cmap K V) l a k : m_items m = Some l -> read m_key_at m a = Some k -> ma_erase eqb m a = m_erase eqb m k.
Proof.
  intros Hi Hr. unfold ma_erase, m_erase. rewrite (m_find_search m l a k Hi Hr). destruct (m_find eqb m k) as [[i|]|]; cbn [option_map]; try reflexivity.
Qed.
(** Assigning a value keeps sizes and keys. *)
Lemma set_at_keys (m m' : cmap K V) i v : m_set_at m i v = Some m' ->
  m_size m' = m_size m /\ len (m_storage m') = len (m_storage m) /\ forall j, m_key_at m' j = m_key_at m j.
Proof.
  unfold m_set_at. destruct (rd (m_storage m) (N.of_nat i)) as [[k w]|] eqn:R; [|discriminate]. destruct (wr _ _ _) as [st|] eqn:W; [|discriminate].
  intros E. injection E as <-. split; [reflexivity|]. split; [exact (wr_len _ _ _ _ W)|]. intros j. unfold m_key_at. cbn [m_storage].
  rewrite (rd_wr _ _ _ _ j W). destruct (N.eqb_spec j (N.of_nat i)) as [->|]; [|reflexivity]. now rewrite R.
Qed.
Lemma items_keep (m m' : cmap K V) l : m_items m = Some l -> m_size m' = m_size m -> len (m_storage m') = len (m_storage m) -> exists l', m_items m' = Some l'.
Proof. unfold m_items. intros H -> ->. destruct (m_size m <=? len (m_storage m)); [eauto|discriminate]. Qed.
Lemma find_in (m : cmap K V) l k i : m_items m = Some l -> m_find eqb m k = Some (Some i) ->
  exists e, rd (m_storage m) (N.of_nat i) = Some e /\ In e l.
Proof.
  unfold m_find. intros Hi. rewrite Hi. intros E. injection E as E. apply find_idx_lt in E as L.
  unfold m_items in Hi. destruct (m_size m <=? len (m_storage m)) eqn:Hn; [|discriminate]. injection Hi as Hi.
  destruct (items_nth _ _ _ Hn Hi) as [_ R]. rewrite R by exact L. destruct (nth_error l i) as [e|] eqn:N1; [|apply nth_error_None in N1; lia].
  exists e. split; [reflexivity|]. eapply nth_error_In. exact N1.
Qed.
Lemma set_same (m : cmap K V) i e : rd (m_storage m) (N.of_nat i) = Some e -> m_set_at m i (snd e) = Some m.
Proof.
  unfold m_set_at. intros R. rewrite R. destruct e as [k v]. cbn [snd].
  assert (L := rd_Some_lt _ _ _ R). destruct (wr_lt_Some (m_storage m) (N.of_nat i) (k, v) L) as (st & W). rewrite W. cbn [option_map].
  replace st with (m_storage m); [destruct m; reflexivity|]. symmetry. apply rd_ext; [exact (wr_len _ _ _ _ W)|]. intros j _.
  rewrite (rd_wr _ _ _ _ j W). destruct (N.eqb_spec j (N.of_nat i)) as [->|]; [now rewrite R|reflexivity].
Qed.
End Map_.
