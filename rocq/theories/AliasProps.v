(** C100 Arguments may be references to the container's own elements. *)
From Verif Require Import Base BaseLemmas CxVectorModel CxQueueModel CxSetModel CxMapModel CxMultimapModel AliasModel AliasSpec AliasProofs.
Open Scope N_scope.

Lemma reads_vector : forall A cap (v : vector A) a x i, read v_at v a = Some x ->
  v_step cap v (VPush x) = match va_push v a with Some v' => Done v' (VVal x) [] | None => Undef end /\
  v_step cap v (VSet i x) = match va_set v i a with Some v' => Done v' VUnit [] | None => Undef end.
Proof.
  intros A cap v a x i H. unfold va_push, va_set. rewrite H. cbn [v_step]. split.
  - destruct (v_write v (v_size v) x _); reflexivity.
  - destruct (v_write v i x _); reflexivity.
Qed.
Lemma reads_queue : forall A (mv : A -> A) pol h cap (q : queue A) a x, read q_at q a = Some x -> q_size q < cap ->
  q_step mv pol h cap q (Push x) = match qa_push cap q a with Some q' => Done q' (OVal x) [] | None => Undef end.
Proof.
  intros A mv pol h cap q a x H Hs. unfold qa_push. cbv zeta. replace (read q_at _ a) with (Some x) by (rewrite <- H; destruct a; reflexivity).
  cbn [q_step]. replace (check_push pol (q_size q) cap) with (@None q_panic).
  2:{ unfold check_push. destruct pol; [|reflexivity]. destruct (N.leb_spec cap (q_size q)); [lia|reflexivity]. }
  unfold after_check, push_body. cbn [q_storage q_push q_pop q_size]. destruct (wr _ _ x); reflexivity.
Qed.
Lemma reads_set : forall K eqb (s : cset K) l a k, s_items s = Some l -> read s_at s a = Some k ->
  sa_contains eqb s a = s_contains eqb s k /\ sa_insert eqb s a = s_insert eqb s k /\ sa_erase eqb s a = s_erase eqb s k.
Proof.
  intros K eqb s l a k Hi Hr. split; [|split].
  - exact (within_contains eqb s_at _ s s l a k eq_refl Hi Hr).
  - unfold sa_insert. rewrite (within_insert eqb s_at _ _ s s l a k eq_refl Hi Hr eq_refl). destruct (s_insert eqb s k) as [[]|]; reflexivity.
  - unfold sa_erase. rewrite (within_erase eqb s_at _ _ s s l a k eq_refl Hi Hr eq_refl). destruct (s_erase eqb s k) as [[]|]; reflexivity.
Qed.
Lemma reads_map : forall K V eqb (m : cmap K V) l a k b v, m_items m = Some l -> read m_key_at m a = Some k -> read m_value_at m b = Some v ->
  ma_contains eqb m a = m_contains eqb m k /\ ma_put eqb m a b = m_put eqb m k v /\ ma_erase eqb m a = m_erase eqb m k.
Proof.
  intros K V eqb m l a k b v Hi Hr Hv. split; [exact (ma_contains_ok eqb m l a k Hi Hr)|]. split; [exact (ma_put_ok eqb m l a k b v Hi Hr Hv)|].
  exact (ma_erase_ok eqb m l a k Hi Hr).
Qed.
Lemma reads_multimap : forall K V (keqb : K -> K -> bool) (veqb : V -> V -> bool) vcap dv (m : mmap) l a k b v,
  m_items m = Some l -> Forall (fun e => exists vs, s_items (snd e) = Some vs) l ->
  read m_key_at m a = Some k -> read mm_value_at m b = Some v ->
  mma_insert keqb veqb vcap dv m a b = mm_insert keqb veqb vcap dv m k v /\
  mma_erase keqb veqb m a b = mm_erase keqb veqb m k v.
Proof.
  intros K V keqb veqb vcap dv m l a k b v Hi Hs Hr Hv. unfold mma_insert, mma_erase, mm_insert, mm_erase.
  rewrite (ma_contains_ok keqb m l a k Hi Hr). unfold ma_get. rewrite (m_find_search keqb m l a k Hi Hr). unfold m_contains, m_get, m_get_assign.
  destruct (m_find keqb m k) as [[i|]|] eqn:F; cbn [option_map]; [| |split; reflexivity].
  - destruct (find_in keqb m l k i Hi F) as (e & R & Hin). rewrite R. cbn [option_map]. rewrite Forall_forall in Hs. destruct (Hs e Hin) as (vs & Hvs).
    assert (G : set_at_ (N.of_nat i) m = Some (snd e)) by (unfold set_at_; now rewrite R).
    assert (P : m_assign_at m (N.of_nat i) (snd e) = Some m) by (rewrite assign_set_at; apply set_same; exact R).
    rewrite (within_insert veqb mm_value_at _ _ m (snd e) vs b v G Hvs Hv P).
    rewrite (within_erase veqb mm_value_at _ _ m (snd e) vs b v G Hvs Hv P). split.
    + destruct (s_insert veqb (snd e) v) as [[s' ?]|]; [|reflexivity]. rewrite assign_set_at. destruct (m_set_at m i s'); reflexivity.
    + destruct (s_erase veqb (snd e) v) as [[s' r]|]; [|reflexivity]. rewrite assign_set_at. destruct (m_set_at m i s') as [m'|] eqn:M; [|reflexivity].
      destruct (set_at_keys m m' i s' M) as (Z & L & Ky). destruct (items_keep m m' l Hi Z L) as (l' & Hi').
      assert (G' : set_at_ (N.of_nat i) m' = Some s').
      { unfold m_set_at in M. rewrite R in M. destruct e as [ke ve]. destruct (wr (m_storage m) (N.of_nat i) (ke, s')) as [st|] eqn:W; [|discriminate].
        injection M as <-. unfold set_at_. cbn [m_storage]. rewrite (rd_wr _ _ _ _ _ W), N.eqb_refl. reflexivity. }
      rewrite G'. destruct (s_size s' =? 0); [|reflexivity].
      assert (Hr' : read m_key_at m' a = Some k) by (rewrite <- Hr; destruct a as [x|p]; cbn [read]; [reflexivity|apply Ky]).
      rewrite (ma_erase_ok keqb m' l' a k Hi' Hr'). destruct (m_erase keqb m' k) as [[]|]; reflexivity.
  - rewrite Hv. split; [|reflexivity]. destruct (s_make vcap dv [v]) as [s|]; [|reflexivity].
    rewrite (ma_put_ok keqb m l a k (Elsewhere s) s Hi Hr eq_refl). destruct (m_put keqb m k s) as [[]|]; reflexivity.
Qed.

Lemma nth_firstn {A} n (l : list A) k x : nth_error (firstn n l) k = Some x -> nth_error l k = Some x.
Proof.
  revert l k. induction n as [|n IH]; intros l k H; [destruct k; discriminate H|]. destruct l as [|y l]; [destruct k; discriminate H|].
  destruct k as [|k]; [exact H|]. exact (IH l k H).
Qed.
Lemma nth_items {A} (size : N) (st l : list A) p x :
  (if size <=? len st then Some (firstn (N.to_nat size) st) else None) = Some l -> nth_error l (N.to_nat p) = Some x -> rd st p = Some x.
Proof. destruct (size <=? len st); [|discriminate]. intros [= <-] H. rewrite rd_nth_error. exact (nth_firstn _ _ _ _ H). Qed.

(** Each call gives what it gives for a copy [x] of the element that the argument refers to, made before
    the call.  cx_vector: push_back and assignment to an element. *)
Theorem C100_vector : forall A cap (v : vector A) l a x i, v_items v = Some l -> has l a x ->
  v_step cap v (VPush x) = match va_push v a with Some v' => Done v' (VVal x) [] | None => Undef end /\
  v_step cap v (VSet i x) = match va_set v i a with Some v' => Done v' VUnit [] | None => Undef end.
Proof.
  intros A cap v l a x i Hi H. apply reads_vector. destruct a as [y|p]; cbn [read has] in *; [congruence|]. exact (nth_items _ _ _ _ _ Hi H).
Qed.
Print Assumptions C100_vector.
(** cx_queue: push, when there is room; an element by its place in the storage. *)
Theorem C100_queue : forall A (mv : A -> A) pol h cap (q : queue A) a x, has (q_storage q) a x -> q_size q < cap ->
  q_step mv pol h cap q (Push x) = match qa_push cap q a with Some q' => Done q' (OVal x) [] | None => Undef end.
Proof.
  intros A mv pol h cap q a x H Hs. apply reads_queue; [|exact Hs]. destruct a as [y|p]; cbn [read has] in *; [congruence|]. unfold q_at. rewrite rd_nth_error. exact H.
Qed.
Print Assumptions C100_queue.
(** cx_set: contains, insert and erase. *)
Theorem C100_set : forall K eqb (s : cset K) l a k, s_items s = Some l -> has l a k ->
  sa_contains eqb s a = s_contains eqb s k /\ sa_insert eqb s a = s_insert eqb s k /\ sa_erase eqb s a = s_erase eqb s k.
Proof.
  intros K eqb s l a k Hi H. apply (reads_set _ _ _ l); [exact Hi|]. destruct a as [y|p]; cbn [read has] in *; [congruence|]. exact (nth_items _ _ _ _ _ Hi H).
Qed.
Print Assumptions C100_set.
(** cx_map: contains, insert_or_assign and erase, with a key and a value of any entries. *)
Lemma key_read {K V} (m : cmap K V) l a k : m_items m = Some l -> has (map fst l) a k -> read m_key_at m a = Some k.
Proof.
  intros Hi H. destruct a as [y|p]; cbn [read has] in *; [congruence|]. rewrite nth_error_map in H. destruct (nth_error l (N.to_nat p)) as [e|] eqn:E; [|discriminate].
  unfold m_key_at. rewrite (nth_items _ _ _ _ _ Hi E). exact H.
Qed.
Theorem C100_map : forall K V eqb (m : cmap K V) l a k b v, m_items m = Some l -> has (map fst l) a k -> has (map snd l) b v ->
  ma_contains eqb m a = m_contains eqb m k /\ ma_put eqb m a b = m_put eqb m k v /\ ma_erase eqb m a = m_erase eqb m k.
Proof.
  intros K V eqb m l a k b v Hi Ha Hb. apply (reads_map _ _ _ _ l); [exact Hi|exact (key_read m l a k Hi Ha)|].
  destruct b as [y|p]; cbn [read has] in *; [congruence|]. rewrite nth_error_map in Hb. destruct (nth_error l (N.to_nat p)) as [e|] eqn:E; [|discriminate].
  unfold m_value_at. rewrite (nth_items _ _ _ _ _ Hi E). exact Hb.
Qed.
Print Assumptions C100_map.
(** cx_multimap: insert and erase, with the key of any entry and any value of any entry's set. *)
Theorem C100_multimap : forall K V (keqb : K -> K -> bool) (veqb : V -> V -> bool) vcap dv (m : mmap) l a k b v,
  m_items m = Some l -> Forall (fun e => exists vs, s_items (snd e) = Some vs) l ->
  has (map fst l) a k -> has_in l b v ->
  mma_insert keqb veqb vcap dv m a b = mm_insert keqb veqb vcap dv m k v /\
  mma_erase keqb veqb m a b = mm_erase keqb veqb m k v.
Proof.
  intros K V keqb veqb vcap dv m l a k b v Hi Hs Ha Hb. apply (reads_multimap _ _ _ _ _ _ _ l); [exact Hi|exact Hs|exact (key_read m l a k Hi Ha)|].
  destruct b as [y|[i j]]; cbn [read has_in] in *; [congruence|]. destruct Hb as (k' & s & vs & E1 & E2 & E3).
  unfold mm_value_at. cbn [fst snd]. rewrite (nth_items _ _ _ _ _ Hi E1). exact (nth_items _ _ _ _ _ E2 E3).
Qed.
Print Assumptions C100_multimap.

(** Erasing with a reference to the first entry's key and its only value, of two. *)
Example C100_example :
  let e k vs n := (k, {| s_storage := vs; s_size := n |}) in
  let m : mmap := {| m_storage := [e 5 [7; 9] 1; e 6 [8; 7] 2; e 0 [0; 0] 0]; m_size := 2 |} in
  m_items m = Some [e 5 [7; 9] 1; e 6 [8; 7] 2] /\
  Forall (fun x => exists vs, s_items (snd x) = Some vs) [e 5 [7; 9] 1; e 6 [8; 7] 2] /\
  has (map fst [e 5 [7; 9] 1; e 6 [8; 7] 2]) (Element 0) 5 /\ has_in [e 5 [7; 9] 1; e 6 [8; 7] 2] (Element (0, 0)) 7 /\
  option_map (fun '(m', n) => (m_items m', n)) (mma_erase N.eqb N.eqb m (Element 0) (Element (0, 0))) = Some (Some [e 6 [8; 7] 2], 1).
Proof.
  cbv zeta. split; [reflexivity|]. split; [|split; [reflexivity|split; [do 3 eexists; split; [reflexivity|split; reflexivity]|reflexivity]]].
  apply Forall_cons; [eexists; reflexivity|]. apply Forall_cons; [eexists; reflexivity|constructor].
Qed.
Example C100_queue_example :
  let q := q_init 3 0 in
  option_map (fun q' => q_storage q') (match qa_push 3 q (Elsewhere 4) with Some q1 => qa_push 3 q1 (Element (q_pop q1)) | None => None end) = Some [4; 4; 0].
Proof. reflexivity. Qed.
