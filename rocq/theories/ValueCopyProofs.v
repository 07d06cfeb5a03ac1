From Coq Require Import Permutation.
From Verif Require Import Base BaseLemmas CxVectorModel CxVectorSpec CxVectorProofs CxQueueModel CxQueueSpec CxQueueProofs
  CxSetModel CxSetSpec CxSetProofs CxMapModel CxMapSpec CxMapProofs CxMultimapModel CxMultimapSpec CxMultimapProofs
  ValueCopyModel ValueCopySpec.
Open Scope N_scope.

Section Generic.
Context {P S M Op O : Type} (step : S -> Op -> outcome P S O) (left : S -> S)
  (pre : M -> Op -> Prop) (spec : M -> Op -> O -> M -> Prop) (rest : M -> option M)
  (restart : Op -> O -> M -> Prop) (R : S -> M -> Prop) (W : S -> Prop).
Hypothesis Hstep : forall s m op, R s m -> pre m op ->
  exists s' o m', step s op = Done s' o [] /\ spec m op o m' /\ R s' m'.
Hypothesis Hrestart : forall s op r m, W s -> restart op r m -> exists s', step s op = Done s' r [] /\ R s' m.
Hypothesis HW : forall s m, R s m -> W s.
Hypothesis HWleft : forall s, W s -> W (left s).
Hypothesis Hleft : forall s m m', R s m -> rest m = Some m' -> R (left s) m'.

Definition ORep (s : S) (x : option M) : Prop := match x with Some m => R s m | None => W s end.
Definition PRep (ss : list S) (ms : list (option M)) : Prop :=
  length ss = length ms /\ forall k s x, nth_error ss k = Some s -> nth_error ms k = Some x -> ORep s x.

Lemma same_there ss ms i x : PRep ss ms -> nth_error ms i = Some x -> exists s, nth_error ss i = Some s /\ ORep s x.
Proof.
  intros (HL & HR) E. destruct (nth_error ss i) as [s|] eqn:Es.
  - exists s. split; [reflexivity|]. exact (HR i s x Es E).
  - apply nth_error_None in Es. assert (nth_error ms i <> None) by congruence. apply nth_error_Some in H. lia.
Qed.
Lemma lt_of {A} (l : list A) i x : nth_error l i = Some x -> (i < length l)%nat.
Proof. intros E. apply nth_error_Some. congruence. Qed.

Lemma PRep_set ss ms i s x : PRep ss ms -> ORep s x -> PRep (set_nth i s ss) (set_nth i x ms).
Proof.
  intros (HL & HR) H. split; [now rewrite !set_nth_length|]. intros k t y E1 E2.
  destruct (Nat.lt_ge_cases i (length ms)) as [Hi|Hi].
  - rewrite nth_error_set_nth in E1 by lia. rewrite nth_error_set_nth in E2 by lia.
    destruct (Nat.eqb k i); [congruence|exact (HR k t y E1 E2)].
  - assert (Ek : (k < length ms)%nat).
    { apply lt_of in E2. rewrite set_nth_length in E2. exact E2. }
    assert (Z : forall A (l : list A) v n, (length l <= n)%nat -> set_nth n v l = l).
    { intros A l v. induction l as [|a l IH]; intros n Hn; [destruct n; reflexivity|].
      destruct n as [|n]; [cbn in Hn; lia|]. cbn. f_equal. apply IH. cbn in Hn. lia. }
    rewrite Z in E1 by lia. rewrite Z in E2 by lia. exact (HR k t y E1 E2).
Qed.
Lemma PRep_snoc ss ms s x : PRep ss ms -> ORep s x -> PRep (ss ++ [s]) (ms ++ [x]).
Proof.
  intros (HL & HR) H. split; [rewrite !app_length; cbn; lia|]. intros k t y E1 E2.
  destruct (Nat.lt_ge_cases k (length ss)) as [Hk|Hk].
  - rewrite nth_error_app1 in E1 by lia. rewrite nth_error_app1 in E2 by lia. exact (HR k t y E1 E2).
  - rewrite nth_error_app2 in E1 by lia. rewrite nth_error_app2 in E2 by lia. rewrite HL in E1.
    destruct (k - length ms)%nat as [|n]; [|destruct n; discriminate]. cbn in E1, E2. congruence.
Qed.
Lemma nth_snoc {A} (l : list A) x k : nth_error (l ++ [x]) k = if Nat.eqb k (length l) then Some x else nth_error l k.
Proof.
  destruct (Nat.eqb_spec k (length l)) as [->|Hk].
  - rewrite nth_error_app2 by lia. now rewrite Nat.sub_diag.
  - destruct (Nat.lt_ge_cases k (length l)) as [H|H]; [now rewrite nth_error_app1 by lia|].
    rewrite nth_error_app2 by lia. rewrite (proj2 (nth_error_None l k)) by lia.
    destruct (k - length l)%nat as [|n] eqn:E; [lia|]. destruct n; reflexivity.
Qed.
Lemma ORep_moved s x : ORep s x -> ORep (left s) (moved rest x).
Proof.
  destruct x as [m|]; cbn; [|apply HWleft]. intros H. destruct (rest m) as [m'|] eqn:E; cbn.
  - exact (Hleft s m m' H E).
  - apply HWleft. exact (HW s m H).
Qed.

Lemma p_step_ok ss ms op : PRep ss ms -> values_pre pre restart ms op ->
  exists ss' o ms', p_step step left ss op = Done ss' o [] /\ values_spec spec rest restart ms op o ms' /\ PRep ss' ms'.
Proof.
  intros HP Hp. destruct op as [i op|i|i j|i|i j|i j]; cbn [values_pre values_spec p_step] in *.
  - destruct Hp as (x & E & Hp). destruct (same_there _ _ _ _ HP E) as (s & Es & Hs). rewrite Es.
    assert (Z : exists s' o m', step s op = Done s' o [] /\ match x with Some m => spec m op o m' | None => restart op o m' end /\ R s' m').
    { destruct x as [m|]; cbn in Hs; [exact (Hstep s m op Hs Hp)|]. destruct Hp as (r & m' & Hr).
      destruct (Hrestart s op r m' Hs Hr) as (s' & E1 & E2). exists s', r, m'. auto. }
    destruct Z as (s' & o & m' & E1 & E2 & E3). rewrite E1.
    exists (set_nth i s' ss), (Out o), (set_nth i (Some m') ms). split; [reflexivity|]. split.
    + exists x, o, m'. repeat (split; [assumption || reflexivity|]). intros k. apply nth_error_set_nth. exact (lt_of _ _ _ E).
    + now apply PRep_set.
  - unfold there in Hp. destruct (nth_error ms i) as [x|] eqn:E; [|congruence].
    destruct (same_there _ _ _ _ HP E) as (s & Es & Hs). rewrite Es.
    exists (ss ++ [s]), (NewObject (length ss)), (ms ++ [x]). split; [reflexivity|]. split; [|now apply PRep_snoc].
    split; [now rewrite (proj1 HP)|]. intros k. now rewrite nth_snoc.
  - unfold there in Hp. destruct Hp as (Hi & Hj). destruct (nth_error ms i) as [x|] eqn:E; [|congruence].
    destruct (nth_error ms j) as [y|] eqn:Ej; [|congruence].
    destruct (same_there _ _ _ _ HP E) as (s & Es & Hs). destruct (same_there _ _ _ _ HP Ej) as (t & Et & Ht). rewrite Es, Et.
    exists (set_nth i t ss), NoOut, (set_nth i y ms). split; [reflexivity|]. split; [|now apply PRep_set].
    split; [reflexivity|]. intros k. apply nth_error_set_nth. exact (lt_of _ _ _ E).
  - unfold there in Hp. destruct (nth_error ms i) as [x|] eqn:E; [|congruence].
    destruct (same_there _ _ _ _ HP E) as (s & Es & Hs). rewrite Es.
    exists (set_nth i (left s) ss ++ [s]), (NewObject (length ss)), (set_nth i (moved rest x) ms ++ [x]).
    split; [reflexivity|]. split.
    + split; [now rewrite (proj1 HP)|]. intros k. rewrite nth_snoc, set_nth_length.
      destruct (Nat.eqb k (length ms)); [reflexivity|]. apply nth_error_set_nth. exact (lt_of _ _ _ E).
    + apply PRep_snoc; [|exact Hs]. apply PRep_set; [exact HP|]. now apply ORep_moved.
  - unfold there in Hp. destruct Hp as (Hi & Hj & Hne). destruct (nth_error ms i) as [x|] eqn:E; [|congruence].
    destruct (nth_error ms j) as [y|] eqn:Ej; [|congruence].
    destruct (same_there _ _ _ _ HP E) as (s & Es & Hs). destruct (same_there _ _ _ _ HP Ej) as (t & Et & Ht).
    rewrite (proj2 (Nat.eqb_neq i j) Hne), Es, Et.
    exists (set_nth i t (set_nth j (left t) ss)), NoOut, (set_nth i y (set_nth j (moved rest y) ms)).
    split; [reflexivity|]. split.
    + split; [reflexivity|]. intros k. rewrite nth_error_set_nth by (rewrite set_nth_length; exact (lt_of _ _ _ E)).
      destruct (Nat.eqb k i); [reflexivity|]. apply nth_error_set_nth. exact (lt_of _ _ _ Ej).
    + apply PRep_set; [|exact Ht]. apply PRep_set; [exact HP|]. now apply ORep_moved.
  - unfold there in Hp. destruct Hp as (Hi & Hj). destruct (nth_error ms i) as [x|] eqn:E; [|congruence].
    destruct (nth_error ms j) as [y|] eqn:Ej; [|congruence].
    destruct (same_there _ _ _ _ HP E) as (s & Es & Hs). destruct (same_there _ _ _ _ HP Ej) as (t & Et & Ht). rewrite Es, Et.
    exists (set_nth j s (set_nth i t ss)), NoOut, (set_nth j x (set_nth i y ms)). split; [reflexivity|]. split.
    + split; [reflexivity|]. intros k. rewrite nth_error_set_nth by (rewrite set_nth_length; exact (lt_of _ _ _ Ej)).
      rewrite nth_error_set_nth by exact (lt_of _ _ _ E).
      destruct (Nat.eqb_spec k i) as [Hki|], (Nat.eqb_spec k j) as [Hkj|]; try reflexivity. subst. congruence.
    + apply PRep_set; [|exact Hs]. now apply PRep_set.
Qed.

Lemma p_conforms s m ops : R s m ->
  conforms (p_step step left) (values_pre pre restart) (values_spec spec rest restart) [s] [Some m] ops.
Proof.
  intros H. apply (conforms_sim _ _ _ PRep); [exact p_step_ok|]. split; [reflexivity|].
  intros [|[|k]] t x E1 E2; cbn in E1, E2; try discriminate. injection E1 as <-. injection E2 as <-. exact H.
Qed.
End Generic.

(** What moving leaves. *)
Lemma VRep_left {A} (mv : A -> A) cap v l : VRep cap v l -> VRep cap (v_left mv v) (map mv l).
Proof.
  intros (H1 & H2 & t & Ht). split; [|split]; cbn [v_storage v_size v_left].
  - unfold len in *. now rewrite map_length.
  - rewrite H2. unfold len. now rewrite map_length.
  - exists (map mv t). rewrite Ht. apply map_app.
Qed.
Lemma Rep_left {A} (mv : A -> A) cap q l : Rep cap q l -> Rep cap (q_left mv q) (map mv l).
Proof.
  assert (L : forall k : list A, len (map mv k) = len k) by (intros; unfold len; now rewrite map_length).
  assert (RD : forall (k : list A) i, rd (map mv k) i = option_map mv (rd k i)).
  { intros k i. unfold rd. rewrite L. destruct (i <? len k); [apply nth_error_map|reflexivity]. }
  intros (H1 & H2 & H3 & H4 & H5 & H6). unfold Rep, q_left. cbn [q_storage q_push q_pop q_size]. rewrite !L.
  repeat (split; [assumption|]). intros i Hi. now rewrite !RD, H6.
Qed.
Lemma SRepL_left {K} (mv : K -> K) cap s l : SRepL cap s l -> SRepL cap (s_left mv s) (map mv l).
Proof.
  intros (H1 & H2 & t & Ht). split; [|split]; cbn [s_storage s_size s_left].
  - unfold len in *. now rewrite map_length.
  - rewrite H2. unfold len. now rewrite map_length.
  - exists (map mv t). rewrite Ht. apply map_app.
Qed.
Lemma MRepL_left {K V} (mvk : K -> K) (mvv : V -> V) cap s l : MRepL cap s l ->
  MRepL cap (m_left mvk mvv s) (map (fun e => (mvk (fst e), mvv (snd e))) l).
Proof.
  intros (H1 & H2 & t & Ht). split; [|split]; cbn [m_storage m_size m_left].
  - unfold len in *. now rewrite map_length.
  - rewrite H2. unfold len. now rewrite map_length.
  - eexists. rewrite Ht. apply map_app.
Qed.
Lemma map_same {A} (f : A -> A) l : (forall x, f x = x) -> map f l = l.
Proof. intros H. induction l as [|x l IH]; [reflexivity|]. cbn. now rewrite H, IH. Qed.

Lemma vectors_are_values {A} (mv : A -> A) cap d ts v ops : cap < size_mod -> v_make cap d ts = Some v ->
  conforms (p_step (v_step cap) (v_left mv)) (values_pre (fn_pre (vlist_step cap)) (fn_restart (vlist_step cap)))
    (values_spec (fn_spec (vlist_step cap)) (fun l => Some (map mv l)) (fn_restart (vlist_step cap))) [v] [Some ts] ops.
Proof.
  intros Hc Hm. apply (p_conforms _ _ _ _ _ _ (VRep cap) (fun _ => True)); [| |auto|auto| |].
  - intros s m op HR Hp. unfold fn_pre, fn_spec in *. destruct (vlist_step cap m op) as [[l' o]|] eqn:E; [|congruence].
    destruct (v_step_ok cap s m op l' o Hc HR E) as (v' & E1 & E2). exists v', o, l'. auto.
  - intros s op r m _ [].
  - intros s m m' HR [= <-]. now apply VRep_left.
  - revert Hm. unfold v_make. destruct (N.leb_spec (len ts) cap) as [H|]; [|discriminate].
    intros [= <-]. split; [|split]; cbn [v_storage v_size]; [rewrite len_app, len_repeat; lia|reflexivity|eauto].
Qed.
Lemma queues_are_values {A} (mv : A -> A) pol h cap d ops : 0 < cap -> cap < size_mod ->
  conforms (p_step (q_step mv pol h cap) (q_left mv)) (values_pre (fn_pre (fifo_step cap)) (fn_restart (fifo_step cap)))
    (values_spec (fn_spec (fifo_step cap)) (fun l => Some (map mv l)) (fn_restart (fifo_step cap))) [q_init cap d] [Some []] ops.
Proof.
  intros H0 Hc. apply (p_conforms _ _ _ _ _ _ (Rep cap) (fun _ => True)); [| |auto|auto| |].
  - intros s m op HR Hp. unfold fn_pre, fn_spec in *. destruct (fifo_step cap m op) as [[l' o]|] eqn:E; [|congruence].
    destruct (step_ok mv cap H0 Hc pol h s m op l' o HR E) as (v' & E1 & E2). exists v', o, l'. auto.
  - intros s op r m _ [].
  - intros s m m' HR [= <-]. now apply Rep_left.
  - now apply rep_init.
Qed.
Lemma sets_are_values {K} (eqb : K -> K -> bool) (Heq : forall x y, eqb x y = true <-> x = y) (mv : K -> K) (known : bool)
  cap d ts s ops : cap < size_mod -> (known = true -> forall k, mv k = k) -> NoDup ts -> s_make cap d ts = Some s ->
  conforms (p_step (s_step eqb) (s_left mv)) (values_pre (set_pre eqb cap) set_restart)
    (values_spec (set_spec eqb) (fun m => if known then Some m else None) set_restart) [s] [Some (in_list eqb ts)] ops.
Proof.
  intros Hc Hk Hn Hm. apply (p_conforms _ _ _ _ _ _ (SRep cap) (fun s => len (s_storage s) = cap)).
  - intros. now apply s_step_ok.
  - intros t op r m HW (-> & -> & Hm0). eexists. split; [reflexivity|]. exists []. split.
    + split; [exact HW|]. split; [reflexivity|]. exists (s_storage t). reflexivity.
    + split; [constructor|]. intros k. rewrite Hm0. cbn. split; [tauto|discriminate].
  - intros t m (l & (HR & _) & _). exact HR.
  - intros t HW. cbn. unfold len in *. now rewrite map_length.
  - intros t m m' (l & HR & He). destruct known; [|discriminate]. intros [= <-]. exists l. split; [|exact He].
    rewrite <- (map_same mv l) by auto. now apply SRepL_left.
  - exists ts. split; [apply (s_make_rep eqb Heq cap Hc d); exact Hm|]. split; [exact Hn|]. intros k. symmetry. now apply in_list_spec.
Qed.
Lemma maps_are_values {K V} (eqb : K -> K -> bool) (Heq : forall x y, eqb x y = true <-> x = y) (mvk : K -> K) (mvv : V -> V)
  (known : bool) cap d es m s ops : cap < size_mod -> (known = true -> forall k, mvk k = k) ->
  entries m es -> m_make cap d es = Some s ->
  conforms (p_step (m_step eqb cap) (m_left mvk mvv)) (values_pre (map_pre cap) map_restart)
    (values_spec (map_spec eqb cap) (fun m => if known then Some (fun k => option_map mvv (m k)) else None) map_restart) [s] [Some m] ops.
Proof.
  intros Hc Hk He Hm. apply (p_conforms _ _ _ _ _ _ (MRep cap) (fun s => len (m_storage s) = cap)).
  - intros. now apply m_step_ok.
  - intros t op r m0 HW (-> & -> & Hm0). eexists. split; [reflexivity|]. exists []. split.
    + split; [exact HW|]. split; [reflexivity|]. exists (m_storage t). reflexivity.
    + split; [constructor|]. intros k v. rewrite Hm0. cbn. split; [tauto|discriminate].
  - intros t m0 (l & (HR & _) & _). exact HR.
  - intros t HW. cbn. unfold len in *. now rewrite map_length.
  - intros t f f' (l & HR & Hn & Hi). destruct known; [|discriminate]. intros [= <-].
    exists (map (fun e => (mvk (fst e), mvv (snd e))) l). split; [now apply MRepL_left|].
    rewrite (map_ext _ (fun e => (fst e, mvv (snd e)))) by (intros; now rewrite Hk). split.
    + rewrite map_map. cbn. exact Hn.
    + intros k v. rewrite in_map_iff. split.
      * intros ([k' v'] & E & H). cbn in E. injection E as <- <-. apply Hi in H. now rewrite H.
      * destruct (f k) as [v'|] eqn:E; [|discriminate]. intros [= <-]. exists (k, v'). split; [reflexivity|]. now apply Hi.
  - exists es. split; [apply (m_make_rep cap Hc d); exact Hm|exact He].
Qed.

Lemma multimaps_are_values {K V} (keqb : K -> K -> bool) (Hk : forall x y, keqb x y = true <-> x = y)
  (veqb : V -> V -> bool) (Hv : forall x y, veqb x y = true <-> x = y) (mvk : K -> K) (mvv : V -> V) (known : bool)
  kcap vcap dk dv s ops : kcap < size_mod -> vcap < size_mod ->
  (known = true -> (forall k, mvk k = k) /\ forall v, mvv v = v) -> mm_init kcap vcap dk dv = Some s ->
  conforms (p_step (mm_step keqb veqb vcap dv) (mm_left mvk mvv)) (values_pre (mm_pre veqb kcap vcap) mm_restart)
    (values_spec (mm_spec veqb) (fun m => if known then Some m else None) mm_restart) [s] [Some (fun _ => None)] ops.
Proof.
  intros Hkc Hvc Hid Hs. apply (p_conforms _ _ _ _ _ _ (MMRep kcap vcap) (fun s => len (m_storage s) = kcap)).
  - intros t m op HR Hp. exact (mm_step_ok keqb Hk veqb Hv kcap Hkc vcap Hvc dk dv t m op HR Hp).
  - intros t op r m HW (-> & -> & Hm0). eexists. split; [reflexivity|]. exists (fun _ => None). split.
    + exists []. split.
      * split; [exact HW|]. split; [reflexivity|]. exists (m_storage t). reflexivity.
      * split; [constructor|]. intros k v. cbn. split; [tauto|discriminate].
    + intros k. rewrite Hm0. exact Logic.I.
  - intros t m (mid & (l & (HR & _) & _) & _). exact HR.
  - intros t HW. cbn. unfold len in *. now rewrite map_length.
  - intros t m m' (mid & (l & HR & He) & HL). destruct known; [|discriminate]. intros [= <-].
    destruct (Hid eq_refl) as (Ik & Iv). exists mid. split; [|exact HL]. exists l. split; [|exact He].
    pose proof (MRepL_left mvk (s_left mvv) kcap t l HR) as Z. rewrite map_same in Z; [exact Z|].
    intros [k [st n]]. cbn. unfold s_left. cbn. rewrite Ik, map_same by exact Iv. reflexivity.
  - unfold mm_init in Hs. destruct (empty_set vcap dv) as [es|]; [|discriminate].
    exists (fun _ => None). split; [|intros; exact Logic.I]. exists []. split.
    + eapply m_make_rep; eassumption.
    + split; [constructor|]. intros k v. cbn. split; [tauto|discriminate].
Qed.

(** Moved-from sets and maps. *)
Lemma In_twice {A B} (f : A -> B) a b l k : In a l -> In b l -> a <> b -> f a = k -> f b = k ->
  forall r, Permutation (k :: r) (map f l) -> In k r.
Proof.
  intros Ha Hb Hne Ea Eb r Hp. apply in_split in Ha. destruct Ha as (l1 & l2 & ->).
  assert (Hb' : In b (l1 ++ l2)).
  { apply in_app_or in Hb. apply in_or_app. destruct Hb as [|[|]]; [auto|congruence|auto]. }
  rewrite map_app in Hp. cbn [map] in Hp. rewrite Ea in Hp.
  assert (Hq : Permutation r (map f l1 ++ map f l2)).
  { apply (Permutation_cons_inv (a := k)). etransitivity; [exact Hp|]. symmetry. apply Permutation_middle. }
  apply (Permutation_in k (Permutation_sym Hq)). rewrite <- map_app. rewrite <- Eb. now apply in_map.
Qed.
Lemma s_erase_list {K} (eqb : K -> K -> bool) (Heq : forall x y, eqb x y = true <-> x = y) cap (Hc : cap < size_mod) s l k :
  SRepL cap s l -> In k l ->
  exists s' r, s_erase eqb s k = Some (s', 1) /\ SRepL cap s' r /\ Permutation (k :: r) l.
Proof.
  intros HR Hin. unfold s_erase. rewrite (s_items_ok cap Hc s l HR). pose proof (SRepL_le cap Hc s l HR) as Hle.
  pose proof (find_in eqb Heq l k) as Hf. destruct (find_idx _ l) as [i|]; [|tauto].
  destruct Hf as (l1 & l2 & El & <-). destruct HR as (H1 & H2 & t & Ht).
  destruct (swap_remove l1 k l2 t) as (y & l' & z & Ey & Ew & El' & Hp).
  assert (Hlen : len l = len l1 + len l2 + 1) by (rewrite El, len_app, len_cons; lia).
  rewrite H2, sz_dec_pos by lia. replace (len l - 1) with (len l1 + len l2) by lia.
  rewrite Ht, El, Ey. change (N.of_nat (length l1)) with (len l1). rewrite Ew.
  eexists. exists l'. split; [reflexivity|]. split; [|exact Hp]. split; [|split]; cbn [s_storage s_size].
  - rewrite <- H1, Ht, El, !len_app, !len_cons. lia.
  - lia.
  - exists (z :: t). reflexivity.
Qed.
Lemma moved_set {K} (eqb : K -> K -> bool) (Heq : forall x y, eqb x y = true <-> x = y) (mv : K -> K) cap d ts s a b :
  cap < size_mod -> s_make cap d ts = Some s -> In a ts -> In b ts -> a <> b -> mv a = mv b ->
  exists ss, run (p_step (s_step eqb) (s_left mv)) [s]
    [Move 0; At 0 SSize; At 0 SItems; At 0 (SErase (mv a)); At 0 (SContains (mv a)); At 1 SItems]
  = Done ss [NewObject 1; Out (SNum (len ts)); Out (SList (map mv ts)); Out (SNum 1); Out (SBool true); Out (SList ts)] [].
Proof.
  intros Hc Hm Ha Hb Hne Emv. pose proof (s_make_rep eqb Heq cap Hc d ts s Hm) as HR. pose proof (SRepL_left mv cap s ts HR) as HL.
  destruct (s_erase_list eqb Heq cap Hc (s_left mv s) (map mv ts) (mv a) HL (in_map mv _ _ Ha)) as (s' & r & Ee & Hr & Hp).
  assert (Hin : In (mv a) r) by (apply (In_twice mv a b ts (mv a) Ha Hb Hne eq_refl (eq_sym Emv)); exact Hp).
  assert (Ec : s_contains eqb s' (mv a) = Some true).
  { unfold s_contains. rewrite (s_items_ok cap Hc s' r Hr). pose proof (find_in eqb Heq r (mv a)) as Hf.
    destruct (find_idx _ r); [reflexivity|tauto]. }
  assert (Ei : s_items (s_left mv s) = Some (map mv ts)) by exact (s_items_ok cap Hc _ _ HL).
  assert (Ei2 : s_items s = Some ts) by exact (s_items_ok cap Hc _ _ HR).
  assert (Es : s_size (s_left mv s) = len ts) by (destruct HR as (_ & HR & _); exact HR).
  eexists. cbn [run p_step nth_error set_nth length app s_step].
  rewrite Es, Ei. cbn [nth_error set_nth length app option_map]. rewrite Ee. cbn [nth_error set_nth option_map].
  rewrite Ec. cbn [nth_error set_nth option_map]. rewrite Ei2. reflexivity.
Qed.
Lemma m_find_first {K V} (eqb : K -> K -> bool) (Heq : forall x y, eqb x y = true <-> x = y) cap (Hc : cap < size_mod)
  (s : cmap K V) l k : MRepL cap s l -> In k (map fst l) ->
  exists l1 v l2, l = l1 ++ (k, v) :: l2 /\ m_find eqb s k = Some (Some (length l1)).
Proof.
  intros HR Hin. unfold m_find. rewrite (m_items_ok cap Hc s l HR).
  destruct (find_idx (fun e => eqb (fst e) k) l) as [i|] eqn:E.
  - destruct (find_idx_Some _ _ _ E) as (l1 & [k' v] & l2 & -> & <- & Hx & _). cbn in Hx. apply Heq in Hx. subst k'.
    exists l1, v, l2. split; [reflexivity|]. cbn [option_map]. now rewrite E.
  - apply in_map_iff in Hin. destruct Hin as ([k' v] & Ek & Hin). cbn in Ek. subst k'.
    pose proof (find_idx_None _ _ E (k, v) Hin) as Z. cbn in Z. rewrite (proj2 (Heq k k) eq_refl) in Z. discriminate.
Qed.
Lemma m_erase_list {K V} (eqb : K -> K -> bool) (Heq : forall x y, eqb x y = true <-> x = y) cap (Hc : cap < size_mod)
  (s : cmap K V) l k : MRepL cap s l -> In k (map fst l) ->
  exists s' r, m_erase eqb s k = Some (s', 1) /\ MRepL cap s' r /\ Permutation (k :: map fst r) (map fst l).
Proof.
  intros HR Hin. unfold m_erase. destruct (m_find_first eqb Heq cap Hc s l k HR Hin) as (l1 & v & l2 & El & ->).
  pose proof (MRepL_le cap Hc s l HR) as Hle. destruct HR as (H1 & H2 & t & Ht).
  destruct (swap_remove l1 (k, v) l2 t) as (y & l' & z & Ey & Ew & El' & Hp).
  assert (Hlen : len l = len l1 + len l2 + 1) by (rewrite El, len_app, len_cons; lia).
  rewrite H2, sz_dec_pos by lia. replace (len l - 1) with (len l1 + len l2) by lia.
  rewrite Ht, El, Ey. change (N.of_nat (length l1)) with (len l1). rewrite Ew.
  eexists. exists l'. split; [reflexivity|]. split.
  - split; [|split]; cbn [m_storage m_size].
    + rewrite <- H1, Ht, El, !len_app, !len_cons. lia.
    + lia.
    + exists (z :: t). reflexivity.
  - apply (Permutation_map fst) in Hp. exact Hp.
Qed.
Lemma moved_map {K V} (eqb : K -> K -> bool) (Heq : forall x y, eqb x y = true <-> x = y) (mvk : K -> K) (mvv : V -> V)
  cap d es s a b : cap < size_mod -> m_make cap d es = Some s -> In a (map fst es) -> In b (map fst es) -> a <> b -> mvk a = mvk b ->
  exists ss, run (p_step (m_step eqb cap) (m_left mvk mvv)) [s]
    [Move 0; At 0 MSize; At 0 MItems; At 0 (MErase (mvk a)); At 0 (MContains (mvk a)); At 1 MItems]
  = Done ss [NewObject 1; Out (MNum (len es)); Out (MList (map (fun e => (mvk (fst e), mvv (snd e))) es));
             Out (MNum 1); Out (MBool true); Out (MList es)] [].
Proof.
  intros Hc Hm Ha Hb Hne Emv. pose proof (m_make_rep cap Hc d es s Hm) as HR.
  pose proof (MRepL_left mvk mvv cap s es HR) as HL. set (les := map (fun e => (mvk (fst e), mvv (snd e))) es) in *.
  assert (Ef : map fst les = map mvk (map fst es)) by (unfold les; now rewrite !map_map).
  destruct (m_erase_list eqb Heq cap Hc (m_left mvk mvv s) les (mvk a) HL) as (s' & r & Ee & Hr & Hp).
  { rewrite Ef. now apply in_map. }
  rewrite Ef in Hp.
  assert (Hin : In (mvk a) (map fst r)) by (apply (In_twice mvk a b (map fst es) (mvk a) Ha Hb Hne eq_refl (eq_sym Emv)); exact Hp).
  assert (Ec : m_contains eqb s' (mvk a) = Some true).
  { unfold m_contains. destruct (m_find_first eqb Heq cap Hc s' r (mvk a) Hr Hin) as (l1 & v & l2 & _ & ->). reflexivity. }
  assert (Ei : m_items (m_left mvk mvv s) = Some les) by exact (m_items_ok cap Hc _ _ HL).
  assert (Ei2 : m_items s = Some es) by exact (m_items_ok cap Hc _ _ HR).
  assert (Es : m_size (m_left mvk mvv s) = len es) by (destruct HR as (_ & HR & _); exact HR).
  eexists. cbn [run p_step nth_error set_nth length app m_step].
  rewrite Es, Ei. cbn [nth_error set_nth length app option_map]. rewrite Ee. cbn [nth_error set_nth option_map].
  rewrite Ec. cbn [nth_error set_nth option_map]. rewrite Ei2. reflexivity.
Qed.
