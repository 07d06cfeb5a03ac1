From Coq Require Import Permutation.
From Verif Require Import Base BaseLemmas BitModel BitsetSpec ConcModel RelaxedModel RelaxedProofs AtomicModel AtomicSpec AtomicBitsetModel AtomicBitsetSpec MultiModel MultiSpec MultiProofs MultiProofs2 MultiProofs3 MultiProofs4 PetersonSpec PetersonProofs RingSpec RingProofs.
Open Scope nat_scope.

Section Run.
Context (objs : nat -> object_type) (st : nat -> obj_state) (programs : list (list call)) (contents : nat -> nat -> N) (n : nat -> nat).
Context (evss : list (list mevent)) (ts : list (mthread call reply)) (outss : list (list (call * reply))).
Context (R : shared_run objs st programs contents n evss ts outss).
Notation rs := (replies ts outss).
Notation expl := (explains (code objs) target (fun c => wanted (asked c)) (good_call objs) (fun x => represents (objs x)) (fun s c o s' => effect (objs (target c)) s (asked c) o s') contents).
Context (w : N) (size : nat).
Notation W := (range w).
Context (Wide : (Z.of_nat size < W)%Z).

(** ** One side of the ring: the thread [a] increases [x] when what it found in [y] allows it *)
Definition able (a x y D k : nat) : Prop :=
  exists l cl r, l < k /\ nth_error (rs a) l = Some cl /\ finds y r cl /\
    (Z.of_nat (changed x (rs a) k - changed x (rs a) l + size) < W)%Z /\
    ((Z.of_N r + Z.of_nat D - Z.of_nat (changed x (rs a) k) - 1) mod W < Z.of_nat size)%Z.
Record side (a x y D : nat) : Prop := {
  s_int : exists iw ew sg esg, objs x = Int iw w ew sg esg;
  s_start : st x = IntState 0;
  s_others : forall t k co, t <> a -> nth_error (rs t) k = Some co -> target (fst co) = x -> access_of (asked (fst co)) = Reads;
  s_inc : forall k co, nth_error (rs a) k = Some co -> target (fst co) = x -> access_of (asked (fst co)) = Reads \/ increases x (rolled w (changed x (rs a) k + 1)) (fst co) /\ able a x y D k;
  s_release : forall c, In c (concat programs) -> target c = x -> (access_of (asked c) <> Reads -> is_release (wanted (asked c)) = true) /\ (access_of (asked c) = Reads -> is_acquire (wanted (asked c)) = true) }.
Lemma s_inc' a x y D : side a x y D -> forall k co, nth_error (rs a) k = Some co -> target (fst co) = x -> access_of (asked (fst co)) = Reads \/ increases x (rolled w (changed x (rs a) k + 1)) (fst co).
Proof. intros S k co E T. destruct (s_inc _ _ _ _ S k co E T) as [A|[A _]]; auto. Qed.
Lemma s_able a x y D k co : side a x y D -> nth_error (rs a) k = Some co -> modifying x co = true -> able a x y D k.
Proof.
  intros S E M. unfold modifying in M. apply andb_true_iff in M as [T A]. apply Nat.eqb_eq in T. destruct (s_inc _ _ _ _ S k co E T) as [A'|[_ A']]; [now rewrite A' in A|exact A'].
Qed.
(** What a load of [x] finds at place [k > 0] was put there by call number [q], which happens before it. *)
Lemma load_from a x y D t l e co : side a x y D -> nth_error (rs t) l = Some co -> event_at evss (t, l) = Some e -> target (fst co) = x -> access_of (asked (fst co)) = Reads -> 1 <= place (what e) ->
  exists q cq, nth_error (rs a) q = Some cq /\ modifying x cq = true /\ changed x (rs a) q + 1 = place (what e) /\ happens_before evss (a, q) (t, l).
Proof.
  intros S E Ee T Rd P. destruct (r_ev objs st programs contents n evss ts outss R _ _ _ E) as (e0 & Ee0 & Hx & O & I). rewrite Ee in Ee0. injection Ee0 as <-.
  assert (M : modifies (what e) = false) by (rewrite (r_mod objs st programs contents n evss ts outss R _ _ Hx), Rd; reflexivity).
  destruct (read_from objs st programs contents n evss ts outss R t l e co Ee Hx M ltac:(lia)) as (u & p & ep & cp & Ep & Rp & Hp & Op & Tp & Mp & Pp & Ap & Sy).
  assert (u = a) as -> by (destruct (Nat.eq_dec u a) as [|N]; [assumption|]; exfalso; apply Ap; apply (s_others _ _ _ _ S u p cp N Rp); congruence).
  assert (Mc : modifying x cp = true) by (rewrite (modifying_of objs st programs contents n evss ts outss R x ep cp Hp) by congruence; exact Mp).
  exists p, cp. split; [exact Rp|]. split; [exact Mc|]. split.
  - rewrite (place_of objs st programs contents n evss ts outss R x a (s_others _ _ _ _ S) (place (what e) - 1) p ep cp Ep Rp Mc); lia.
  - apply Sy; [apply (proj1 (s_release _ _ _ _ S _ (r_in objs st programs contents n evss ts outss R _ _ _ Rp) ltac:(congruence))); exact Ap|].
    apply (proj2 (s_release _ _ _ _ S _ (r_in objs st programs contents n evss ts outss R _ _ _ E) T)); exact Rd.
Qed.
Lemma load_value a x y D t l e co r : side a x y D -> nth_error (rs t) l = Some co -> event_at evss (t, l) = Some e -> finds x r co -> r = rolled w (place (what e)) /\ access_of (asked (fst co)) = Reads.
Proof.
  intros S E Ee F. destruct (r_ev objs st programs contents n evss ts outss R _ _ _ E) as (e0 & Ee0 & Hx & O & I). rewrite Ee in Ee0. injection Ee0 as <-.
  destruct (s_int _ _ _ _ S) as (iw & ew & sg & esg & Ox). pose proof (proj1 F) as T.
  destruct (find_value objs st programs contents n evss ts outss R x r e co ltac:(do 5 eexists; exact Ox) Hx ltac:(congruence) F) as (_ & Rd & V). split; [|exact Rd].
  rewrite <- V. apply (counter_value objs st programs contents n evss ts outss R x a w (s_int _ _ _ _ S) (s_start _ _ _ _ S) (s_others _ _ _ _ S) (s_inc' _ _ _ _ S)).
  destruct (exec_event _ contents n evss (run_memory _ _ _ _ _ _ _ _ R) e I) as (_ & B & _). rewrite O, T in B. exact B.
Qed.

(** What a load of the other counter finds is never further away than it can be. *)
Definition load_ok (a x y D D' l : nat) : Prop :=
  forall cl e, nth_error (rs a) l = Some cl -> target (fst cl) = y -> access_of (asked (fst cl)) = Reads -> event_at evss (a, l) = Some e ->
    changed x (rs a) l <= place (what e) + D /\ place (what e) <= changed x (rs a) l + D'.
Lemma range_of_rolled k : Z.of_N (rolled w k) = (Z.of_nat k mod W)%Z.
Proof. unfold rolled, range. rewrite N2Z.inj_mod, N2Z.inj_pow, nat_N_Z. reflexivity. Qed.
Lemma exact (a x b y D D' k : nat) : side b y x D' -> D + D' = size -> able a x y D k ->
  (forall l, l < k -> load_ok a x y D D' l) ->
  exists l cl e, l < k /\ nth_error (rs a) l = Some cl /\ target (fst cl) = y /\ access_of (asked (fst cl)) = Reads /\ event_at evss (a, l) = Some e /\ changed x (rs a) k + 1 <= place (what e) + D.
Proof.
  intros S E (l & cl & r & L & El & F & Old & Cond) OK. destruct (r_ev objs st programs contents n evss ts outss R _ _ _ El) as (e & Ee & Hx & O & I).
  destruct (load_value b y x D' a l e cl r S El Ee F) as [Vr Rd]. destruct (OK l L cl e El (proj1 F) Rd Ee) as [B1 B2].
  exists l, cl, e. repeat (split; [first [assumption|exact (proj1 F)]|]).
  subst r. rewrite range_of_rolled in Cond. pose proof (changed_le x (rs a) l k ltac:(lia)) as Mo.
  replace ((Z.of_nat (place (what e)) mod W + Z.of_nat D - Z.of_nat (changed x (rs a) k) - 1))%Z with (Z.of_nat (place (what e)) mod W + (Z.of_nat D - Z.of_nat (changed x (rs a) k) - 1))%Z in Cond by lia.
  rewrite Zplus_mod_idemp_l in Cond. destruct (Nat.lt_ge_cases (place (what e) + D) (changed x (rs a) k + 1)) as [C|C]; [|exact C]. exfalso.
  set (v := (Z.of_nat (place (what e)) + (Z.of_nat D - Z.of_nat (changed x (rs a) k) - 1))%Z) in *.
  assert (Bv : (- W + Z.of_nat size <= v < 0)%Z) by (unfold v; lia).
  assert (Ev : (v mod W = v + W)%Z). { symmetry. apply (Z.mod_unique v W (-1)); lia. }
  rewrite Ev in Cond. lia.
Qed.
Lemma step a x b y D D' l : a <> b -> side a x y D -> side b y x D' -> D + D' = size ->
  (forall m, happens_before evss m (a, l) -> (fst m = a -> load_ok a x y D D' (snd m)) /\ (fst m = b -> load_ok b y x D' D (snd m))) -> load_ok a x y D D' l.
Proof.
  intros Nab Sa Sb Sz IH cl e El T Rd Ee.
  assert (Seq : forall t k k', k < k' -> happens_before evss (t, k) (t, k')) by (intros t k k' L; apply hb_sequenced; split; [reflexivity|exact L]).
  split.
  - destruct (changed x (rs a) l) as [|c] eqn:C; [lia|]. destruct (changed_at x (rs a) l c ltac:(lia)) as (q & cq & Lq & Eq & Mq & Cq).
    destruct (exact a x b y D D' q Sb Sz (s_able _ _ _ _ _ _ Sa Eq Mq)) as (l' & cl' & e' & L' & El' & T' & Rd' & Ee' & B').
    { intros l' L'. apply (IH (a, l')); [|reflexivity]. apply Seq. lia. }
    assert (place (what e') <= place (what e)).
    { destruct (r_ev objs st programs contents n evss ts outss R _ _ _ El) as (e0 & Ee0 & Hx & O & _). rewrite Ee in Ee0. injection Ee0 as <-.
      destruct (r_ev objs st programs contents n evss ts outss R _ _ _ El') as (e0 & Ee0 & Hx' & O' & _). rewrite Ee' in Ee0. injection Ee0 as <-.
      destruct (po_coherent objs st programs contents n evss ts outss R a l' e' l e Ee' Ee ltac:(congruence) ltac:(lia)) as (_ & RR & _). apply RR.
      - rewrite (r_reads objs contents _ _ Hx') by (rewrite Rd'; discriminate). unfold since. rewrite (r_mod objs st programs contents n evss ts outss R _ _ Hx'), Rd'. reflexivity.
      - rewrite (r_reads objs contents _ _ Hx) by (rewrite Rd; discriminate). unfold since. rewrite (r_mod objs st programs contents n evss ts outss R _ _ Hx), Rd. reflexivity. }
    lia.
  - destruct (Nat.le_gt_cases (place (what e)) (changed x (rs a) l + D')) as [B|B]; [exact B|]. exfalso.
    destruct (load_from b y x D' a l e cl Sb El Ee T Rd ltac:(lia)) as (kc & ck & Ek & Mk & Ck & Hk).
    destruct (exact b y a x D' D kc Sa ltac:(lia) (s_able _ _ _ _ _ _ Sb Ek Mk)) as (lc & clc & ec & Lc & Elc & Tc & Rdc & Eec & Bc).
    { intros lc Lc. apply (IH (b, lc)); [|reflexivity]. apply hb_then with (b, kc); [apply Seq; lia|exact Hk]. }
    destruct (load_from a x y D b lc ec clc Sa Elc Eec Tc Rdc ltac:(lia)) as (q & cq & Eq & Mq & Cq & Hq).
    assert (l < q).
    { destruct (Nat.lt_trichotomy l q) as [H|[H|H]]; [exact H| |]; exfalso.
      - subst q. assert (cq = cl) by congruence. subst cq. unfold modifying in Mq. rewrite Rd, andb_false_r in Mq. discriminate.
      - pose proof (changed_lt x (rs a) q l cq Eq Mq H). lia. }
    apply (hb_irreflexive objs st programs contents n evss ts outss R (a, l)).
    apply hb_then with (a, q); [now apply Seq|]. apply hb_then with (b, lc); [exact Hq|]. apply hb_then with (b, kc); [now apply Seq|exact Hk].
Qed.
Lemma loads_ok a x b y D D' : a <> b -> side a x y D -> side b y x D' -> D + D' = size -> forall l, load_ok a x y D D' l.
Proof.
  intros Nab Sa Sb Sz.
  assert (H : forall m, Acc (happens_before evss) m -> (fst m = a -> load_ok a x y D D' (snd m)) /\ (fst m = b -> load_ok b y x D' D (snd m))).
  { induction 1 as [[t l] _ IH]. cbn. split; intros ->.
    - apply (step a x b y D D' l Nab Sa Sb Sz). exact IH.
    - apply (step b y a x D' D l ltac:(congruence) Sb Sa ltac:(lia)). intros m Hm. destruct (IH m Hm). auto. }
  intros l cl e El T Rd Ee. apply (H (a, l)) with (cl := cl); try assumption; try reflexivity. apply (hb_acc objs st programs contents n evss ts outss R). congruence.
Qed.
(** So a call of [a] that goes ahead comes after the calls of [b] it has to wait for. *)
Lemma comes_after a x b y D D' k k' co : a <> b -> side a x y D -> side b y x D' -> D + D' = size ->
  able a x y D k -> nth_error (rs b) k' = Some co -> modifying y co = false -> changed y (rs b) k' + D <= changed x (rs a) k -> happens_before evss (b, k') (a, k).
Proof.
  intros Nab Sa Sb Sz A E N B. destruct (exact a x b y D D' k Sb Sz A) as (l & cl & e & L & El & T & Rd & Ee & Be); [intros l _; now apply (loads_ok a x b y D D')|].
  destruct (load_from b y x D' a l e cl Sb El Ee T Rd ltac:(lia)) as (q & cq & Eq & Mq & Cq & Hq).
  assert (k' < q).
  { destruct (Nat.lt_trichotomy k' q) as [H|[H|H]]; [exact H| |]; exfalso; [subst q; congruence|]. pose proof (changed_lt y (rs b) q k' cq Eq Mq H). lia. }
  apply hb_then with (b, q); [apply hb_sequenced; split; [reflexivity|exact H]|]. apply hb_then with (a, l); [exact Hq|]. apply hb_sequenced. split; [reflexivity|exact L].
Qed.
End Run.

(** ** The ring *)
Section Ring.
Context (objs : nat -> object_type) (st : nat -> obj_state) (programs : list (list call)) (contents : nat -> nat -> N) (n : nat -> nat).
Context (evss : list (list mevent)) (ts : list (mthread call reply)) (outss : list (list (call * reply))).
Context (R : shared_run objs st programs contents n evss ts outss).
Notation rs := (replies ts outss).
Context (head tail : nat) (w : N) (slot : nat -> nat) (size p c : nat).
Context (G : ring head tail w slot size objs st rs p c).
Context (RA : counters_release_acquire head tail programs).
Notation W := (range w).

Lemma room_able k : room head tail w size (rs p) k -> able ts outss w size p tail head size k.
Proof.
  intros (l & cl & r & L & E & F & Old & Cond). exists l, cl, r. repeat (split; [assumption|]). pose proof (r_width _ _ _ _ _ _ _ _ _ _ G) as Wd.
  pose proof (Z.mod_pos_bound (Z.of_nat (changed tail (rs p) k) - Z.of_N r) W ltac:(lia)) as B. set (v := ((Z.of_nat (changed tail (rs p) k) - Z.of_N r) mod W)%Z) in *.
  pose proof (Z.div_mod (Z.of_nat (changed tail (rs p) k) - Z.of_N r) W ltac:(lia)) as Dv. fold v in Dv. set (d := ((Z.of_nat (changed tail (rs p) k) - Z.of_N r) / W)%Z) in *.
  replace ((Z.of_N r + Z.of_nat size - Z.of_nat (changed tail (rs p) k) - 1) mod W)%Z with (Z.of_nat size - 1 - v)%Z; [lia|].
  apply (Z.mod_unique _ W (- d)); [lia|]. rewrite Z.mul_opp_r. lia.
Qed.
Lemma filled_able k : filled head tail w size (rs c) k -> able ts outss w size c head tail 0 k.
Proof.
  intros (l & cl & r & L & E & F & Old & Cond). exists l, cl, r. repeat (split; [assumption|]). pose proof (r_width _ _ _ _ _ _ _ _ _ _ G) as Wd.
  set (v := ((Z.of_N r - Z.of_nat (changed head (rs c) k)) mod W)%Z) in *.
  pose proof (Z.div_mod (Z.of_N r - Z.of_nat (changed head (rs c) k)) W ltac:(lia)) as Dv. fold v in Dv. set (d := ((Z.of_N r - Z.of_nat (changed head (rs c) k)) / W)%Z) in *.
  replace ((Z.of_N r + Z.of_nat 0 - Z.of_nat (changed head (rs c) k) - 1) mod W)%Z with (v - 1)%Z; [lia|].
  apply (Z.mod_unique _ W d); lia.
Qed.
Lemma producer_side : side objs st programs ts outss w size p tail head size.
Proof.
  destruct G. split; [apply r_types; now right|apply r_start| | |].
  - intros t k co N E T. destruct (Nat.eq_dec t c) as [-> |Nc]; [exact (c_tail _ _ _ _ _ _ r_consumer k co E T)|]. apply (r_others t k co N Nc E). now right.
  - intros k co E T. destruct (p_tail _ _ _ _ _ _ r_producer k co E T) as [A|[A B]]; [now left|right]. split; [exact A|now apply room_able].
  - intros x I T. apply RA; [exact I|now right].
Qed.
Lemma consumer_side : side objs st programs ts outss w size c head tail 0.
Proof.
  destruct G. split; [apply r_types; now left|apply r_start| | |].
  - intros t k co N E T. destruct (Nat.eq_dec t p) as [-> |Np]; [exact (p_head _ _ _ _ _ _ r_producer k co E T)|]. apply (r_others t k co Np N E). now left.
  - intros k co E T. destruct (c_head _ _ _ _ _ _ r_consumer k co E T) as [A|[A B]]; [now left|right]. split; [exact A|now apply filled_able].
  - intros x I T. apply RA; [exact I|now left].
Qed.
Lemma slot_not x co : is_slot slot size (target (fst co)) -> x = head \/ x = tail -> modifying x co = false.
Proof.
  intros (m & Lm & E) H. destruct (r_counters _ _ _ _ _ _ _ _ _ _ G) as [_ N]. destruct (N m Lm) as [N1 N2]. unfold modifying. replace (target (fst co) =? x) with false; [reflexivity|].
  symmetry. apply Nat.eqb_neq. destruct H as [-> | ->]; congruence.
Qed.
Lemma push_first i j k k' : in_push tail slot size (rs p) i k -> in_pop head slot size (rs c) j k' -> i <= j -> happens_before evss (p, k) (c, k').
Proof.
  intros (co & E & S & C) (co' & E' & S' & C') L.
  apply (comes_after objs st programs contents n evss ts outss R w size (r_width _ _ _ _ _ _ _ _ _ _ G) c head p tail 0 size k' k co); try assumption.
  - intros H. symmetry in H. now apply (r_threads _ _ _ _ _ _ _ _ _ _ G).
  - exact consumer_side.
  - exact producer_side.
  - reflexivity.
  - apply filled_able. exact (proj2 (c_slots _ _ _ _ _ _ (r_consumer _ _ _ _ _ _ _ _ _ _ G) k' co' E' S')).
  - apply slot_not; auto.
  - lia.
Qed.
Lemma pop_first i j k k' : in_push tail slot size (rs p) i k -> in_pop head slot size (rs c) j k' -> j + size <= i -> happens_before evss (c, k') (p, k).
Proof.
  intros (co & E & S & C) (co' & E' & S' & C') L.
  apply (comes_after objs st programs contents n evss ts outss R w size (r_width _ _ _ _ _ _ _ _ _ _ G) p tail c head size 0 k k' co'); try assumption.
  - now apply (r_threads _ _ _ _ _ _ _ _ _ _ G).
  - exact producer_side.
  - exact consumer_side.
  - lia.
  - apply room_able. exact (proj2 (p_slots _ _ _ _ _ _ (r_producer _ _ _ _ _ _ _ _ _ _ G) k co E S)).
  - apply slot_not; auto.
  - lia.
Qed.
(** The slots that are used *)
Lemma used t k co : nth_error (rs t) k = Some co -> is_slot slot size (target (fst co)) ->
  t = p /\ (exists i, in_push tail slot size (rs p) i k /\ target (fst co) = slot (i mod size)) \/ t = c /\ (exists i, in_pop head slot size (rs c) i k /\ target (fst co) = slot (i mod size)).
Proof.
  intros E S. destruct (Nat.eq_dec t p) as [-> |Np]; [|destruct (Nat.eq_dec t c) as [-> |Nc]].
  - left. split; [reflexivity|]. exists (changed tail (rs p) k). split; [exists co; auto|]. exact (proj1 (p_slots _ _ _ _ _ _ (r_producer _ _ _ _ _ _ _ _ _ _ G) k co E S)).
  - right. split; [reflexivity|]. exists (changed head (rs c) k). split; [exists co; auto|]. exact (proj1 (c_slots _ _ _ _ _ _ (r_consumer _ _ _ _ _ _ _ _ _ _ G) k co E S)).
  - exfalso. exact (proj2 (r_others _ _ _ _ _ _ _ _ _ _ G t k co Np Nc E) S).
Qed.
Lemma same_slot i j : slot (i mod size) = slot (j mod size) -> i < j -> i + size <= j.
Proof.
  intros E L. pose proof (r_size _ _ _ _ _ _ _ _ _ _ G) as P. apply (r_slots _ _ _ _ _ _ _ _ _ _ G) in E; [|apply Nat.mod_upper_bound; lia ..].
  pose proof (Nat.div_mod i size ltac:(lia)) as Di. pose proof (Nat.div_mod j size ltac:(lia)) as Dj. rewrite E in Di.
  assert (i / size < j / size) by nia. nia.
Qed.
Lemma push_pop_apart i j k k' : in_push tail slot size (rs p) i k -> in_pop head slot size (rs c) j k' -> slot (i mod size) = slot (j mod size) ->
  happens_before evss (p, k) (c, k') \/ happens_before evss (c, k') (p, k).
Proof.
  intros A B E. destruct (Nat.le_gt_cases i j) as [L|L]; [left; eapply push_first; eassumption|right]. eapply pop_first; try eassumption. apply same_slot; [congruence|exact L].
Qed.
(** What a load finds in the other thread's counter *)
Lemma producer_finds l cl r : nth_error (rs p) l = Some cl -> finds head r cl ->
  exists h, r = rolled w h /\ h <= changed tail (rs p) l <= h + size /\ forall j k, j < h -> in_pop head slot size (rs c) j k -> happens_before evss (c, k) (p, l).
Proof.
  intros E F. destruct (r_ev objs st programs contents n evss ts outss R _ _ _ E) as (e & Ee & _). destruct (load_value objs st programs contents n evss ts outss R w size c head tail 0 p l e cl r consumer_side E Ee F) as [-> Rd].
  exists (place (what e)). split; [reflexivity|].
  pose proof (loads_ok objs st programs contents n evss ts outss R w size (r_width _ _ _ _ _ _ _ _ _ _ G) p tail c head size 0 (r_threads _ _ _ _ _ _ _ _ _ _ G) producer_side consumer_side ltac:(lia) l cl e E (proj1 F) Rd Ee). split; [lia|].
  intros j k L (co & Ek & S & C). destruct (load_from objs st programs contents n evss ts outss R w size c head tail 0 p l e cl consumer_side E Ee (proj1 F) Rd ltac:(lia)) as (q & cq & Eq & Mq & Cq & Hq).
  apply hb_then with (c, q); [|exact Hq]. apply hb_sequenced. split; [reflexivity|]. cbn. destruct (Nat.lt_trichotomy k q) as [H'|[H'|H']]; [exact H'| |]; exfalso.
  - subst q. rewrite Ek in Eq. injection Eq as <-. rewrite (slot_not head co S) in Mq by auto. discriminate.
  - pose proof (changed_lt head (rs c) q k cq Eq Mq H'). lia.
Qed.
Lemma consumer_finds l cl r : nth_error (rs c) l = Some cl -> finds tail r cl ->
  exists t, r = rolled w t /\ changed head (rs c) l <= t <= changed head (rs c) l + size /\ forall i k, i < t -> in_push tail slot size (rs p) i k -> happens_before evss (p, k) (c, l).
Proof.
  intros E F. destruct (r_ev objs st programs contents n evss ts outss R _ _ _ E) as (e & Ee & _). destruct (load_value objs st programs contents n evss ts outss R w size p tail head size c l e cl r producer_side E Ee F) as [-> Rd].
  exists (place (what e)). split; [reflexivity|].
  pose proof (loads_ok objs st programs contents n evss ts outss R w size (r_width _ _ _ _ _ _ _ _ _ _ G) c head p tail 0 size (fun H => r_threads _ _ _ _ _ _ _ _ _ _ G (eq_sym H)) consumer_side producer_side ltac:(lia) l cl e E (proj1 F) Rd Ee). split; [lia|].
  intros j k L (co & Ek & S & C). destruct (load_from objs st programs contents n evss ts outss R w size p tail head size c l e cl producer_side E Ee (proj1 F) Rd ltac:(lia)) as (q & cq & Eq & Mq & Cq & Hq).
  apply hb_then with (p, q); [|exact Hq]. apply hb_sequenced. split; [reflexivity|]. cbn. destruct (Nat.lt_trichotomy k q) as [H'|[H'|H']]; [exact H'| |]; exfalso.
  - subst q. rewrite Ek in Eq. injection Eq as <-. rewrite (slot_not tail co S) in Mq by auto. discriminate.
  - pose proof (changed_lt tail (rs p) q k cq Eq Mq H'). lia.
Qed.
Lemma int_object t k co i : nth_error (rs t) k = Some co -> asked (fst co) = IntCall i -> exists iw w ew sg esg, objs (target (fst co)) = Int iw w ew sg esg.
Proof.
  intros E A. pose proof (r_in objs st programs contents n evss ts outss R t k co E) as I. apply in_concat in I as (q & Iq & I). pose proof (run_calls _ _ _ _ _ _ _ _ R) as F. rewrite Forall_forall in F.
  specialize (F q Iq). rewrite Forall_forall in F. destruct (F _ I) as [_ H]. rewrite A in H. destruct (objs (target (fst co))); [contradiction|]. do 5 eexists. reflexivity.
Qed.
Lemma fifo i v v' : pushed tail slot size (rs p) i v -> popped head slot size (rs c) i v' -> v = v'.
Proof.
  intros (k & co & x & Pk & E & P & Last) (k' & co' & x' & Pk' & E' & F & First).
  destruct (used p k co E) as [(_ & i0 & Pi0 & Ti)|(H & _)]; [destruct Pk as (co0 & E0 & S0 & _); congruence| |now apply (r_threads _ _ _ _ _ _ _ _ _ _ G) in H].
  assert (i0 = i) as -> by (destruct Pk as (? & _ & _ & <-), Pi0 as (? & _ & _ & <-); reflexivity).
  destruct (used c k' co' E') as [(H & _)|(_ & j0 & Pj0 & Tj)]; [destruct Pk' as (co0 & E0 & S0 & _); congruence|symmetry in H; now apply (r_threads _ _ _ _ _ _ _ _ _ _ G) in H|].
  assert (j0 = i) as -> by (destruct Pk' as (? & _ & _ & <-), Pj0 as (? & _ & _ & <-); reflexivity).
  pose proof (proj1 P) as Tx. pose proof (proj1 F) as Tx'. assert (x' = x) as -> by congruence.
  destruct (r_ev objs st programs contents n evss ts outss R _ _ _ E) as (e & Ee & He & Oe & Ie). destruct (r_ev objs st programs contents n evss ts outss R _ _ _ E') as (e' & Ee' & He' & Oe' & Ie').
  assert (Ix : exists iw w ew sg esg, objs x = Int iw w ew sg esg) by (destruct P as (_ & ii & A & _); rewrite <- Tx; exact (int_object _ _ _ _ E A)).
  destruct (put_value objs st programs contents n evss ts outss R x v e co Ix He ltac:(congruence) P) as [Me Ve]. destruct (find_value objs st programs contents n evss ts outss R x v' e' co' Ix He' ltac:(congruence) F) as (Me' & Rd' & Ve').
  assert (Rt : reads_at (what e') = Some (place (what e'))) by (rewrite (r_reads objs contents _ _ He') by (rewrite Rd'; discriminate); unfold since; now rewrite Me').
  pose proof (run_memory _ _ _ _ _ _ _ _ R) as X.
  assert (Le : place (what e) <= place (what e')).
  { destruct (hb_coherence _ _ _ _ X (p, k) (c, k') e e' (push_first i i k k' Pk Pk' (le_n _)) Ee Ee' ltac:(congruence)) as (_ & _ & _ & WR). apply WR; [now apply wpl|exact Rt]. }
  rewrite <- Ve, <- Ve'. f_equal. destruct (Nat.eq_dec (place (what e)) (place (what e'))) as [Q|Q]; [exact Q|]. exfalso.
  destruct (exec_event _ contents n evss X e' Ie') as (_ & Bn & _).
  destruct (event_with_place _ contents n evss X (object e') (place (what e')) ltac:(lia)) as (ew & Iw & Ow & Mw & Pw).
  apply event_at_in in Iw as ([u q] & Eew). destruct (r_rep objs st programs contents n evss ts outss R _ _ _ Eew) as (cw & Ew & Hw & Tw & _).
  assert (NR : access_of (asked (fst cw)) <> Reads) by (intros A; rewrite (r_mod objs st programs contents n evss ts outss R _ _ Hw), A in Mw; discriminate).
  assert (Sw : is_slot slot size (target (fst cw))) by (destruct Pk as (co0 & E0 & S0 & _); assert (co0 = co) by congruence; subst co0; congruence).
  assert (NP : forall k2, u = c -> k2 = k' -> q = k2 -> False) by (intros k2 -> -> ->; assert (cw = co') by congruence; subst cw; contradiction).
  assert (HR : forall a, happens_before evss (c, k') a -> a = (u, q) -> False).
  { intros a Ha ->. destruct (hb_coherence _ _ _ _ X (c, k') (u, q) e' ew Ha Ee' Eew ltac:(congruence)) as (_ & _ & RW & _). specialize (RW _ _ Rt (wpl _ Mw)). lia. }
  destruct (used u q cw Ew Sw) as [(-> & j & Pj & Tj2)|(-> & j & Pj & Tj2)].
  - assert (L : k < q) by (apply (po_writes objs st programs contents n evss ts outss R p k e q ew Ee Eew ltac:(congruence) Me Mw); lia).
    assert (i <= j) by (destruct Pk as (_ & _ & _ & <-), Pj as (_ & _ & _ & <-); apply changed_le; lia). destruct (Nat.eq_dec i j) as [-> |Nij].
    + apply NR. exact (Last q cw L Pj Ew).
    + apply (HR (p, q)); [|reflexivity]. apply (pop_first j i q k' Pj Pk'). apply same_slot; [congruence|lia].
  - destruct (Nat.lt_trichotomy q k') as [L|[L|L]].
    + assert (j <= i) by (destruct Pk' as (_ & _ & _ & <-), Pj as (_ & _ & _ & <-); apply changed_le; lia). destruct (Nat.eq_dec j i) as [-> |Nij].
      * apply NR. exact (First q cw L Pj Ew).
      * assert (B : j + size <= i) by (apply same_slot; [congruence|lia]).
        destruct (hb_coherence _ _ _ _ X (c, q) (p, k) ew e (pop_first i j k q Pk Pj B) Eew Ee ltac:(congruence)) as (WW & _). specialize (WW _ _ (wpl _ Mw) (wpl _ Me)). lia.
    + now apply (NP k').
    + apply (HR (c, q)); [|reflexivity]. apply hb_sequenced. split; [reflexivity|exact L].
Qed.
End Ring.
