(** The step-by-step refinement for byterators, and reading back what was written. *)
From Verif Require Import Base BaseLemmas BitLemmas BitModel BitSpec BitProofs BitProofs2 ByteratorModel ByteratorSpec ByteratorProofs.
Open Scope N_scope.

Definition R (s : ystate) (m : ymem) : Prop := good_state s /\ m = view s.

Lemma wr_pos s i p q : rd (its s) i = Some p -> exists i', wr (its s) i q = Some i' /\
  (base (mem s) <= q /\ q <= base (mem s) + len (bytes (mem s)) ->
   Forall (fun x => base (mem s) <= x /\ x <= base (mem s) + len (bytes (mem s))) (its s) ->
   Forall (fun x => base (mem s) <= x /\ x <= base (mem s) + len (bytes (mem s))) i').
Proof.
  intros H. destruct (wr_lt_Some (its s) i q (rd_Some_lt _ _ _ H)) as (i' & E). exists i'. split; [exact E|].
  intros Hq Hf. apply Forall_forall. intros x Hx. apply In_nth_error in Hx as (j & Hj).
  pose proof (rd_wr (its s) i' i q (N.of_nat j) E) as Er. rewrite rd_nth_error, Nat2N.id, Hj in Er.
  destruct (N.of_nat j =? i).
  - apply (f_equal (fun o => match o with Some a => a | None => 0 end)) in Er. cbv beta iota in Er. subst x. exact Hq.
  - rewrite Forall_forall in Hf. apply Hf. rewrite rd_nth_error in Er. apply nth_error_In with (N.to_nat (N.of_nat j)). congruence.
Qed.

Lemma moved_sim s i p q : good_state s -> rd (its s) i = Some p -> base (mem s) <= q -> q <= base (mem s) + len (bytes (mem s)) ->
  exists i', wr (its s) i q = Some i' /\ moves (view s) (view (YState (mem s) i')) i (Z.of_N q) /\ good_state (YState (mem s) i').
Proof.
  intros (G1 & G2) Hp H1 H2. destruct (wr_pos s i p q Hp) as (i' & E & F). exists i'. split; [exact E|]. split.
  - split; [reflexivity|]. split; [reflexivity|]. split; [reflexivity|]. exists q. split; [reflexivity|]. exact E.
  - split; [exact G1|]. cbn [its mem]. apply F; auto.
Qed.
Lemma view_cell s a : cell (view s) a = cellr (mem s) a.
Proof. reflexivity. Qed.
Lemma good_it s i p : good_state s -> rd (its s) i = Some p -> base (mem s) <= p /\ p <= base (mem s) + len (bytes (mem s)).
Proof. intros (_ & G) H. rewrite Forall_forall in G. apply (G p). rewrite rd_nth_error in H. exact (nth_error_In _ _ H). Qed.

Lemma stored_sim s r' i p q b l : good_state s -> rd (its s) i = Some b -> base (mem s) <= q -> q <= base (mem s) + len (bytes (mem s)) ->
  base r' = base (mem s) -> len (bytes r') = len (bytes (mem s)) ->
  (forall a, cellr r' a = if (p <=? a) && (a <? p + len l) then match rd l (a - p) with Some b => b | None => 0 end else cellr (mem s) a) ->
  Forall (fun b => b < 256) (bytes r') ->
  exists i', wr (its s) i q = Some i' /\ overwrites (view s) (view (YState r' i')) p (len l) (fun j => match rd l j with Some b => b | None => 0 end) /\
  good_state (YState r' i').
Proof.
  intros (G1 & G2) Hp H1 H2 Eb El Hc Hf. destruct (wr_pos s i b q Hp) as (i' & E & F). exists i'. split; [exact E|]. split.
  - split; [cbn; exact Eb|]. split; [cbn; rewrite Eb, El; reflexivity|]. intros a. exact (Hc a).
  - split; [exact Hf|]. cbn [its mem]. rewrite Eb, El. apply F; auto.
Qed.

Lemma ystep_sim e aw s m op : R s m -> ypre aw m op ->
  exists s' o m', ystep e aw s op = Done s' o [] /\ yspec e m op o m' /\ R s' m'.
Proof.
  intros (G & ->) Hp.
  assert (Hsame : same (view s) (view s)) by (repeat split).
  assert (HR : R s (view s)) by (split; auto).
  destruct op as [d a|i d|i n|i n b|a b|a b|a b|i k|i k|i v|i w rw|i w rw|i w v|i sz n]; cbn [ypre] in Hp; unfold ystep.
  - destruct Hp as (Hd & Ha). cbn [pos view] in *. destruct (rd_lt_Some _ _ Ha) as (p & Ep). destruct (rd_lt_Some _ _ Hd) as (p0 & Ep0). rewrite Ep.
    destruct (good_it s a p G Ep) as (B1 & B2). destruct (moved_sim s d p0 p G Ep0 B1 B2) as (i' & E & Hm & Hg). rewrite E.
    eexists _, _, (view _). split; [reflexivity|]. split; [|split; [exact Hg|reflexivity]]. split; [reflexivity|]. exists p. split; [exact Ep|exact Hm].
  - destruct Hp as (p & Ep & Hr). cbn [pos view] in Ep. rewrite Ep. unfold reachable in Hr. cbn [lo hi view] in Hr. rewrite advance_by_ok by exact Hr.
    destruct (moved_sim s i p (Z.to_N (Z.of_N p + d)) G Ep ltac:(lia) ltac:(lia)) as (i' & E & Hm & Hg). rewrite E.
    eexists _, _, (view _). split; [reflexivity|]. split; [|split; [exact Hg|reflexivity]]. split; [reflexivity|]. exists p. split; [exact Ep|].
    rewrite Z2N.id in Hm by lia. exact Hm.
  - destruct Hp as (p & Ep & H1 & H2). cbn [pos lo hi view] in *. rewrite Ep. rewrite advance_by_ok by lia.
    destruct (load_ok (mem s) (Z.to_N (Z.of_N p + n)) 1 ltac:(lia) ltac:(lia)) as (l & El & Hl & Hr & _). rewrite El.
    pose proof (Hr 0 ltac:(lia)) as Hr0. destruct l as [|x [|y l]]; [discriminate Hl| |unfold len in Hl; cbn in Hl; lia].
    rewrite rd_cons0, N.add_0_r in Hr0. apply (f_equal (fun o => match o with Some a => a | None => 0 end)) in Hr0. cbv beta iota in Hr0. subst x.
    eexists _, _, (view s). split; [reflexivity|]. split; [|exact HR]. split; [exact Hsame|]. exists p. split; [exact Ep|]. reflexivity.
  - destruct Hp as (p & Ep & H1 & H2). cbn [pos lo hi view] in *. rewrite Ep. rewrite advance_by_ok by lia.
    destruct (store_ok (mem s) (Z.to_N (Z.of_N p + n)) [wrap 8 b] ltac:(lia)) as (r' & Er & Eb & El & Hc & Hf).
    { change (len [wrap 8 b]) with 1. lia. }
    rewrite Er. eexists _, _, (view (YState r' (its s))). split; [reflexivity|]. destruct G as (G1 & G2). split.
    + split; [reflexivity|]. split; [reflexivity|]. exists p. split; [exact Ep|]. split; [cbn; exact Eb|]. split; [cbn; rewrite Eb, El; reflexivity|].
      intros a. rewrite !view_cell. cbn [mem]. rewrite Hc. change (len [wrap 8 b]) with 1.
      destruct (N.leb_spec (Z.to_N (Z.of_N p + n)) a); [|reflexivity]. destruct (N.ltb_spec a (Z.to_N (Z.of_N p + n) + 1)); [|reflexivity].
      cbn [andb]. replace (a - Z.to_N (Z.of_N p + n)) with 0 by lia. reflexivity.
    + split; [|reflexivity]. split.
      * cbn [mem]. apply Hf; [exact G1|]. constructor; [|constructor]. unfold wrap. change (2 ^ 8) with 256. apply N.mod_lt. lia.
      * cbn [its mem]. rewrite Eb, El. exact G2.
  - destruct Hp as (Ha & Hb). cbn [pos view] in *. destruct (rd_lt_Some _ _ Ha) as (p & Ep). destruct (rd_lt_Some _ _ Hb) as (q & Eq). rewrite Ep, Eq.
    eexists _, _, (view s). split; [reflexivity|]. split; [|exact HR]. split; [exact Hsame|]. exists p. split; [exact Ep|]. exists q. split; [exact Eq|reflexivity].
  - destruct Hp as (Ha & Hb). cbn [pos view] in *. destruct (rd_lt_Some _ _ Ha) as (p & Ep). destruct (rd_lt_Some _ _ Hb) as (q & Eq). rewrite Ep, Eq.
    eexists _, _, (view s). split; [reflexivity|]. split; [|exact HR]. split; [exact Hsame|]. exists p. split; [exact Ep|]. exists q. split; [exact Eq|].
    eexists. split; [reflexivity|]. apply N.eqb_eq.
  - destruct Hp as (Ha & Hb). cbn [pos view] in *. destruct (rd_lt_Some _ _ Ha) as (p & Ep). destruct (rd_lt_Some _ _ Hb) as (q & Eq). rewrite Ep, Eq.
    eexists _, _, (view s). split; [reflexivity|]. split; [|exact HR]. split; [exact Hsame|]. exists p. split; [exact Ep|]. exists q. split; [exact Eq|].
    eexists. split; [reflexivity|]. apply N.ltb_lt.
  - destruct Hp as (p & Ep & H1 & H2). cbn [pos lo hi view] in *. rewrite Ep. unfold peek.
    destruct (load_ok (mem s) p k H1 H2) as (l & El & Hl & Hr & _). rewrite El.
    eexists _, _, (view s). split; [reflexivity|]. split; [|exact HR]. split; [exact Hsame|]. exists p. split; [exact Ep|]. exists l. auto.
  - destruct Hp as (p & Ep & H1 & H2). cbn [pos lo hi view] in *. rewrite Ep. unfold read, peek, advance.
    destruct (load_ok (mem s) p k H1 H2) as (l & El & Hl & Hr & _). rewrite El. rewrite advance_by_ok by lia. cbn [fst snd].
    destruct (moved_sim s i p (Z.to_N (Z.of_N p + Z.of_N k)) G Ep ltac:(lia) ltac:(lia)) as (i' & E & Hm & Hg). rewrite E.
    eexists _, _, (view _). split; [reflexivity|]. split; [|split; [exact Hg|reflexivity]]. exists p. split; [exact Ep|]. split.
    + replace (p + k) with (Z.to_N (Z.of_N p + Z.of_N k)) by lia. exact Hm.
    + exists l. auto.
  - destruct Hp as ((p & Ep & H1 & H2) & Hv). cbn [pos lo hi view] in *. rewrite Ep. unfold write, advance.
    destruct (store_ok (mem s) p v H1 H2) as (r' & Er & Eb & El & Hc & Hf). rewrite Er. rewrite advance_by_ok by (rewrite Eb, El; lia). cbn [fst snd].
    destruct (stored_sim s r' i p (Z.to_N (Z.of_N p + Z.of_N (len v))) p v G Ep ltac:(lia) ltac:(lia) Eb El Hc (Hf (proj1 G) Hv)) as (i' & E & Ho & Hg).
    rewrite E. eexists _, _, (view _). split; [reflexivity|]. split; [|split; [exact Hg|reflexivity]]. split; [reflexivity|]. exists p. split; [exact Ep|]. split.
    + replace (p + len v) with (Z.to_N (Z.of_N p + Z.of_N (len v))) by lia. exact E.
    + exact Ho.
  - destruct Hp as (Hw & p & Ep & H1 & H2). cbn [pos lo hi view] in *. rewrite Ep. unfold peek.
    destruct (load_ok (mem s) p (w / 8) H1 H2) as (l & El & Hl & Hr & Hb). rewrite El.
    eexists _, _, (view s). split; [reflexivity|]. split; [|exact HR]. split; [exact Hsame|]. exists p. split; [exact Ep|]. exists (of_mem e l). split; [|reflexivity].
    exact (of_mem_integer e (mem s) p (w / 8) l Hl (Hb (proj1 G)) Hr).
  - destruct Hp as (Hw & p & Ep & H1 & H2). cbn [pos lo hi view] in *. rewrite Ep. unfold read, peek, advance.
    destruct (load_ok (mem s) p (w / 8) H1 H2) as (l & El & Hl & Hr & Hb). rewrite El. rewrite advance_by_ok by lia. cbn [fst snd].
    destruct (moved_sim s i p (Z.to_N (Z.of_N p + Z.of_N (w / 8))) G Ep ltac:(lia) ltac:(lia)) as (i' & E & Hm & Hg). rewrite E.
    eexists _, _, (view _). split; [reflexivity|]. split; [|split; [exact Hg|reflexivity]]. exists p. split; [exact Ep|]. split.
    + replace (p + w / 8) with (Z.to_N (Z.of_N p + Z.of_N (w / 8))) by lia. exact Hm.
    + exists (of_mem e l). split; [|reflexivity]. exact (of_mem_integer e (mem s) p (w / 8) l Hl (Hb (proj1 G)) Hr).
  - destruct Hp as (Hw & p & Ep & H1 & H2). cbn [pos lo hi view] in *. rewrite Ep. unfold write, advance.
    set (l := mem_of e w (wrap w v)). assert (Hl : len l = w / 8) by (unfold len, l; rewrite mem_of_length; lia).
    destruct (store_ok (mem s) p l H1 ltac:(lia)) as (r' & Er & Eb & El & Hc & Hf). rewrite Er. rewrite advance_by_ok by (rewrite Eb, El; lia). cbn [fst snd].
    destruct (stored_sim s r' i p (Z.to_N (Z.of_N p + Z.of_N (len l))) p l G Ep ltac:(lia) ltac:(lia) Eb El Hc (Hf (proj1 G) (mem_of_bound e w (wrap w v)))) as (i' & E & Ho & Hg).
    rewrite E. eexists _, _, (view _). split; [reflexivity|]. split; [|split; [exact Hg|reflexivity]]. split; [reflexivity|]. exists p. split; [exact Ep|]. split.
    + replace (p + w / 8) with (Z.to_N (Z.of_N p + Z.of_N (len l))) by lia. exact E.
    + destruct Ho as (O1 & O2 & O3). split; [exact O1|]. split; [exact O2|]. intros a. rewrite O3, Hl.
      destruct (N.leb_spec p a); [|reflexivity]. destruct (N.ltb_spec a (p + w / 8)); [|reflexivity]. cbn [andb]. unfold l.
      rewrite nth_mem_of by lia. unfold wrap. replace (2 ^ w) with (2 ^ (8 * (w / 8))) by (f_equal; pose proof (N.div_mod w 8); lia).
      apply byte_mod. destruct e; cbn [place_of]; lia.
  - destruct Hp as ((k & ->) & p & Ep & Ha & Hr). cbn [pos view] in Ep. rewrite Ep. unfold advance_to_alignment.
    pose proof (align_ok aw k p Ha) as Hn. specialize (Hr _ Hn). unfold reachable in Hr. cbn [lo hi view] in Hr.
    rewrite advance_by_ok by exact Hr. set (q := align_up aw (2 ^ k) p) in *.
    destruct (moved_sim s i p (Z.to_N (Z.of_N q + n * Z.of_N (2 ^ k))) G Ep ltac:(lia) ltac:(lia)) as (i' & E & Hm & Hg). rewrite E.
    eexists _, _, (view _). split; [reflexivity|]. split; [|split; [exact Hg|reflexivity]]. split; [reflexivity|]. exists p. split; [exact Ep|].
    exists q. split; [exact Hn|]. rewrite Z2N.id in Hm by lia. exact Hm.
Qed.
Theorem ystep_conforms e aw ops s : good_state s -> conforms (ystep e aw) (ypre aw) (yspec e) s (view s) ops.
Proof. intros G. apply (conforms_sim _ _ _ R (ystep_sim e aw)). split; auto. Qed.

(** ** Round trip of a sequence of writes *)
Lemma write_done r p v : base r <= p -> p + len v <= base r + len (bytes r) ->
  exists r', write r p v = Some (r', p + len v) /\ base r' = base r /\ len (bytes r') = len (bytes r) /\
  (forall a, cellr r' a = if (p <=? a) && (a <? p + len v) then match rd v (a - p) with Some b => b | None => 0 end else cellr r a).
Proof.
  intros H1 H2. destruct (store_ok r p v H1 H2) as (r' & Er & Eb & El & Hc & _). exists r'. unfold write, advance. rewrite Er.
  rewrite advance_by_ok by (rewrite Eb, El; lia). replace (Z.to_N (Z.of_N p + Z.of_N (len v))) with (p + len v) by lia. auto.
Qed.
Lemma write_all_done vs : forall r p, base r <= p -> p + len (concat vs) <= base r + len (bytes r) ->
  exists r', write_all r p vs = Some (r', p + len (concat vs)) /\ base r' = base r /\ len (bytes r') = len (bytes r) /\
  (forall a, cellr r' a = if (p <=? a) && (a <? p + len (concat vs)) then match rd (concat vs) (a - p) with Some b => b | None => 0 end else cellr r a).
Proof.
  induction vs as [|v vs IH]; intros r p H1 H2; cbn [write_all concat] in *.
  - exists r. change (len (@nil N)) with 0 in *. rewrite N.add_0_r. repeat split; auto. intros a.
    destruct (N.leb_spec p a), (N.ltb_spec a p); try lia; reflexivity.
  - rewrite len_app in *. destruct (write_done r p v H1 ltac:(lia)) as (r1 & E1 & B1 & L1 & C1). rewrite E1.
    destruct (IH r1 (p + len v) ltac:(lia) ltac:(lia)) as (r2 & E2 & B2 & L2 & C2). exists r2.
    split; [rewrite E2; do 2 f_equal; lia|]. split; [congruence|]. split; [congruence|]. intros a. rewrite C2, C1.
    destruct (N.leb_spec (p + len v) a).
    + destruct (N.leb_spec p a); [|lia]. cbn [andb]. rewrite rd_app2 by lia. replace (a - p - len v) with (a - (p + len v)) by lia.
      destruct (N.ltb_spec a (p + len v)); [lia|]. replace (p + (len v + len (concat vs))) with (p + len v + len (concat vs)) by lia. reflexivity.
    + cbn [andb]. destruct (N.leb_spec p a); [|reflexivity]. cbn [andb]. destruct (N.ltb_spec a (p + len v)); [|lia].
      destruct (N.ltb_spec a (p + (len v + len (concat vs)))); [|lia]. rewrite rd_app1 by lia. reflexivity.
Qed.
Lemma read_done r p v : base r <= p -> p + len v <= base r + len (bytes r) -> (forall j, j < len v -> rd v j = Some (cellr r (p + j))) ->
  read r p (len v) = Some (v, p + len v).
Proof.
  intros H1 H2 Hv. destruct (load_ok r p (len v) H1 H2) as (l & El & Hl & Hr & _). unfold read, peek, advance. rewrite El.
  rewrite advance_by_ok by lia. replace (Z.to_N (Z.of_N p + Z.of_N (len v))) with (p + len v) by lia. do 2 f_equal.
  apply rd_ext; [exact Hl|]. intros j Hj. rewrite Hr, Hv by lia. reflexivity.
Qed.
Lemma read_all_done vs : forall r p, base r <= p -> p + len (concat vs) <= base r + len (bytes r) ->
  (forall j, j < len (concat vs) -> rd (concat vs) j = Some (cellr r (p + j))) ->
  read_all r p (map len vs) = Some (vs, p + len (concat vs)).
Proof.
  induction vs as [|v vs IH]; intros r p H1 H2 Hc; cbn [read_all map concat] in *.
  - change (len (@nil N)) with 0. rewrite N.add_0_r. reflexivity.
  - rewrite len_app in *. rewrite read_done; [|exact H1|lia|].
    + rewrite IH; [do 2 f_equal; lia|lia|lia|]. intros j Hj. specialize (Hc (len v + j) ltac:(lia)). rewrite rd_app2 in Hc by lia.
      replace (len v + j - len v) with j in Hc by lia. rewrite Hc. do 2 f_equal. lia.
    + intros j Hj. rewrite <- Hc by lia. rewrite rd_app1 by lia. reflexivity.
Qed.
Theorem stream_round_trip r p vs : base r <= p -> p + len (concat vs) <= base r + len (bytes r) ->
  exists r', write_all r p vs = Some (r', p + len (concat vs)) /\ read_all r' p (map len vs) = Some (vs, p + len (concat vs)) /\
  base r' = base r /\ len (bytes r') = len (bytes r) /\
  (forall i, i < p - base r \/ p - base r + len (concat vs) <= i -> rd (bytes r') i = rd (bytes r) i).
Proof.
  intros H1 H2. destruct (write_all_done vs r p H1 H2) as (r' & E & B & L & C). exists r'. split; [exact E|]. split.
  - apply read_all_done; [lia|lia|]. intros j Hj. rewrite C. destruct (N.leb_spec p (p + j)); [|lia]. destruct (N.ltb_spec (p + j) (p + len (concat vs))); [|lia].
    cbn [andb]. replace (p + j - p) with j by lia. destruct (rd_lt_Some _ _ Hj) as (b & ->). reflexivity.
  - split; [exact B|]. split; [exact L|]. intros i Hi. destruct (N.ltb_spec i (len (bytes r))) as [Hl|Hl]; [|rewrite !rd_ge_None by lia; reflexivity].
    specialize (C (base r + i)). unfold cellr in C. rewrite B in C. destruct (N.leb_spec (base r) (base r + i)); [|lia].
    replace (base r + i - base r) with i in C by lia. destruct (rd_lt_Some (bytes r) i Hl) as (b & Eb). destruct (rd_lt_Some (bytes r') i ltac:(lia)) as (b' & Eb').
    rewrite Eb, Eb' in *. f_equal. destruct (N.leb_spec p (base r + i)), (N.ltb_spec (base r + i) (p + len (concat vs))); cbn [andb] in C; try exact C. lia.
Qed.
