From Coq Require Import Permutation.
From Verif Require Import Base BaseLemmas BitModel BitsetSpec ConcModel RelaxedModel RelaxedProofs AtomicModel AtomicSpec AtomicBitsetModel AtomicBitsetSpec MultiModel MultiSpec MultiProofs MultiProofs2 MultiProofs3 MultiProofs4 PetersonSpec PetersonProofs RingSpec RingProofs CountSpec CountProofs CountProps SeqOrderProofs TicketOrderSpec.
Open Scope nat_scope.

Lemma dup_or_not (l : list nat) : NoDup l \/ exists i j a, i < j /\ nth_error l i = Some a /\ nth_error l j = Some a.
Proof.
  induction l as [|a l IH]; [left; constructor|]. destruct (in_dec Nat.eq_dec a l) as [I|I].
  - right. apply In_nth_error in I as (j & E). exists 0, (S j), a. repeat split; try assumption. lia.
  - destruct IH as [D|(i & j & b & L & E & E')]; [left; now constructor|]. right. exists (S i), (S j), b. repeat split; try assumption. lia.
Qed.

Section Run.
Context (objs : nat -> object_type) (st : nat -> obj_state) (programs : list (list call)) (contents : nat -> nat -> N) (n : nat -> nat).
Context (evss : list (list mevent)) (ts : list (mthread call reply)) (outss : list (list (call * reply))).
Context (R : shared_run objs st programs contents n evss ts outss).
Notation rs := (replies ts outss).
Notation expl := (explains (code objs) target (fun c => wanted (asked c)) (good_call objs) (fun x => represents (objs x)) (fun s c o s' => effect (objs (target c)) s (asked c) o s') contents).

Section Object.
Context (f : nat).
Lemma po_places t j e j' e' : event_at evss (t, j) = Some e -> event_at evss (t, j') = Some e' -> object e = f -> object e' = f ->
  modifies (what e) = true -> modifies (what e') = true -> j < j' -> place (what e) < place (what e').
Proof.
  intros E E' O O' M M' L. destruct (po_coherent objs st programs contents n evss ts outss R t j e j' e' E E' ltac:(congruence) L) as (WW & _).
  exact (WW _ _ (wpl _ M) (wpl _ M')).
Qed.
Lemma one_name t k ek tl jl el : event_at evss (t, k) = Some ek -> event_at evss (tl, jl) = Some el -> object ek = f -> object el = f ->
  modifies (what ek) = true -> modifies (what el) = true -> place (what ek) = place (what el) -> (t, k) = (tl, jl).
Proof.
  intros Nk Nl Ok Ol Mk Ml Same. destruct (Nat.eq_dec t tl) as [->|Nt].
  - destruct (Nat.lt_trichotomy k jl) as [L|[L|L]]; [|now subst k|].
    + pose proof (po_places _ _ _ _ _ Nk Nl Ok Ol Mk Ml L). lia.
    + pose proof (po_places _ _ _ _ _ Nl Nk Ol Ok Ml Mk L). lia.
  - exfalso.
    assert (D : NoDup (map place (filter modifies (on f (concat evss))))) by (eapply Permutation_NoDup; [apply Permutation_sym, (places _ _ _ _ (run_memory _ _ _ _ _ _ _ _ R))|apply seq_NoDup]).
    clear - D Nk Nl Ok Ol Mk Ml Same Nt. unfold event_at in Nk, Nl. cbn [fst snd] in Nk, Nl.
    set (pl := fun l => map place (filter modifies (on f l))) in *.
    assert (Sp : forall a b, pl (a ++ b) = pl a ++ pl b) by (intros; unfold pl, on; now rewrite filter_app, map_app, filter_app, map_app).
    destruct (nth_error evss t) as [lt|] eqn:Et; [|discriminate]. destruct (nth_error evss tl) as [ll|] eqn:Etl; [|discriminate].
    assert (In2 : forall (l : list mevent) j e, nth_error l j = Some e -> object e = f -> modifies (what e) = true -> In (place (what e)) (pl l)).
    { intros l j e E O M. apply in_map, filter_In. split; [|exact M]. apply on_in. exists e. eauto using nth_error_In. }
    pose proof (In2 _ _ _ Nk Ok Mk) as I1. pose proof (In2 _ _ _ Nl Ol Ml) as I2. rewrite Same in I1. clear In2 Nk Nl Ok Ol Mk Ml Same.
    change (NoDup (pl (concat evss))) in D. clearbody pl.
    revert t tl Et Etl Nt D. induction evss as [|l ls IHl]; intros t tl Et Etl Nt D; [destruct t; discriminate|].
    cbn [concat] in D. rewrite Sp in D.
    assert (Tail : forall u l0, nth_error ls u = Some l0 -> In (place (what el)) (pl l0) -> In (place (what el)) (pl (concat ls))).
    { intros u l0 Eu0 I0. apply nth_error_split in Eu0 as (l1 & l2 & -> & _). rewrite concat_app. cbn [concat]. rewrite !Sp. apply in_or_app. right. apply in_or_app. now left. }
    assert (Dj : forall y, In y (pl l) -> In y (pl (concat ls)) -> False).
    { clear - D. induction (pl l) as [|a m IHm]; cbn in *; [intros y []|]. inversion D as [|? ? D1 D2]; subst. intros y [<-|I1] I2.
      - apply D1. apply in_or_app. now right.
      - eapply IHm; eassumption. }
    destruct t as [|t], tl as [|tl]; cbn [nth_error] in *; try congruence.
    + injection Et as <-. eapply Dj; [exact I1|]. eapply Tail; eassumption.
    + injection Etl as <-. eapply Dj; [exact I2|]. eapply Tail; eassumption.
    + apply (IHl t tl Et Etl); [congruence|]. clear - D. induction (pl l); [exact D|]. inversion D; subst; auto.
Qed.
End Object.
(** The event of a call that modifies [x]; the call that makes a modification. *)
Lemma mod_event x t q co : nth_error (rs t) q = Some co -> modifying x co = true ->
  exists e, event_at evss (t, q) = Some e /\ expl e co /\ object e = x /\ target (fst co) = x /\ modifies (what e) = true /\ 1 <= place (what e) <= n x.
Proof.
  intros E M. destruct (r_ev objs st programs contents n evss ts outss R _ _ _ E) as (e & Ee & Hx & O & I). exists e.
  assert (T : target (fst co) = x) by (unfold modifying in M; apply andb_true_iff in M as [M _]; now apply Nat.eqb_eq in M).
  assert (Ox : object e = x) by congruence. rewrite (modifying_of objs st programs contents n evss ts outss R x e co Hx O Ox) in M.
  repeat (split; [assumption|]). rewrite <- Ox. apply (modifies_place objs contents n evss (run_memory _ _ _ _ _ _ _ _ R)); assumption.
Qed.
Lemma mod_call x k : 1 <= k <= n x -> exists t q e co, event_at evss (t, q) = Some e /\ nth_error (rs t) q = Some co /\ expl e co /\ object e = x /\ target (fst co) = x /\ modifies (what e) = true /\ modifying x co = true /\ place (what e) = k.
Proof.
  intros B. pose proof (run_memory _ _ _ _ _ _ _ _ R) as X. destruct (event_with_place _ contents n evss X x k B) as (e & I & O & M & P).
  apply event_at_in in I as ([t q] & E). destruct (r_rep objs st programs contents n evss ts outss R _ _ _ E) as (co & Eq & Hx & T & _).
  exists t, q, e, co. repeat (split; [first [assumption|congruence]|]). split; [|exact P]. now rewrite (modifying_of objs st programs contents n evss ts outss R x e co Hx T O).
Qed.
Lemma start_value x w : (exists iw ew sg esg, objs x = Int iw w ew sg esg) -> st x = IntState 0 -> value objs contents x 0 = rolled w 0.
Proof.
  intros (iw & ew & sg & esg & Ox) Start. pose proof (run_start _ _ _ _ _ _ _ _ R x) as S0. unfold represents in S0. rewrite Ox, Start in S0. destruct S0 as [_ S0]. unfold value. rewrite Ox, <- S0.
  unfold rolled. symmetry. apply N.mod_0_l, N.pow_nonzero. discriminate.
Qed.
(** A call that adds one. *)
Lemma inc_value x w e co i : (exists iw ew sg esg, objs x = Int iw w ew sg esg) -> expl e co -> object e = x -> asked (fst co) = IntCall i -> adds_one (int_op i) = true ->
  modifies (what e) = true /\ value objs contents x (place (what e)) = ((value objs contents x (place (what e) - 1) + 1) mod 2 ^ w)%N /\
  exists r, snd co = IntReply (Some r) /\ told w (int_op i) r (value objs contents x (place (what e) - 1)).
Proof.
  intros (iw & ew & sg & esg & Ox) Hx O A P.
  assert (M : modifies (what e) = true) by (rewrite (r_mod objs st programs contents n evss ts outss R _ _ Hx), A; cbn; destruct (int_op i); try discriminate P; reflexivity). split; [exact M|].
  destruct (ex_effect _ _ _ _ _ _ _ _ _ Hx) as (s & s' & R1 & Ef & R2). cbn in Ef. pose proof (ex_target _ _ _ _ _ _ _ _ _ Hx) as T. rewrite O in R1, R2. rewrite T, O, A, Ox in Ef.
  unfold represents in *. rewrite Ox in R1, R2. unfold value. rewrite Ox. unfold since in R1. rewrite M in R1.
  destruct s as [|m]; [contradiction|]. destruct (snd co) as [|o]; [contradiction|]. destruct s' as [|m']; [contradiction|]. destruct R1 as [_ ->], R2 as [_ <-]. cbn in Ef. unfold aspec in Ef.
  set (v := (contents x (place (what e) - 1) mod 2 ^ w)%N) in *. assert (Bv : (v < 2 ^ w)%N) by (apply N.mod_lt, N.pow_nonzero; discriminate).
  assert (Up : Z.of_N ((v + 1) mod 2 ^ w) = ((Z.of_N v + 1) mod 2 ^ Z.of_N w)%Z) by (rewrite N2Z.inj_mod, N2Z.inj_add, N2Z.inj_pow; reflexivity).
  destruct (int_op i); cbn in P; try discriminate P; cbn [aeffect] in Ef; try (apply N.eqb_eq in P; subst v0); injection Ef as -> ->; (split; [reflexivity|]); eexists; (split; [reflexivity|]); (split; [exact Bv|]); cbn; (reflexivity || exact Up).
Qed.

Section Ticket.
Context (next serving : nat) (w : N) (TL : ticket_lock next serving w rs objs st).
Context (Enough : (N.of_nat (length programs) <= 2 ^ w)%N /\ next_acquire_release next rs \/
  (forall t k t' k' c, counted rs next w adds_one t k c -> counted rs next w adds_one t' k' c -> (t, k) = (t', k'))).
Notation vx := (value objs contents).

Lemma int_next : exists iw ew sg esg, objs next = Int iw w ew sg esg.
Proof. apply (tl_counters _ _ _ _ _ _ TL). now left. Qed.
Lemma int_serving : exists iw ew sg esg, objs serving = Int iw w ew sg esg.
Proof. apply (tl_counters _ _ _ _ _ _ TL). now right. Qed.
Lemma draw_of co t k : nth_error (rs t) k = Some co -> modifying next co = true -> exists i, asked (fst co) = IntCall i /\ adds_one (int_op i) = true.
Proof.
  intros E M. unfold modifying in M. apply andb_true_iff in M as [T A]. apply Nat.eqb_eq in T. pose proof (tl_draw _ _ _ _ _ _ TL t k co E T) as C. unfold is_call in C. apply andb_true_iff in C as [_ C].
  destruct (asked (fst co)) as [b|i]; [discriminate|]. exists i. split; [reflexivity|]. apply orb_true_iff in C as [C|C]; [|exact C]. cbn in A. destruct (int_op i); try discriminate C; discriminate A.
Qed.
Lemma next_value k : k <= n next -> vx next k = rolled w k.
Proof.
  induction k as [|k IH]; intros B; [apply start_value; [exact int_next|apply (tl_counters _ _ _ _ _ _ TL); now left]|].
  destruct (mod_call next (S k) ltac:(lia)) as (t & q & e & co & Ee & E & Hx & O & T & M & Mc & P). destruct (draw_of co t q E Mc) as (i & A & Ad).
  destruct (inc_value next w e co i int_next Hx O A Ad) as (_ & V & _). rewrite P in V. cbn in V. rewrite Nat.sub_0_r, IH in V by lia. rewrite V. unfold rolled.
  rewrite N.add_mod_idemp_l by (apply N.pow_nonzero; discriminate). f_equal. lia.
Qed.
(** A draw and its place. *)
Lemma drawn t d v : counted rs next w adds_one t d v -> exists e co, nth_error (rs t) d = Some co /\ event_at evss (t, d) = Some e /\ object e = next /\ modifies (what e) = true /\ modifying next co = true /\ 1 <= place (what e) <= n next /\ v = rolled w (place (what e) - 1).
Proof.
  intros (i & r & E & Ad & Tl). destruct (r_ev objs st programs contents n evss ts outss R _ _ _ E) as (e & Ee & Hx & O & I). cbn in O.
  destruct (inc_value next w e _ i int_next Hx O eq_refl Ad) as (M & _ & r' & Er & Tl'). cbn in Er. injection Er as <-.
  pose proof (modifies_place objs contents n evss (run_memory _ _ _ _ _ _ _ _ R) e I M) as B. rewrite O in B.
  exists e. eexists. split; [exact E|]. split; [exact Ee|]. split; [exact O|]. split; [exact M|]. split; [rewrite (modifying_of objs st programs contents n evss ts outss R next e _ Hx O O); exact M|]. split; [exact B|].
  rewrite <- next_value by lia. eapply told_one; eassumption.
Qed.
Lemma draw_counted t d co e : nth_error (rs t) d = Some co -> event_at evss (t, d) = Some e -> modifying next co = true -> counted rs next w adds_one t d (rolled w (place (what e) - 1)).
Proof.
  intros E Ee M. destruct (draw_of co t d E M) as (i & A & Ad). destruct (mod_event next t d co E M) as (e0 & Ee0 & Hx & O & T & Mo & B). rewrite Ee in Ee0. injection Ee0 as <-.
  destruct (inc_value next w e co i int_next Hx O A Ad) as (_ & _ & r & Er & Tl). rewrite next_value in Tl by lia. exists i, r. split; [|split; [exact Ad|exact Tl]].
  rewrite E. destruct co as [[x a] o]. cbn in *. now subst.
Qed.

Lemma draw_reads t d co e : nth_error (rs t) d = Some co -> event_at evss (t, d) = Some e -> modifying next co = true -> reads_at (what e) = Some (place (what e) - 1).
Proof.
  intros E Ee M. destruct (draw_of co t d E M) as (i & A & Ad). destruct (mod_event next t d co E M) as (e0 & Ee0 & Hx & O & T & Mo & B). rewrite Ee in Ee0. injection Ee0 as <-.
  rewrite (r_reads objs contents _ _ Hx); [unfold since; now rewrite Mo|]. rewrite A. cbn. destruct (int_op i); try discriminate Ad; discriminate.
Qed.
Lemma finds_next v co : finds serving v co -> modifying next co = false.
Proof. intros (T & _). unfold modifying. rewrite T. replace (serving =? next) with false; [reflexivity|]. symmetry. apply Nat.eqb_neq. destruct (tl_counters _ _ _ _ _ _ TL) as [N _]. congruence. Qed.

(** The modification of [serving] at place [m] is made by the thread that has drawn number [m - 1]. *)
Definition right_turn (m : nat) : Prop :=
  vx serving m = rolled w m /\
  forall t k e, event_at evss (t, k) = Some e -> object e = serving -> modifies (what e) = true -> place (what e) = m ->
    exists d l v ed, enters next serving w rs t d l v /\ l < k /\ waits next serving rs t l k /\ event_at evss (t, d) = Some ed /\ object ed = next /\ modifies (what ed) = true /\ place (what ed) = m.

(** The number found in [serving] is not a whole round behind the number drawn. *)
Lemma enough_apart t l d D s : d < l ->
  (exists ed cd, nth_error (rs t) d = Some cd /\ event_at evss (t, d) = Some ed /\ object ed = next /\ modifies (what ed) = true /\ modifying next cd = true /\ place (what ed) = S D) ->
  (forall e, event_at evss (t, l) = Some e -> object e = serving /\ reads_at (what e) = Some s) -> event_at evss (t, l) <> None ->
  (forall m, 1 <= m <= s -> right_turn m) -> (Z.of_nat s + range w <= Z.of_nat D)%Z -> False.
Proof.
  intros Ldl (ed & cd & Ed & Eed & Od & Md & Mcd & Pd) Fl Nl IH Far.
  assert (BD : S D <= n next). { destruct (mod_event next t d cd Ed Mcd) as (e0 & Ee0 & _ & _ & _ & _ & B). rewrite Eed in Ee0. injection Ee0 as <-. lia. }
  assert (Pr : (range w = Z.of_N (2 ^ w))%Z) by (unfold range; now rewrite N2Z.inj_pow).
  destruct Enough as [[Th AR]|Once].
  - (* two of the draws s, ..., D are by one thread *)
    assert (Ls : exists L, length L = D - s + 1 /\ forall i a, nth_error L i = Some a -> exists q e co, event_at evss (a, q) = Some e /\ nth_error (rs a) q = Some co /\ object e = next /\ modifies (what e) = true /\ modifying next co = true /\ place (what e) = S (s + i)).
    { assert (K : forall c, c <= D - s + 1 -> exists L, length L = c /\ forall i a, nth_error L i = Some a -> exists q e co, event_at evss (a, q) = Some e /\ nth_error (rs a) q = Some co /\ object e = next /\ modifies (what e) = true /\ modifying next co = true /\ place (what e) = S (s + i)); [|now apply K].
      induction c as [|c IHc]; intros Lc; [exists []; split; [reflexivity|intros [|i] a E; discriminate E]|]. destruct (IHc ltac:(lia)) as (L & Len & HL).
      destruct (mod_call next (S (s + c)) ltac:(lia)) as (a & q & e & co & Ee & E & _ & O & _ & M & Mc & P). exists (L ++ [a]). split; [rewrite app_length; cbn; lia|].
      intros i b Ei. destruct (Nat.lt_ge_cases i c) as [Li|Li]; [rewrite nth_error_app1 in Ei by lia; now apply HL|]. rewrite nth_error_app2 in Ei by lia. destruct (i - length L) as [|[|]] eqn:Ex; try discriminate Ei.
      cbn in Ei. injection Ei as <-. assert (i = c) as -> by lia. exists q, e, co. repeat (split; [assumption|]). exact P. }
    destruct Ls as (L & Len & HL). destruct (dup_or_not L) as [ND|(i & j & a & Lij & Ei & Ej)].
    + assert (Inc : incl L (seq 0 (length programs))).
      { intros a Ia. apply In_nth_error in Ia as (i & Ei). destruct (HL i a Ei) as (q & e & co & _ & E & _). apply in_seq. pose proof (threads_length _ _ _ _ _ _ _ _ _ _ _ R E). lia. }
      pose proof (NoDup_incl_length ND Inc) as Lle. rewrite seq_length in Lle. lia.
    + assert (Lj : j < length L) by (apply nth_error_Some; congruence).
      destruct (HL i a Ei) as (qa & ea & ca & Eea & Ea & Oa & Ma & Mca & Pa). destruct (HL j a Ej) as (qb & eb & cb & Eeb & Eb & Ob & Mb & Mcb & Pb).
      assert (Lab : qa < qb) by (apply (po_writes objs st programs contents n evss ts outss R a qa ea qb eb Eea Eeb ltac:(congruence) Ma Mb); lia).
      destruct (tl_again _ _ _ _ _ _ TL a qa qb ca cb Lab Ea Eb Mca Mcb) as (k1 & Lk1 & c1 & Ec1 & Mc1).
      destruct (mod_event serving a k1 c1 Ec1 Mc1) as (e1 & Ee1 & _ & O1 & T1 & M1 & B1).
      assert (S1 : s < place (what e1)).
      { destruct (Nat.lt_ge_cases s (place (what e1))) as [H|H]; [exact H|exfalso]. destruct (proj2 (IH (place (what e1)) ltac:(lia)) a k1 e1 Ee1 O1 M1 eq_refl) as (d1 & l1 & v1 & ed1 & En1 & Ll1 & Wt1 & Eed1 & Od1 & Md1 & Pd1).
        destruct En1 as (Ld1 & Cn1 & Fd1 & Wt0).
        destruct (Nat.lt_ge_cases d1 qa) as [X|X].
        - destruct Fd1 as (cl1 & El1 & Fi1). assert (qa <> l1). { intros ->. rewrite Ea in El1. injection El1 as <-. pose proof (finds_next _ _ Fi1). congruence. }
          destruct (Nat.lt_ge_cases qa l1) as [Y|Y]; [pose proof (proj1 (Wt0 qa ca ltac:(lia) Ea))|pose proof (proj1 (Wt1 qa ca ltac:(lia) Ea))]; congruence.
        - assert (place (what ea) <= place (what ed1)). { destruct (Nat.eq_dec d1 qa) as [->|Nd]; [rewrite Eea in Eed1; injection Eed1 as <-; lia|]. pose proof (po_places next a qa ea d1 ed1 Eea Eed1 Oa Od1 Ma Md1 ltac:(lia)). lia. }
          lia. }
      assert (HB : happens_before evss (a, k1) (t, l)).
      { assert (H1 : happens_before evss (a, k1) (a, qb)) by (apply hb_sequenced; split; [reflexivity|cbn; lia]).
        assert (H3 : happens_before evss (t, d) (t, l)) by (apply hb_sequenced; split; [reflexivity|exact Ldl]).
        destruct (Nat.eq_dec (s + j) D) as [X|X].
        - assert (Nm : (a, qb) = (t, d)) by (apply (one_name next a qb eb t d ed); try assumption; lia). rewrite <- Nm in H3. eapply hb_then; eassumption.
        - apply hb_then with (a, qb); [exact H1|]. apply hb_then with (t, d); [|exact H3]. apply hb_synchronizes.
          exists eb, ed, (place (what eb)), D. split; [exact Eeb|]. split; [exact Eed|]. split; [congruence|].
          destruct (mod_event next a qb cb Eb Mcb) as (e0 & Ee0 & Hb & _). rewrite Eeb in Ee0. injection Ee0 as <-. destruct (mod_event next t d cd Ed Mcd) as (e0 & Ee0 & Hd & _). rewrite Eed in Ee0. injection Ee0 as <-.
          split; [rewrite (r_order objs contents _ _ Hb); apply (AR a qb cb Eb Mcb)|]. split; [rewrite (r_order objs contents _ _ Hd); apply (AR t d cd Ed Mcd)|].
          split; [now apply wpl|]. split; [rewrite (draw_reads t d cd ed Ed Eed Mcd); f_equal; lia|]. split; [lia|].
          intros e k Ie Oe Wk _. apply event_at_in in Ie as ([u q] & Ee). destruct (r_rep objs st programs contents n evss ts outss R _ _ _ Ee) as (co & Eq & Hx & T & _).
          rewrite (draw_reads u q co e Eq Ee); [discriminate|]. rewrite (modifying_of objs st programs contents n evss ts outss R next e co Hx T ltac:(congruence)). unfold writes_at in Wk. now destruct (modifies (what e)). }
      destruct (event_at evss (t, l)) as [el|] eqn:Eel; [|contradiction]. destruct (Fl el eq_refl) as [Ol Rl].
      destruct (hb_coherence _ _ _ _ (run_memory _ _ _ _ _ _ _ _ R) _ _ _ _ HB Ee1 Eel ltac:(congruence)) as (_ & _ & _ & WR). specialize (WR _ _ (wpl _ M1) Rl). lia.
  - (* no number was drawn twice *)
    assert (P2 : (0 < range w)%Z) by (unfold range; apply Z.pow_pos_nonneg; lia). set (C := D - Z.to_nat (range w)).
    destruct (mod_call next (S C) ltac:(lia)) as (a & q & e & co & Ee & E & _ & O & _ & M & Mc & P).
    pose proof (draw_counted t d cd ed Ed Eed Mcd) as C1. pose proof (draw_counted a q co e E Ee Mc) as C2. rewrite Pd in C1. rewrite P in C2. cbn [Nat.sub] in C1, C2. rewrite Nat.sub_0_r in C1, C2.
    assert (Sm : rolled w D = rolled w C).
    { unfold rolled. replace (N.of_nat D) with (N.of_nat C + 1 * 2 ^ w)%N by (unfold C; lia). apply N.mod_add, N.pow_nonzero. discriminate. }
    rewrite Sm in C1. pose proof (Once _ _ _ _ _ C1 C2) as Nm. injection Nm as -> ->. rewrite Ee in Eed. injection Eed as <-. unfold C in *. lia.
Qed.
Lemma found t d l v ed el : enters next serving w rs t d l v -> event_at evss (t, d) = Some ed -> event_at evss (t, l) = Some el ->
  (forall m, 1 <= m <= place (what el) -> right_turn m) ->
  place (what ed) = S (place (what el)) /\ object el = serving /\ modifies (what el) = false /\ reads_at (what el) = Some (place (what el)) /\ place (what el) <= n serving /\
  object ed = next /\ modifies (what ed) = true /\ v = rolled w (place (what el)).
Proof.
  intros (L & Cn & (cl & El & F) & Wt) Eed Eel IH.
  destruct (drawn t d v Cn) as (ed0 & cd & Ed & Eed0 & Od & Md & Mcd & Bd & Vd). rewrite Eed in Eed0. injection Eed0 as <-.
  destruct (r_ev objs st programs contents n evss ts outss R _ _ _ El) as (el0 & Eel0 & Hl & Ol & Il). rewrite Eel in Eel0. injection Eel0 as <-. rewrite (proj1 F) in Ol.
  destruct int_serving as (iw & ew & sg & esg & Os).
  destruct (find_value objs st programs contents n evss ts outss R serving v el cl ltac:(do 5 eexists; exact Os) Hl Ol F) as (Ml & Rd & V).
  assert (Rl : reads_at (what el) = Some (place (what el))) by (rewrite (r_reads objs contents _ _ Hl) by (rewrite Rd; discriminate); unfold since; now rewrite Ml).
  destruct (exec_event _ contents n evss (run_memory _ _ _ _ _ _ _ _ R) el Il) as (_ & Bl & _). rewrite Ol in Bl.
  set (s := place (what el)) in *. set (D := place (what ed) - 1) in *.
  assert (Vs : v = rolled w s).
  { rewrite <- V. destruct (Nat.eq_dec s 0) as [->|Z]; [|apply IH; lia]. apply start_value; [do 4 eexists; exact Os|]. apply (tl_counters _ _ _ _ _ _ TL). now right. }
  assert (Le : s <= D).
  { destruct (Nat.le_gt_cases s D) as [H|H]; [exact H|exfalso].
    destruct (mod_call serving (S D) ltac:(lia)) as (t1 & k1 & e1 & c1 & Ee1 & E1 & H1 & O1 & T1 & M1 & Mc1 & P1).
    destruct (proj2 (IH (S D) ltac:(lia)) t1 k1 e1 Ee1 O1 M1 P1) as (d1 & l1 & v1 & ed1 & En1 & Ll1 & Wt1 & Eed1 & Od1 & Md1 & Pd1).
    assert (Nm : (t1, d1) = (t, d)) by (apply (one_name next t1 d1 ed1 t d ed); try assumption; lia). injection Nm as -> ->.
    destruct En1 as (Ld1 & _). destruct (Nat.lt_trichotomy k1 l) as [Y|[Y|Y]].
    - pose proof (proj2 (Wt k1 c1 ltac:(lia) E1)). congruence.
    - subst k1. rewrite Eel in Ee1. injection Ee1 as <-. congruence.
    - destruct (po_coherent objs st programs contents n evss ts outss R t l el k1 e1 Eel Ee1 ltac:(congruence) Y) as (_ & _ & RW & _). specialize (RW _ _ Rl (wpl _ M1)). lia. }
  repeat (split; [|first [assumption|repeat (split; try assumption)]]).
  destruct (rolled_same w s D Le ltac:(congruence)) as [H|H]; [lia|exfalso]. apply (enough_apart t l d D s L); try assumption; try congruence.
  - exists ed, cd. repeat (split; [assumption|]). lia.
  - intros e Ee. rewrite Eel in Ee. injection Ee as <-. auto.
Qed.
Lemma turns m : 1 <= m <= n serving -> right_turn m.
Proof.
  induction m as [m IH] using lt_wf_ind. intros B.
  assert (Second : forall t k e, event_at evss (t, k) = Some e -> object e = serving -> modifies (what e) = true -> place (what e) = m ->
    exists d l v ed, (enters next serving w rs t d l v /\ l < k /\ waits next serving rs t l k /\ event_at evss (t, d) = Some ed /\ object ed = next /\ modifies (what ed) = true /\ place (what ed) = m) /\
      v = rolled w (m - 1) /\ exists co, expl e co /\ increases serving ((v + 1) mod 2 ^ w) (fst co)).
  { intros t k e Ee O M P. destruct (r_rep objs st programs contents n evss ts outss R _ _ _ Ee) as (co & E & Hx & T & I).
    assert (Mc : modifying serving co = true) by (rewrite (modifying_of objs st programs contents n evss ts outss R serving e co Hx T O); exact M).
    destruct (tl_leave _ _ _ _ _ _ TL t k co E Mc) as (d & l & v & En & Lk & Wt & Inc).
    pose proof En as (L & Cn & (cl & El & F) & Wt0). destruct (drawn t d v Cn) as (ed & cd & Ed & Eed & _). destruct (r_ev objs st programs contents n evss ts outss R _ _ _ El) as (el & Eel & Hl & Ol & Il).
    rewrite (proj1 F) in Ol.
    assert (Rl : reads_at (what el) = Some (place (what el))).
    { destruct int_serving as (iw & ew & sg & esg & Os). destruct (find_value objs st programs contents n evss ts outss R serving v el cl ltac:(do 5 eexists; exact Os) Hl Ol F) as (Ml & Rd & V).
      rewrite (r_reads objs contents _ _ Hl) by (rewrite Rd; discriminate). unfold since. now rewrite Ml. }
    destruct (po_coherent objs st programs contents n evss ts outss R t l el k e Eel Ee ltac:(congruence) Lk) as (_ & _ & RW & _). specialize (RW _ _ Rl (wpl _ M)). rewrite P in RW.
    destruct (found t d l v ed el En Eed Eel ltac:(intros m' Bm'; apply IH; lia)) as (Pd & _ & Ml & _ & _ & Od & Md & Vv).
    assert (Eq : S (place (what el)) = m).
    { destruct (Nat.eq_dec (S (place (what el))) m) as [X|X]; [exact X|exfalso].
      destruct (mod_call serving (S (place (what el))) ltac:(lia)) as (t1 & k1 & e1 & c1 & Ee1 & E1 & H1 & O1 & T1 & M1 & Mc1 & P1).
      destruct (proj2 (IH (S (place (what el))) ltac:(lia) ltac:(lia)) t1 k1 e1 Ee1 O1 M1 P1) as (d1 & l1 & v1 & ed1 & En1 & Ll1 & Wt1 & Eed1 & Od1 & Md1 & Pd1).
      assert (Nm : (t1, d1) = (t, d)) by (apply (one_name next t1 d1 ed1 t d ed); try assumption; lia). injection Nm as -> ->. destruct En1 as (Ld1 & _).
      assert (Lk1 : k1 < k) by (apply (po_writes objs st programs contents n evss ts outss R t k1 e1 k e Ee1 Ee ltac:(congruence) M1 M); lia).
      destruct (Nat.lt_trichotomy k1 l) as [Y|[Y|Y]].
      - pose proof (proj2 (Wt0 k1 c1 ltac:(lia) E1)). congruence.
      - subst k1. rewrite Eel in Ee1. injection Ee1 as <-. congruence.
      - pose proof (proj2 (Wt k1 c1 ltac:(lia) E1)). congruence. }
    exists d, l, v, ed. split; [repeat (split; [assumption|]); lia|]. split; [rewrite Vv; f_equal; lia|]. exists co. auto. }
  split.
  - destruct (mod_call serving m B) as (t & k & e & co & Ee & E & Hx & O & T & M & Mc & P). destruct (Second t k e Ee O M P) as (d & l & v & ed & _ & Vv & co' & Hx' & Inc).
    assert (Up : ((rolled w (m - 1) + 1) mod 2 ^ w = rolled w m)%N) by (unfold rolled; rewrite N.add_mod_idemp_l by (apply N.pow_nonzero; discriminate); f_equal; lia).
    destruct Inc as [Inc|(T' & i & A & Inc)].
    + destruct int_serving as (iw & ew & sg & esg & Os). destruct (put_value objs st programs contents n evss ts outss R serving _ e co' ltac:(do 5 eexists; exact Os) Hx' O Inc) as [_ V]. rewrite P in V. rewrite V, Vv. exact Up.
    + assert (Ad : adds_one (int_op i) = true) by (destruct Inc as [-> | [-> | [-> | ->]]]; reflexivity).
      destruct (inc_value serving w e co' i int_serving Hx' O A Ad) as (_ & V & _). rewrite P in V. rewrite V, <- Up. do 2 f_equal.
      destruct (Nat.eq_dec m 1) as [->|Z]; [apply start_value; [exact int_serving|apply (tl_counters _ _ _ _ _ _ TL); now right]|]. apply IH; lia.
  - intros t k e Ee O M P. destruct (Second t k e Ee O M P) as (d & l & v & ed & H & _). exists d, l, v, ed. exact H.
Qed.

Context (RA : serving_release_acquire serving rs).
Lemma writer t l v co el : nth_error (rs t) l = Some co -> finds serving v co -> event_at evss (t, l) = Some el -> 1 <= place (what el) ->
  exists u p ep, event_at evss (u, p) = Some ep /\ object ep = serving /\ modifies (what ep) = true /\ place (what ep) = place (what el) /\ happens_before evss (u, p) (t, l).
Proof.
  intros El F Eel P. destruct (r_ev objs st programs contents n evss ts outss R _ _ _ El) as (el0 & Eel0 & Hl & Ol & Il). rewrite Eel in Eel0. injection Eel0 as <-. rewrite (proj1 F) in Ol.
  destruct int_serving as (iw & ew & sg & esg & Os). destruct (find_value objs st programs contents n evss ts outss R serving v el co ltac:(do 5 eexists; exact Os) Hl Ol F) as (Ml & Rd & V).
  destruct (read_from objs st programs contents n evss ts outss R t l el co Eel Hl Ml ltac:(lia)) as (u & p & ep & cp & Ep & Rp & Hp & Op & Tp & Mp & Pp & Ap & Sy).
  exists u, p, ep. repeat (split; [congruence|]). apply Sy; [apply (proj1 (RA u p cp Rp ltac:(congruence)) Ap)|apply (proj2 (RA t l co El (proj1 F)) Rd)].
Qed.
(** All that was done before is known to one who finds a number in [serving]. *)
Lemma known c : forall t l v co el t1 k1 e1, nth_error (rs t) l = Some co -> finds serving v co -> event_at evss (t, l) = Some el ->
  event_at evss (t1, k1) = Some e1 -> object e1 = serving -> modifies (what e1) = true -> place (what e1) + c = place (what el) -> happens_before evss (t1, k1) (t, l).
Proof.
  induction c as [|c IH]; intros t l v co el t1 k1 e1 El F Eel Ee1 O1 M1 P;
    (assert (P1 : 1 <= place (what e1)) by (apply (modifies_place objs contents n evss (run_memory _ _ _ _ _ _ _ _ R)); [apply event_at_in; eauto|exact M1]));
    destruct (writer t l v co el El F Eel ltac:(lia)) as (u & p & ep & Ep & Op & Mp & Pp & HS).
  - assert (Nm : (t1, k1) = (u, p)) by (apply (one_name serving t1 k1 e1 u p ep); try assumption; try congruence; lia). now rewrite Nm.
  - assert (Bp : 1 <= place (what ep) <= n serving) by (rewrite <- Op; apply (modifies_place objs contents n evss (run_memory _ _ _ _ _ _ _ _ R)); [apply event_at_in; eauto|exact Mp]).
    destruct (proj2 (turns _ Bp) u p ep Ep Op Mp eq_refl) as (d2 & l2 & v2 & ed2 & En2 & Ll2 & Wt2 & Eed2 & Od2 & Md2 & Pd2).
    pose proof En2 as (_ & _ & (c2 & E2 & F2) & _). destruct (r_ev objs st programs contents n evss ts outss R _ _ _ E2) as (el2 & Eel2 & Hl2 & Ol2 & Il2).
    assert (Bl2 : place (what el2) <= n serving) by (destruct (exec_event _ contents n evss (run_memory _ _ _ _ _ _ _ _ R) el2 Il2) as (_ & B & _); now rewrite Ol2, (proj1 F2) in B).
    destruct (found u d2 l2 v2 ed2 el2 En2 Eed2 Eel2 ltac:(intros m' Bm'; apply turns; lia)) as (Pl2 & _).
    apply hb_then with (u, l2); [apply (IH u l2 v2 c2 el2 t1 k1 e1); try assumption; lia|]. apply hb_then with (u, p); [|exact HS]. apply hb_sequenced. split; [reflexivity|exact Ll2].
Qed.
(** Who has drawn earlier has left before who has drawn later enters. *)
Lemma earlier t d l v ed t' d' l' v' ed' : enters next serving w rs t d l v -> enters next serving w rs t' d' l' v' -> event_at evss (t, d) = Some ed -> event_at evss (t', d') = Some ed' ->
  place (what ed) < place (what ed') -> exists k, l < k /\ leaves serving rs t k /\ happens_before evss (t, k) (t', l').
Proof.
  intros En En' Eed Eed' L. pose proof En as (Ld & _ & (cl & El & F) & Wt). pose proof En' as (_ & _ & (cl' & El' & F') & _).
  destruct (r_ev objs st programs contents n evss ts outss R _ _ _ El) as (el & Eel & Hl & Ol & Il). destruct (r_ev objs st programs contents n evss ts outss R _ _ _ El') as (el' & Eel' & Hl' & Ol' & Il').
  assert (B : forall e v co t l, In e (concat evss) -> object e = target (fst co) -> finds serving v co -> event_at evss (t, l) = Some e -> place (what e) <= n serving).
  { intros e v0 co t0 l0 I O F0 _. destruct (exec_event _ contents n evss (run_memory _ _ _ _ _ _ _ _ R) e I) as (_ & B & _). now rewrite O, (proj1 F0) in B. }
  pose proof (B _ _ _ _ _ Il Ol F Eel) as Bl. pose proof (B _ _ _ _ _ Il' Ol' F' Eel') as Bl'.
  destruct (found t d l v ed el En Eed Eel ltac:(intros m' Bm'; apply turns; lia)) as (Pl & _ & Ml & _ & _ & Od & Md & _). destruct (found t' d' l' v' ed' el' En' Eed' Eel' ltac:(intros m' Bm'; apply turns; lia)) as (Pl' & _).
  destruct (mod_call serving (place (what ed)) ltac:(lia)) as (t1 & k1 & e1 & c1 & Ee1 & E1 & H1 & O1 & T1 & M1 & Mc1 & P1).
  destruct (proj2 (turns (place (what ed)) ltac:(lia)) t1 k1 e1 Ee1 O1 M1 P1) as (d1 & l1 & v1 & ed1 & En1 & Ll1 & Wt1 & Eed1 & Od1 & Md1 & Pd1).
  assert (Nm : (t1, d1) = (t, d)) by (apply (one_name next t1 d1 ed1 t d ed); try assumption; lia). injection Nm as -> ->. destruct En1 as (Ld1 & _).
  exists k1. split; [|split].
  - destruct (Nat.lt_trichotomy k1 l) as [Y|[Y|Y]]; [|exfalso|exact Y].
    + pose proof (proj2 (Wt k1 c1 ltac:(lia) E1)). congruence.
    + subst k1. rewrite Eel in Ee1. injection Ee1 as <-. congruence.
  - exists c1. auto.
  - apply (known (place (what el') - place (what e1)) t' l' v' cl' el' t k1 e1); try assumption. lia.
Qed.
Lemma draws_differ t d l v t' d' l' v' : t <> t' -> enters next serving w rs t d l v -> enters next serving w rs t' d' l' v' ->
  exists ed ed', event_at evss (t, d) = Some ed /\ event_at evss (t', d') = Some ed' /\ place (what ed) <> place (what ed').
Proof.
  intros Nt (_ & Cn & _) (_ & Cn' & _). destruct (drawn t d v Cn) as (ed & cd & Ed & Eed & Od & Md & _). destruct (drawn t' d' v' Cn') as (ed' & cd' & Ed' & Eed' & Od' & Md' & _).
  exists ed, ed'. split; [exact Eed|]. split; [exact Eed'|]. intros P. pose proof (one_name next t d ed t' d' ed' Eed Eed' Od Od' Md Md' P). congruence.
Qed.
Lemma drawn_first t d l v t' d' l' v' : enters next serving w rs t d l v -> enters next serving w rs t' d' l' v' -> happens_before evss (t, d) (t', d') ->
  exists k, l < k /\ leaves serving rs t k /\ happens_before evss (t, k) (t', l').
Proof.
  intros En En' HB. pose proof En as (_ & Cn & _). pose proof En' as (_ & Cn' & _). destruct (drawn t d v Cn) as (ed & cd & Ed & Eed & Od & Md & _). destruct (drawn t' d' v' Cn') as (ed' & cd' & Ed' & Eed' & Od' & Md' & _).
  apply (earlier t d l v ed t' d' l' v' ed'); try assumption. destruct (hb_coherence _ _ _ _ (run_memory _ _ _ _ _ _ _ _ R) _ _ _ _ HB Eed Eed' ltac:(congruence)) as (WW & _). exact (WW _ _ (wpl _ Md) (wpl _ Md')).
Qed.
Lemma excluded t d l v t' d' l' v' : t <> t' -> enters next serving w rs t d l v -> enters next serving w rs t' d' l' v' ->
  (exists k, l < k /\ leaves serving rs t k /\ happens_before evss (t, k) (t', l')) \/ (exists k, l' < k /\ leaves serving rs t' k /\ happens_before evss (t', k) (t, l)).
Proof.
  intros Nt En En'. destruct (draws_differ _ _ _ _ _ _ _ _ Nt En En') as (ed & ed' & Eed & Eed' & Np).
  destruct (Nat.lt_trichotomy (place (what ed)) (place (what ed'))) as [H|[H|H]]; [left; eapply earlier; eassumption|contradiction|right; eapply earlier; eassumption].
Qed.
Lemma ordered t l k t' l' k' : t <> t' -> within next serving w rs t l k -> within next serving w rs t' l' k' ->
  happens_before evss (t, k) (t', k') \/ happens_before evss (t', k') (t, k).
Proof.
  intros Nt ((d & v & En) & Lk & Wt) ((d' & v' & En') & Lk' & Wt').
  assert (One : forall t l k t' l' k', l < k -> waits next serving rs t l k -> l' < k' -> (exists u, l < u /\ leaves serving rs t u /\ happens_before evss (t, u) (t', l')) -> happens_before evss (t, k) (t', k')).
  { clear. intros t l k t' l' k' Lk Wt Lk' (u & Lu & (co & E & M) & HB). apply hb_then with (t', l'); [|apply hb_sequenced; split; [reflexivity|exact Lk']].
    destruct (Nat.lt_trichotomy k u) as [H|[->|H]]; [|exact HB|]; [apply hb_then with (t, u); [apply hb_sequenced; split; [reflexivity|exact H]|exact HB]|].
    pose proof (proj2 (Wt u co ltac:(lia) E)). congruence. }
  destruct (excluded _ _ _ _ _ _ _ _ Nt En En') as [H|H]; [left|right]; eapply One; eassumption.
Qed.
End Ticket.
End Run.
