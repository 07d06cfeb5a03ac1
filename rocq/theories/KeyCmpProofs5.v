From Verif Require Import Base BaseLemmas CxSetModel CxMapModel CxMultimapModel KeyCmpModel KeyCmpSpec.
From Verif Require Import KeyCmpProofs KeyCmpProofs2 KeyCmpProofs3 KeyCmpProofs4.

Section P.
Context {E : Type}.

(** ** The comparisons, whatever == does. *)
Definition logs {S A} (c : ending A * S * list E) (tr : list E) (P : E -> Prop) (n : nat) : Prop :=
  forall r s' u, c = (r, s', u) -> exists t, u = tr ++ t /\ Forall P t /\ (length t <= n)%nat.
Lemma logs_none {S A} (c : ending A * S * list E) tr P : snd c = tr -> logs c tr P 0.
Proof. intros H r s' u ->. cbn in H. subst u. exists []. rewrite app_nil_r. auto. Qed.
Lemma logs_ret {S A} (a : A) (s : S) tr P : logs (ret a s tr) tr P 0.
Proof. apply logs_none. reflexivity. Qed.
Lemma logs_plainly {S A} (g : S -> option (S * A)) s tr P : logs (plainly g s tr) tr P 0.
Proof. apply logs_none. unfold plainly. destruct (g s) as [[? ?]|]; reflexivity. Qed.
Lemma logs_bind {S A B} (m : call E S A) (k : A -> call E S B) s tr P n1 n2 :
  logs (m s tr) tr P n1 ->
  (forall a s1 tr1, m s tr = (Ret a, s1, tr1) -> logs (k a s1 tr1) tr1 P n2) ->
  logs (bind m k s tr) tr P (n1 + n2).
Proof.
  intros H1 H2 r s' u H. unfold bind in H. destruct (m s tr) as [[[a| |] s1] tr1] eqn:X.
  - destruct (H1 _ _ _ eq_refl) as (t1 & -> & F1 & L1).
    destruct (H2 _ _ _ eq_refl _ _ _ H) as (t2 & -> & F2 & L2).
    exists (t1 ++ t2). rewrite app_assoc, app_length. split; [reflexivity|]. split; [apply Forall_app; auto|lia].
  - injection H as <- <- <-. destruct (H1 _ _ _ eq_refl) as (t1 & -> & F1 & L1). exists t1. split; [reflexivity|].
    split; [exact F1|lia].
  - injection H as <- <- <-. destruct (H1 _ _ _ eq_refl) as (t1 & -> & F1 & L1). exists t1. split; [reflexivity|].
    split; [exact F1|lia].
Qed.
Lemma logs_weaken {S A} (c : ending A * S * list E) tr (P Q : E -> Prop) n k :
  (forall e, P e -> Q e) -> (n <= k)%nat -> logs c tr P n -> logs c tr Q k.
Proof.
  intros H1 H2 H r s' u X. destruct (H _ _ _ X) as (t & -> & F & L). exists t. split; [reflexivity|].
  split; [eapply Forall_impl; eauto|lia].
Qed.
Lemma logs_silent {S A B} (m : call E S A) (k : A -> call E S B) s tr P n :
  logs (m s tr) tr P n -> (forall a s1 tr1, logs (k a s1 tr1) tr1 P 0) -> logs (bind m k s tr) tr P n.
Proof. intros H1 H2. rewrite <- (Nat.add_0_r n). apply logs_bind; auto. Qed.

Section Scan.
Context {X T : Type} (ev : T -> T -> E) (eq : list E -> T -> T -> option bool) (key : X -> T).
Lemma scan_found l t tr i u : scan ev eq key l t tr = (Ret (Some i), u) ->
  exists x tr0, nth_error l i = Some x /\ eq tr0 (key x) t = Some true.
Proof.
  revert tr i. induction l as [|x r IH]; intros tr i H; cbn in H; [discriminate|].
  destruct (eq tr (key x) t) as [[|]|] eqn:Q; [| |discriminate].
  - injection H as <- <-. cbn. eauto.
  - destruct (scan ev eq key r t (tr ++ [ev (key x) t])) as [[[j|]| |] u'] eqn:Y; try discriminate.
    injection H as <- <-. exact (IH _ _ Y).
Qed.
Lemma scan_logs l t tr r u : scan ev eq key l t tr = (r, u) ->
  exists w, u = tr ++ w /\ Forall (fun e => exists x, In x (map key l) /\ e = ev x t) w /\ (length w <= length l)%nat.
Proof.
  intros H. destruct (scan_any ev key eq l t tr) as (l1 & l2 & E1 & E2). rewrite H in E2. cbn in E2.
  exists (map (fun x => ev (key x) t) l1). split; [exact E2|]. split.
  - apply Forall_forall. intros e He. apply in_map_iff in He as (x & <- & Hx).
    exists (key x). split; [|reflexivity]. apply in_map. rewrite E1. apply in_or_app. auto.
  - rewrite E1, map_length, app_length. lia.
Qed.
End Scan.

Section Set_.
Context {T : Type} (ev : T -> T -> E) (eq : list E -> T -> T -> option bool).
Notation at_ l t := (fun e => exists x, In x l /\ e = ev x t).
Lemma cs_find_logs t s tr l : s_items s = Some l -> logs (cs_find ev eq t s tr) tr (at_ l t) (length l).
Proof.
  intros Hl r s' u H. unfold cs_find in H. rewrite Hl in H. destruct (scan ev eq _ l t tr) as [r0 u0] eqn:X.
  injection H as <- <- <-. destruct (scan_logs _ _ _ _ _ _ _ _ X) as (w & -> & F & L). rewrite map_id in F. eauto.
Qed.
Lemma cs_contains_logs t s tr l : s_items s = Some l -> logs (cs_contains ev eq t s tr) tr (at_ l t) (length l).
Proof. intros Hl. apply logs_silent; [apply cs_find_logs, Hl|intros; apply logs_ret]. Qed.
Lemma cs_insert_logs t s tr l : s_items s = Some l -> logs (cs_insert ev eq t s tr) tr (at_ l t) (length l).
Proof.
  intros Hl. apply logs_silent; [apply cs_contains_logs, Hl|]. intros [|] s1 tr1; [apply logs_ret|apply logs_plainly].
Qed.
Lemma cs_erase_logs t s tr l : s_items s = Some l -> logs (cs_erase ev eq t s tr) tr (at_ l t) (length l).
Proof.
  intros Hl. apply logs_silent; [apply cs_find_logs, Hl|]. intros [i|] s1 tr1; [apply logs_plainly|apply logs_ret].
Qed.
Lemma cs_insert_items t s tr l b s' u : inv_s s -> s_items s = Some l ->
  cs_insert ev eq t s tr = (Ret b, s', u) -> s_items s' = Some l \/ s_items s' = Some (l ++ [t]).
Proof.
  intros Hi Hl H. destruct (inv_items _ _ Hi Hl) as (r & S1 & S2 & S3).
  unfold cs_insert, bind in H. destruct (cs_contains ev eq t s tr) as [[[[|]| |] s1] tr1] eqn:C; try discriminate;
    apply cs_contains_reads in C; subst s1.
  - unfold ret in H. injection H as <- <- <-. auto.
  - unfold plainly in H. destruct (wr (s_storage s) (s_size s) t) as [st|] eqn:W; cbn in H; [|discriminate].
    injection H as <- <- <-. right.
    rewrite S1, S2 in W. destruct r as [|x r].
    { rewrite app_nil_r in W. rewrite wr_ge_None in W by lia. discriminate. }
    rewrite wr_app_len in W. injection W as <-. unfold s_items. cbn [s_size s_storage].
    rewrite S2. rewrite sz_inc_small by (rewrite len_app, len_cons in S3; lia).
    destruct (N.leb_spec (len l + 1) (len (l ++ t :: r))) as [_|L]; [|rewrite len_app, len_cons in L; lia].
    f_equal. replace (l ++ t :: r) with ((l ++ [t]) ++ r) by (rewrite <- app_assoc; reflexivity).
    replace (N.to_nat (len l + 1)) with (length (l ++ [t])) by (rewrite app_length; unfold len; cbn; lia).
    apply firstn_app_len.
Qed.
Lemma cs_merge_logs ts : forall s tr l, inv_s s -> s_items s = Some l ->
  logs (cs_merge ev eq ts s tr) tr (fun e => exists x t, In t ts /\ In x (l ++ ts) /\ e = ev x t)
    (length ts * (length l + length ts)).
Proof.
  induction ts as [|t r IH]; intros s tr l Hi Hl; cbn [cs_merge]; [apply logs_ret|].
  apply logs_weaken with (P := fun e => exists x t', In t' (t :: r) /\ In x (l ++ t :: r) /\ e = ev x t')
    (n := (length l + length r * (length l + 1 + length r))%nat); [auto|cbn; lia|].
  apply logs_bind.
  - eapply logs_weaken; [| |apply cs_insert_logs, Hl]; [|lia]. intros e (x & Hx & ->). exists x, t.
    split; [left; reflexivity|]. split; [apply in_or_app; auto|reflexivity].
  - intros b s1 tr1 X. pose proof (cs_insert_keeps ev eq t _ _ _ _ _ Hi X) as Hi1.
    destruct (cs_insert_items _ _ _ _ _ _ _ Hi Hl X) as [Y|Y]; (eapply logs_weaken; [| |apply (IH _ _ _ Hi1 Y)]).
    + intros e (x & t' & H1 & H2 & ->). exists x, t'. split; [right; exact H1|]. split; [|reflexivity].
      apply in_app_or in H2 as [H2|H2]; apply in_or_app; [auto|right; right; exact H2].
    + apply Nat.mul_le_mono_l. lia.
    + intros e (x & t' & H1 & H2 & ->). exists x, t'. split; [right; exact H1|]. split; [|reflexivity].
      rewrite <- app_assoc in H2. exact H2.
    + rewrite app_length. cbn. lia.
Qed.
Lemma cs_step_logs op s tr l : inv_s s -> s_items s = Some l ->
  logs (cs_step ev eq op s tr) tr (fun e => exists x t, In t (set_args op) /\ In x (l ++ set_stores op) /\ e = ev x t)
    (length (set_args op) * (length l + length (set_stores op))).
Proof.
  intros Hi Hl. destruct op; cbn [cs_step set_args set_stores]; try apply logs_plainly.
  - apply logs_silent; [|intros; apply logs_ret]. eapply logs_weaken; [| |apply cs_insert_logs, Hl]; [|cbn; lia].
    intros e (x & Hx & ->). exists x, k. rewrite app_nil_r. cbn. auto.
  - apply logs_silent; [|intros; apply logs_ret]. eapply logs_weaken; [| |apply cs_erase_logs, Hl]; [|cbn; lia].
    intros e (x & Hx & ->). exists x, k. rewrite app_nil_r. cbn. auto.
  - apply logs_silent; [|intros; apply logs_ret]. apply cs_merge_logs; auto.
  - apply logs_silent; [|intros; apply logs_ret]. eapply logs_weaken; [| |apply cs_contains_logs, Hl]; [|cbn; lia].
    intros e (x & Hx & ->). exists x, k. rewrite app_nil_r. cbn. auto.
Qed.
End Set_.

Section Map_.
Context {K V : Type} (ev : K -> K -> E) (eq : list E -> K -> K -> option bool).
Notation mp := (cmap K V).
Notation at_ l t := (fun e => exists x, In x l /\ e = ev x t).
Lemma cm_find_logs k (m : mp) tr l : m_items m = Some l -> logs (cm_find ev eq k m tr) tr (at_ (map fst l) k) (length l).
Proof.
  intros Hl r s' u H. unfold cm_find in H. rewrite Hl in H. destruct (scan ev eq _ l k tr) as [r0 u0] eqn:X.
  injection H as <- <- <-. destruct (scan_logs _ _ _ _ _ _ _ _ X) as (w & -> & F & L). eauto.
Qed.
Lemma cm_find_found k (m : mp) tr l i m' u : m_items m = Some l ->
  cm_find ev eq k m tr = (Ret (Some i), m', u) ->
  m' = m /\ exists k' v tr0, nth_error l i = Some (k', v) /\ eq tr0 k' k = Some true.
Proof.
  intros Hl H. split; [exact (cm_find_reads ev eq _ _ _ _ _ _ H)|]. unfold cm_find in H. rewrite Hl in H.
  destruct (scan ev eq fst l k tr) as [r0 u0] eqn:X. injection H as -> _ _.
  destruct (scan_found _ _ _ _ _ _ _ _ X) as ([k' v] & tr0 & H1 & H2). exists k', v, tr0. auto.
Qed.
Lemma cm_get_logs k (m : mp) tr l : m_items m = Some l -> logs (cm_get ev eq k m tr) tr (at_ (map fst l) k) (length l).
Proof.
  intros Hl. apply logs_silent; [apply cm_find_logs, Hl|]. intros [i|] s1 tr1; [apply logs_ret|apply logs_plainly].
Qed.
Lemma cm_get_found k (m : mp) tr l i m' u : m_items m = Some l -> cm_get ev eq k m tr = (Ret i, m', u) ->
  m' = m /\ exists k' v tr0, nth_error l i = Some (k', v) /\ eq tr0 k' k = Some true.
Proof.
  intros Hl H. unfold cm_get, bind in H. destruct (cm_find ev eq k m tr) as [[[[j|]| |] m1] u1] eqn:X; try discriminate.
  unfold ret in H. injection H as -> <- <-. exact (cm_find_found _ _ _ _ _ _ _ Hl X).
Qed.
Lemma cm_contains_logs k (m : mp) tr l : m_items m = Some l ->
  logs (cm_contains ev eq k m tr) tr (at_ (map fst l) k) (length l).
Proof. intros Hl. apply logs_silent; [apply cm_find_logs, Hl|intros; apply logs_ret]. Qed.
Lemma cm_put_logs k v (m : mp) tr l : m_items m = Some l ->
  logs (cm_put ev eq k v m tr) tr (at_ (map fst l) k) (length l).
Proof.
  intros Hl. apply logs_silent; [apply cm_find_logs, Hl|]. intros [i|] s1 tr1; [|apply logs_plainly].
  apply logs_silent; [apply logs_plainly|intros; apply logs_ret].
Qed.
Lemma cm_erase_logs k (m : mp) tr l : m_items m = Some l ->
  logs (cm_erase ev eq k m tr) tr (at_ (map fst l) k) (length l).
Proof.
  intros Hl. apply logs_silent; [apply cm_find_logs, Hl|]. intros [i|] s1 tr1; [apply logs_plainly|apply logs_ret].
Qed.
Lemma cm_step_logs cap op (m : mp) tr l : m_items m = Some l ->
  logs (cm_step ev eq cap op m tr) tr (fun e => exists x k, In k (map_args op) /\ In x (map fst l) /\ e = ev x k)
    (length (map_args op) * length l).
Proof.
  intros Hl.
  assert (W : forall A (c : ending A * mp * list E) k, In k (map_args op) -> length (map_args op) = 1%nat ->
    logs c tr (at_ (map fst l) k) (length l) ->
    logs c tr (fun e => exists x k, In k (map_args op) /\ In x (map fst l) /\ e = ev x k)
      (length (map_args op) * length l)).
  { intros A c k Hk Hn. apply logs_weaken; [|rewrite Hn; lia]. intros e (x & Hx & ->). eauto. }
  destruct op as [k v|k|k|k v|k| | | | | |]; cbn [cm_step]; try apply logs_plainly;
    (apply W with (k := k); [left; reflexivity|reflexivity|]).
  - apply logs_silent; [apply cm_put_logs, Hl|intros; apply logs_ret].
  - apply logs_silent; [apply cm_erase_logs, Hl|intros; apply logs_ret].
  - apply logs_silent; [apply cm_get_logs, Hl|]. intros.
    apply logs_silent; [apply logs_plainly|intros; apply logs_ret].
  - apply logs_silent; [apply cm_get_logs, Hl|]. intros.
    apply logs_silent; [apply logs_plainly|intros; apply logs_ret].
  - apply logs_silent; [apply cm_contains_logs, Hl|intros; apply logs_ret].
Qed.
End Map_.

Section Parts.
Context {K V : Type}.
Notation mm := (cmap K (cset V)).
Lemma items_at (m : mm) (l0 r : list (K * cset V)) i k s s' : m_size m = len l0 -> nth_error l0 i = Some (k, s) ->
  m_items {| m_storage := set_nth i (k, s') l0 ++ r; m_size := m_size m |} = Some (set_nth i (k, s') l0).
Proof.
  intros Hz Hn. unfold m_items. cbn. rewrite Hz.
  destruct (N.leb_spec (len l0) (len (set_nth i (k, s') l0 ++ r))) as [_|L].
  - f_equal. rewrite len_to_nat, <- (set_nth_length i (k, s') l0). apply firstn_app_len.
  - unfold len in L. rewrite app_length, set_nth_length in L. lia.
Qed.
Lemma rd_at (m : mm) (l0 r : list (K * cset V)) i k (s s' : cset V) : nth_error l0 i = Some (k, s) ->
  rd (set_nth i (k, s') l0 ++ r) (N.of_nat i) = Some (k, s').
Proof.
  intros Hn. assert (L : (i < length l0)%nat) by (apply nth_error_Some; congruence).
  rewrite rd_nth_error, Nat2N.id, nth_error_app1 by (rewrite set_nth_length; exact L).
  rewrite nth_error_set_nth by exact L. rewrite Nat.eqb_refl. reflexivity.
Qed.

End Parts.

Section Multimap_.
Context {K V : Type} (kev : K -> K -> E) (keq : list E -> K -> K -> option bool).
Context (vev : V -> V -> E) (veq : list E -> V -> V -> option bool) (vcap : N) (dv : V).
Notation mm := (cmap K (cset V)).
Notation inv := (@inv_m K (cset V) inv_s).

Lemma mm_lists_app (a b : list (K * cset V)) :
  mm_lists (a ++ b) = match mm_lists a, mm_lists b with Some x, Some y => Some (x ++ y) | _, _ => None end.
Proof.
  induction a as [|[k s] r IH]; cbn; [destruct (mm_lists b); reflexivity|].
  rewrite IH. destruct (s_items s); [|reflexivity]. destruct (mm_lists r), (mm_lists b); reflexivity.
Qed.
Lemma mm_lists_nth (l0 : list (K * cset V)) l i k s : mm_lists l0 = Some l -> nth_error l0 i = Some (k, s) ->
  exists a0 b0 a b vs, l0 = a0 ++ (k, s) :: b0 /\ length a0 = i /\ mm_lists a0 = Some a /\ mm_lists b0 = Some b /\
  s_items s = Some vs /\ l = a ++ (k, vs) :: b.
Proof.
  intros H N. apply nth_error_split in N as (a0 & b0 & -> & L). rewrite mm_lists_app in H. cbn in H.
  destruct (mm_lists a0) as [a|] eqn:HA; [|discriminate]. destruct (s_items s) as [vs|] eqn:HV; [|discriminate].
  destruct (mm_lists b0) as [b|] eqn:HB; [|discriminate]. injection H as <-. exists a0, b0, a, b, vs. repeat split; auto.
Qed.

Definition in_op (l : list (K * list V)) (ks : list K) (vs : list V) (e : E) : Prop :=
  (exists x k, In k ks /\ In x (map fst l) /\ e = kev x k) \/
  (exists x w v, In v vs /\ In w (map snd l) /\ In x w /\ e = vev x v).

Lemma key_part {A} (c : ending A * mm * list E) tr (l0 : list (K * cset V)) l k ks vs :
  mm_lists l0 = Some l -> In k ks ->
  logs c tr (fun e => exists x, In x (map fst l0) /\ e = kev x k) (length l0) ->
  logs c tr (in_op l ks vs) (length l).
Proof.
  intros H Hk. pose proof (mm_lists_keys _ _ H) as HK. apply logs_weaken.
  - intros e (x & Hx & ->). left. exists x, k. rewrite <- HK. auto.
  - rewrite <- (map_length fst l0), <- (map_length fst l), HK. lia.
Qed.
Lemma value_part {A} i (c : call E (cset V) A) (m : mm) tr l0 r l k s w v ks n :
  mm_lists l0 = Some l -> m_storage m = l0 ++ r -> nth_error l0 i = Some (k, s) -> s_items s = Some w ->
  (forall e, In e l -> (length (snd e) <= n)%nat) ->
  logs (c s tr) tr (fun e => exists x, In x w /\ e = vev x v) (length w) ->
  logs (on_set i c m tr) tr (in_op l ks [v]) n.
Proof.
  intros H Hs Hn Hw Hb Hc. destruct (mm_lists_nth _ _ _ _ _ H Hn) as (a0 & b0 & a & b & w' & _ & _ & _ & _ & Hw' & El).
  rewrite Hw in Hw'. injection Hw' as <-.
  destruct (on_set_pure i c m l0 r k s tr Hs Hn) as (st & HO).
  intros r0 m' u X. destruct (c s tr) as [[r1 s1] u1] eqn:C. destruct (HO _ _ _ eq_refl) as (_ & Y & _).
  rewrite Y in X. injection X as <- <- <-. destruct (Hc _ _ _ eq_refl) as (t & -> & F & L). exists t.
  split; [reflexivity|]. split.
  - eapply Forall_impl; [|exact F]. cbn. intros e (x & Hx & ->). right. exists x, w, v. split; [left; reflexivity|].
    split; [|auto]. rewrite El, map_app. apply in_or_app. right. left. reflexivity.
  - specialize (Hb (k, w)). cbn in Hb. assert (In (k, w) l) by (rewrite El; apply in_or_app; right; left; reflexivity).
    specialize (Hb H0). lia.
Qed.

Lemma cs_erase_emptied v s tr w n s' u : inv_s s -> s_items s = Some w ->
  cs_erase vev veq v s tr = (Ret n, s', u) -> s_size s' = 0%N ->
  w = [] \/ exists x tr0, w = [x] /\ veq tr0 x v = Some true.
Proof.
  intros Hi Hw H Hz. destruct (inv_items _ _ Hi Hw) as (r & S1 & S2 & S3).
  unfold cs_erase, bind in H. unfold cs_find in H. rewrite Hw in H.
  destruct (scan vev veq (fun x => x) w v tr) as [[[i|]| |] u0] eqn:X; try discriminate.
  - right. destruct (scan_found _ _ _ _ _ _ _ _ X) as (x & tr0 & N & Q).
    unfold plainly in H. destruct (rd (s_storage s) (sz_dec (s_size s))) as [y|]; [|discriminate].
    destruct (wr (s_storage s) (N.of_nat i) y); cbn in H; [|discriminate]. injection H as _ <- _. cbn in Hz.
    assert (L : (i < length w)%nat) by (apply nth_error_Some; congruence).
    rewrite S2 in Hz. rewrite sz_dec_pos in Hz; [|unfold len; lia|rewrite len_app in S3; lia].
    destruct w as [|x0 [|x1 w]]; [cbn in L; lia| |rewrite !len_cons in Hz; lia].
    destruct i as [|i]; [|cbn in L; lia]. cbn in N. injection N as ->. eauto.
  - left. unfold ret in H. injection H as _ <- _. rewrite S2 in Hz. destruct w; [reflexivity|].
    rewrite len_cons in Hz. lia.
Qed.

Lemma cmm_step_logs op (m : mm) tr l n : inv m -> mm_items m = Some l -> on_set_call op = false ->
  (forall e, In e l -> (length (snd e) <= n)%nat) ->
  logs (cmm_step kev keq vev veq vcap dv op m tr) tr (in_op l (multimap_keys op) (multimap_values op))
    (3 * length l + n).
Proof.
  intros Hm Hl Ho Hb. destruct (inv_mm_parts _ _ Hm Hl) as (l0 & r & H0 & Hs & Hz & Hll).
  destruct op as [k v|k|k v|k|k|k v|k sop| | | |]; cbn [cmm_step multimap_keys multimap_values]; try discriminate.
  all: try (eapply logs_weaken; [intros e X; exact X| |apply logs_plainly]; lia).
  - apply logs_silent; [|intros; apply logs_ret]. unfold cmm_insert.
    apply logs_weaken with (P := in_op l [k] [v]) (n := (length l + (length l + n))%nat); [auto|lia|].
    apply logs_bind; [apply (key_part _ _ l0 l k); [exact Hll|left; reflexivity|apply cm_contains_logs, H0]|].
    intros b m1 tr1 X. apply cm_contains_reads in X. subst m1. destruct b.
    + apply logs_bind; [apply (key_part _ _ l0 l k); [exact Hll|left; reflexivity|apply cm_get_logs, H0]|].
      intros i m1 tr2 X. destruct (cm_get_found _ _ _ _ _ _ _ _ _ H0 X) as (-> & k' & s & tr0 & Hn & _).
      apply logs_silent; [|intros; apply logs_ret].
      destruct (mm_lists_nth _ _ _ _ _ Hll Hn) as (_ & _ & _ & _ & w & _ & _ & _ & _ & Hw & _).
      exact (value_part i _ m tr2 l0 r l k' s w v [k] n Hll Hs Hn Hw Hb (cs_insert_logs _ _ v s tr2 w Hw)).
    + apply logs_weaken with (P := in_op l [k] [v]) (n := (0 + length l)%nat); [auto|lia|].
      apply logs_bind; [apply logs_plainly|]. intros s m1 tr2 X.
      assert (m1 = m) as -> by (exact (make_set_reads _ _ _ _ _ _ _ _ X)).
      apply logs_silent; [|intros; apply logs_ret].
      apply (key_part _ _ l0 l k); [exact Hll|left; reflexivity|apply cm_put_logs, H0].
  - apply logs_silent; [|intros; apply logs_ret]. unfold cmm_insert_key.
    apply logs_weaken with (P := in_op l [k] []) (n := (length l + length l)%nat); [auto|lia|].
    apply logs_bind; [apply (key_part _ _ l0 l k); [exact Hll|left; reflexivity|apply cm_contains_logs, H0]|].
    intros b m1 tr1 X. apply cm_contains_reads in X. subst m1. destruct b.
    + eapply logs_weaken; [intros e X; exact X| |apply logs_ret]; lia.
    + apply logs_weaken with (P := in_op l [k] []) (n := (0 + length l)%nat); [auto|lia|].
      apply logs_bind; [apply logs_plainly|]. intros s m1 tr2 X.
      assert (m1 = m) as -> by (exact (make_set_reads _ _ _ _ _ _ _ _ X)).
      apply logs_silent; [|intros; apply logs_ret].
      apply (key_part _ _ l0 l k); [exact Hll|left; reflexivity|apply cm_put_logs, H0].
  - apply logs_silent; [|intros; apply logs_ret]. unfold cmm_erase.
    apply logs_weaken with (P := in_op l [k] [v]) (n := (length l + (length l + (n + (0 + length l))))%nat); [auto|lia|].
    apply logs_bind; [apply (key_part _ _ l0 l k); [exact Hll|left; reflexivity|apply cm_contains_logs, H0]|].
    intros b m1 tr1 X. apply cm_contains_reads in X. subst m1. destruct b.
    2:{ eapply logs_weaken; [intros e X; exact X| |apply logs_ret]; lia. }
    apply logs_bind; [apply (key_part _ _ l0 l k); [exact Hll|left; reflexivity|apply cm_get_logs, H0]|].
    intros i m1 tr2 X. destruct (cm_get_found _ _ _ _ _ _ _ _ _ H0 X) as (-> & k' & s & tr0 & Hn & _). clear X.
    destruct (mm_lists_nth _ _ _ _ _ Hll Hn) as (_ & _ & _ & _ & w & _ & _ & _ & _ & Hw & _).
    apply logs_bind; [exact (value_part i _ m tr2 l0 r l k' s w v [k] n Hll Hs Hn Hw Hb (cs_erase_logs _ _ v s tr2 w Hw))|].
    intros r1 m1 tr3 X.
    destruct (on_set_pure i (cs_erase vev veq v) m l0 r k' s tr2 Hs Hn) as (st & HO).
    destruct (cs_erase vev veq v s tr2) as [[r2 s'] u] eqn:C. destruct (HO _ _ _ eq_refl) as (_ & Y & Z).
    rewrite Y in X. injection X as -> <- <-.
    apply logs_bind; [apply logs_plainly|]. intros s1 m1 tr3 X. apply cm_read_reads in X. subst m1.
    destruct (s_size s1 =? 0)%N; [|eapply logs_weaken; [intros e X; exact X| |apply logs_ret]; lia].
    apply logs_silent; [|intros; apply logs_ret]. rewrite Z.
    pose proof (cm_erase_logs kev keq k _ tr3 _ (items_at m l0 r i k' s s' Hz Hn)) as Q.
    rewrite (map_fst_set_nth _ _ _ _ s' Hn), set_nth_length in Q.
    apply (key_part _ _ l0 l k); [exact Hll|left; reflexivity|exact Q].
  - apply logs_silent; [|intros; apply logs_ret].
    apply logs_weaken with (P := in_op l [k] []) (n := length l); [auto|lia|].
    apply (key_part _ _ l0 l k); [exact Hll|left; reflexivity|apply cm_erase_logs, H0].
  - apply logs_silent; [|intros; apply logs_ret].
    apply logs_weaken with (P := in_op l [k] []) (n := length l); [auto|lia|].
    apply (key_part _ _ l0 l k); [exact Hll|left; reflexivity|apply cm_contains_logs, H0].
  - apply logs_silent; [|intros; apply logs_ret]. unfold cmm_contains2.
    apply logs_weaken with (P := in_op l [k] [v]) (n := (length l + (length l + n))%nat); [auto|lia|].
    apply logs_bind; [apply (key_part _ _ l0 l k); [exact Hll|left; reflexivity|apply cm_contains_logs, H0]|].
    intros b m1 tr1 X. apply cm_contains_reads in X. subst m1. destruct b.
    + apply logs_bind; [apply (key_part _ _ l0 l k); [exact Hll|left; reflexivity|apply cm_get_logs, H0]|].
      intros i m1 tr2 X. destruct (cm_get_found _ _ _ _ _ _ _ _ _ H0 X) as (-> & k' & s & tr0 & Hn & _).
      destruct (mm_lists_nth _ _ _ _ _ Hll Hn) as (_ & _ & _ & _ & w & _ & _ & _ & _ & Hw & _).
      exact (value_part i _ m tr2 l0 r l k' s w v [k] n Hll Hs Hn Hw Hb (cs_contains_logs _ _ v s tr2 w Hw)).
    + eapply logs_weaken; [intros e X; exact X| |apply logs_ret]; lia.
Qed.

(** ** An == that throws in erase(k, v). *)
Lemma cmm_erase_thrown k v (m : mm) tr l m' tr' : inv m -> mm_items m = Some l ->
  cmm_erase kev keq vev veq k v m tr = (Thrown, m', tr') ->
  m' = m \/
  exists a k' w b, l = a ++ (k', w) :: b /\ mm_items m' = Some (a ++ (k', []) :: b) /\
  (exists t, keq t k' k = Some true) /\ (w = [] \/ exists x t, w = [x] /\ veq t x v = Some true).
Proof.
  intros Hm Hl H. destruct (inv_mm_parts _ _ Hm Hl) as (l0 & r & H0 & Hs & Hz & Hll).
  unfold cmm_erase, bind at 1 in H.
  destruct (cm_contains kev keq k m tr) as [[[b| |] m1] tr1] eqn:X; [| |discriminate];
    apply cm_contains_reads in X; subst m1; [|left; congruence].
  destruct b; [|discriminate]. unfold bind at 1 in H.
  destruct (cm_get kev keq k m tr1) as [[[i| |] m1] tr2] eqn:X.
  3: discriminate.
  2: { apply cm_get_reads in X. left. congruence. }
  destruct (cm_get_found _ _ _ _ _ _ _ _ _ H0 X) as (-> & k' & s & tr0 & Hn & Hk). clear X.
  destruct (mm_lists_nth _ _ _ _ _ Hll Hn) as (a0 & b0 & a & b & w & El0 & La & Ha & Hb & Hw & El).
  pose proof (nth_inv _ _ _ _ _ _ Hm Hs Hn) as Hi.
  destruct (on_set_pure i (cs_erase vev veq v) m l0 r k' s tr2 Hs Hn) as (st & HO).
  unfold bind at 1 in H. destruct (on_set i (cs_erase vev veq v) m tr2) as [[[n| |] m1] tr3] eqn:X; [| |discriminate].
  2:{ left. injection H as <- <-. exact (on_set_safe _ _ (cs_erase_safe vev veq v) _ _ _ _ X). }
  destruct (cs_erase vev veq v s tr2) as [[r2 s'] u] eqn:C. destruct (HO _ _ _ eq_refl) as (_ & Y & Z).
  injection Y as <- -> ->.
  unfold bind at 1 in H. unfold cm_read, plainly in H. cbn [m_storage] in H. rewrite Z in H.
  rewrite (rd_at m l0 r i k' s s' Hn) in H. cbn [option_map snd] in H.
  destruct (s_size s' =? 0)%N eqn:Q; [|discriminate]. apply N.eqb_eq in Q. unfold bind at 1 in H.
  destruct (cm_erase kev keq k _ u) as [[[n'| |] m2] tr4] eqn:X2; try discriminate.
  injection H as <- <-. apply cm_erase_safe in X2. subst m2. right. exists a, k', w, b.
  split; [exact El|]. split; [|split; [eauto|exact (cs_erase_emptied _ _ _ _ _ _ _ Hi Hw C Q)]].
  unfold mm_items. rewrite (items_at m l0 r i k' s s' Hz Hn).
  rewrite El0, <- La, set_nth_app_len, mm_lists_app. cbn. rewrite Ha, Hb.
  pose proof (cs_erase_keeps vev veq v _ _ _ _ _ Hi C) as Hi'. rewrite (inv_s_items _ Hi'), Q. reflexivity.
Qed.

(** ** An == that throws while merging into the set that get() gives. *)
Lemma on_set_merge_thrown k ts (m : mm) tr m' tr' : inv m ->
  cmm_step kev keq vev veq vcap dv (MMOnSet k (SMerge ts)) m tr = (Thrown, m', tr') ->
  exists t1 t2 tr1, ts = t1 ++ t2 /\
  (m' = m \/ cmm_step kev keq vev veq vcap dv (MMOnSet k (SMerge t1)) m tr = (Ret (MMSet SUnit), m', tr1)).
Proof.
  intros Hm H. destruct (inv_mm_items _ Hm) as (l & Hl).
  destruct (inv_mm_parts _ _ Hm Hl) as (l0 & r & H0 & Hs & Hz & Hll).
  cbn [cmm_step] in *. unfold bind at 1 in H.
  destruct (cm_get kev keq k m tr) as [[[i| |] m1] tr1] eqn:X.
  3: discriminate.
  2: { apply cm_get_reads in X. exists [], ts, []. split; [reflexivity|]. left. congruence. }
  destruct (cm_get_found _ _ _ _ _ _ _ _ _ H0 X) as (-> & k' & s & tr0 & Hn & Hk).
  unfold bind at 1 in H.
  destruct (on_set_pure i (cs_step vev veq (SMerge ts)) m l0 r k' s tr1 Hs Hn) as (st & HO).
  destruct (cs_step vev veq (SMerge ts) s tr1) as [[r2 s'] u] eqn:C. destruct (HO _ _ _ eq_refl) as (_ & Y & Z).
  rewrite Y in H. destruct r2 as [o| |]; try discriminate. injection H as <- <-.
  cbn [cs_step] in C. unfold bind in C. destruct (cs_merge vev veq ts s tr1) as [[[[]| |] s1] u1] eqn:M; try discriminate.
  injection C as <- <-. destruct (cs_merge_thrown _ _ _ _ _ _ _ M) as (t1 & x & t2 & tr2 & E1 & E2 & E3).
  exists t1, (x :: t2), tr2. split; [exact E1|]. right.
  unfold bind at 1. rewrite X. unfold bind at 1.
  destruct (on_set_pure i (cs_step vev veq (SMerge t1)) m l0 r k' s tr1 Hs Hn) as (st2 & HO2).
  destruct (HO2 (Ret SUnit) s1 tr2) as (_ & Y2 & Z2).
  { cbn [cs_step]. unfold bind. rewrite E2. reflexivity. }
  rewrite Y2, Z2, Z. reflexivity.
Qed.
End Multimap_.
End P.
