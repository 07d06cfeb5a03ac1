(** The iteration of STDX_MAP. *)
From Verif Require Import Base PpMapModel PpMapSpec PpMapProofs PpMapProofs2.
Open Scope nat_scope.

Lemma join_cons x l : l <> [] -> join (x :: l) = x ++ CM :: join l.
Proof. destruct l; [congruence|reflexivity]. Qed.
Lemma join_app a b : a <> [] -> b <> [] -> join (a ++ b) = join a ++ CM :: join b.
Proof.
  intros Ha Hb. induction a as [|x a IH]; [congruence|]. destruct a as [|y a].
  - cbn [app]. now rewrite join_cons.
  - change ((x :: y :: a) ++ b) with (x :: ((y :: a) ++ b)). rewrite join_cons by discriminate.
    rewrite IH by discriminate. rewrite (join_cons x (y :: a)) by discriminate. now rewrite <- app_assoc.
Qed.
Lemma join_no_names l : Forall argument l -> no_names (join l).
Proof.
  induction 1 as [|x l [N _] _ IH]; [constructor|]. destruct l as [|y l]; [exact N|].
  rewrite join_cons by discriminate. apply no_names_app. split; [exact N|]. constructor; [exact I|exact IH].
Qed.
Lemma join_depth l : Forall argument l -> depth_after true 0 (join l) = Some 0.
Proof.
  induction 1 as [|x l [_ E] _ IH]; [reflexivity|]. destruct l as [|y l]; [now apply depth_weaken|].
  rewrite join_cons by discriminate. rewrite depth_app, (depth_weaken _ _ _ E). exact IH.
Qed.

Lemma above_notin lvl dis m : above lvl dis -> rank m < lvl -> ~ In m dis.
Proof. intros A R H. specialize (A m H). lia. Qed.
Lemma above_weaken l1 l2 dis : l1 <= l2 -> above l2 dis -> above l1 dis.
Proof. intros L A m H. specialize (A m H). lia. Qed.

Section P.
Context (user : nat -> mdef).
Notation Ex := (expands user).
Context (f : tok) (Hf : applicable user f) (g : list tok -> list tok).
Context (e : list tok) (es : list (list tok)).
Context (He : three_groups e) (Ae : argument e) (Aes : Forall argument es) (Nes : es <> []).

Definition one (x : list tok) : Prop :=
  argument x /\ expands_to user f x (g x) /\ Forall quiet (g x) /\ depth_after true 0 (g x) = Some 0.

Lemma f_clean dis : above 1 dis -> paint dis f = f.
Proof.
  intros A. destruct f as [| | |n|m p]; try reflexivity. cbn in Hf. destruct m; try contradiction. destruct p; [contradiction|].
  cbn [paint]. rewrite mem_false; [reflexivity|]. apply (above_notin 1); [exact A|cbn; lia].
Qed.
Lemma f_alone dis s o : (forall u, ~ In (User u) dis) -> open_paren dis s = None -> Ex dis s o -> Ex dis (T f :: s) (f :: o).
Proof.
  intros A P E. destruct f as [| | |n|m p]; try contradiction; [now apply Ex_quiet|].
  destruct m; try contradiction. destruct p; [contradiction|].
  now apply Ex_keep.
Qed.
Lemma f_depth c d r : depth_after c d (f :: r) = depth_after c d r.
Proof. destruct f as [| | |n|m p]; try contradiction; reflexivity. Qed.
Lemma above_user dis : above 1 dis -> forall u, ~ In (User u) dis.
Proof. intros A u. apply (above_notin 1); [exact A|cbn; lia]. Qed.
Lemma above_free dis : above 1 dis -> free dis.
Proof. intros A m H. apply (above_notin 1); [exact A|]. cbn in H. repeat (destruct H as [<-|H]; [cbn; lia|]). contradiction. Qed.

(** The macro call that is still to be made when [ys] is left. *)
Definition head (b : bool) (ys : list (list tok)) : mac :=
  match ys with [] => MAP_END | _ => if b then MAP_A else MAP_B end.
Definition rest (ys : list (list tok)) : list tok := f :: CM :: join (ys ++ e :: es).
Definition pend (b : bool) (ys : list (list tok)) : list tok := nm (head b ys) :: LP :: rest ys ++ [RP].

Lemma args_all ys : Forall argument ys -> Forall argument (ys ++ e :: es).
Proof. intros H. apply Forall_app. split; [exact H|]. now constructor. Qed.
Lemma rest_clean dis ys : above 1 dis -> Forall argument ys -> clean dis (rest ys).
Proof.
  intros A H. constructor; [now apply f_clean|]. constructor; [reflexivity|]. apply no_names_clean, join_no_names. now apply args_all.
Qed.
Lemma rest_depth ys : Forall argument ys -> depth_after true 0 (rest ys) = Some 0.
Proof. intros H. unfold rest. rewrite f_depth. cbn [depth_after]. apply join_depth. now apply args_all. Qed.
Lemma rest_stays dis ys s o : (forall u, ~ In (User u) dis) -> Forall argument ys -> Ex dis s o -> Ex dis (map T (rest ys) ++ s) (rest ys ++ o).
Proof.
  intros A H E. cbn [rest map app]. apply f_alone; [exact A|reflexivity|]. apply Ex_quiet; [exact I|].
  apply Ex_quiets; [|exact E]. apply no_names_quiet, join_no_names. now apply args_all.
Qed.
Lemma bind3 a b c r : depth_after false 0 a = Some 0 -> depth_after false 0 b = Some 0 -> depth_after false 0 c = Some 0 ->
  bind_args 3 true (a ++ CM :: b ++ CM :: c ++ CM :: r) = Some ([a; b; c], r).
Proof. intros Ha Hb Hc. cbn [bind_args split_args]. rewrite cut_arg by exact Ha. rewrite cut_arg by exact Hb. rewrite cut_arg by exact Hc. reflexivity. Qed.

Lemma end_step dis b s o : above 1 dis -> Ex dis s o -> Ex dis (map T (pend b []) ++ s) o.
Proof.
  intros A E. unfold pend. cbn [head].
  eapply (Ex_call1 user dis MAP_END 0 true false [] (rest []) [] (rest []) [] (rest [])).
  - apply above_free; [exact A|cbn; tauto].
  - reflexivity.
  - apply rest_clean; [exact A|constructor].
  - apply rest_depth. constructor.
  - reflexivity.
  - constructor.
  - rewrite <- (app_nil_r (map T (rest []))). replace (rest []) with (rest [] ++ []) at 2 by apply app_nil_r.
    apply rest_stays; [now apply above_user|constructor|apply Ex_nil].
  - cbn [subst andb flat_map map app]. apply Ex_popped; [apply above_free; [exact A|cbn; tauto]|exact E].
Qed.
Lemma step b y ys dis s o : above 1 dis -> one y -> Forall ordinary ys -> Ex dis s o ->
  Ex dis (map T (pend b (y :: ys)) ++ s) ((CM :: g y) ++ pend (negb b) ys ++ o).
Proof.
  intros A (Ay & Hy & _ & _) Oy E.
  assert (Ays : Forall argument ys) by (revert Oy; apply Forall_impl; intros a [H _]; exact H).
  (* the next argument, and the ones after *)
  assert (P : exists p r, join (ys ++ e :: es) = p ++ CM :: join r /\ Forall argument r /\ argument p /\ r <> [] /\
    (forall d m s1 o1, free d -> In m [MAP_A; MAP_B] -> ~ In m d -> Ex d s1 o1 ->
      Ex d (map T (nm DEFER :: LP :: (nm NEXT :: LP :: (p ++ [CM; nm m]) ++ [RP]) ++ [RP]) ++ s1)
           (nm (match ys with [] => MAP_END | _ => m end) :: o1))).
  { destruct ys as [|p ys].
    - exists e, es. cbn [app]. rewrite join_cons by exact Nes. repeat split; auto; try apply Ae. intros d m s1 o1 Fd Hm Dm E1. now apply next_end.
    - exists p, (ys ++ e :: es). change ((p :: ys) ++ e :: es) with (p :: (ys ++ e :: es)).
      rewrite join_cons by (destruct ys; discriminate). inversion Oy; subst. inversion Ays; subst.
      repeat split; try apply H1; [now apply args_all|destruct ys; discriminate|]. intros d m s1 o1 Fd Hm Dm E1. now apply next_more. }
  destruct P as (p & r & Ej & Ar & Ap & Nr & Hnext).
  set (m1 := if b then MAP_A else MAP_B). set (m2 := if b then MAP_B else MAP_A).
  assert (D1 : ~ In m1 dis) by (apply (above_notin 1); [exact A|destruct b; cbn; lia]).
  assert (D2 : ~ In m2 (m1 :: dis)).
  { apply not_in_cons. split; [destruct b; discriminate|]. apply (above_notin 1); [exact A|destruct b; cbn; lia]. }
  unfold pend at 1. change (head b (y :: ys)) with m1.
  assert (Er : rest (y :: ys) = [f] ++ CM :: y ++ CM :: p ++ CM :: join r).
  { unfold rest. change ((y :: ys) ++ e :: es) with (y :: (ys ++ e :: es)). rewrite join_cons by (destruct ys; discriminate). now rewrite Ej. }
  eapply (Ex_call1 user dis m1 3 true false
    ([B CM; Par 0; B LP; Par 1; B RP] ++ call DEFER (call NEXT [Par 2; B CM; B (nm m2)]) ++ [B LP; Par 0; B CM; Par 2; B CM; VaArgs; B RP])
    (rest (y :: ys)) [[f]; y; p] (join r) [[f]; y; p] (join r)).
  - exact D1.
  - subst m1 m2. destruct b; reflexivity.
  - apply rest_clean; [exact A|]. now constructor.
  - apply rest_depth. now constructor.
  - rewrite Er. apply bind3; [rewrite f_depth; reflexivity|apply Ay|apply Ap].
  - constructor; [|constructor; [|constructor; [|constructor]]].
    + cbn [map]. apply f_alone; [now apply above_user|reflexivity|apply Ex_nil].
    + apply Ex_same, Ay.
    + apply Ex_same, Ap.
  - apply Ex_same. now apply join_no_names.
  - assert (U : forall u, ~ In (User u) (m1 :: dis)).
    { intros u. apply not_in_cons. split; [destruct b; discriminate|now apply above_user]. }
    assert (Fr : free (m1 :: dis)) by (apply free_cons; [destruct b; cbn; intuition discriminate|now apply above_free]).
    replace (subst false ([B CM; Par 0; B LP; Par 1; B RP] ++ call DEFER (call NEXT [Par 2; B CM; B (nm m2)]) ++ [B LP; Par 0; B CM; Par 2; B CM; VaArgs; B RP]) [[f]; y; p] (join r))
      with (CM :: applied f y ++ (nm DEFER :: LP :: (nm NEXT :: LP :: (p ++ [CM; nm m2]) ++ [RP]) ++ [RP]) ++ LP :: (f :: CM :: p ++ CM :: join r) ++ [RP]).
    2:{ cbn. cbn. rewrite <- !app_assoc. reflexivity. }
    rewrite map_cons, <- app_comm_cons. change ((CM :: g y) ++ pend (negb b) ys ++ o) with (CM :: g y ++ pend (negb b) ys ++ o). apply Ex_quiet; [exact I|].
    rewrite map_app, <- app_assoc. apply Hy; [exact U|].
    rewrite map_app, <- app_assoc.
    replace (pend (negb b) ys ++ o) with (nm (match ys with [] => MAP_END | _ => m2 end) :: LP :: rest ys ++ RP :: o).
    2:{ replace (match ys with [] => MAP_END | _ => m2 end) with (head (negb b) ys) by (subst m2; destruct ys, b; reflexivity).
        change (pend (negb b) ys ++ o) with (nm (head (negb b) ys) :: LP :: (rest ys ++ [RP]) ++ o). now rewrite <- app_assoc. }
    apply Hnext; [exact Fr|destruct b; cbn; tauto|exact D2|].
    replace (f :: CM :: p ++ CM :: join r) with (rest ys) by (unfold rest; now rewrite Ej).
    rewrite map_cons, map_app, <- !app_comm_cons, <- !app_assoc. apply Ex_quiet; [exact I|].
    apply rest_stays; [exact U|exact Ays|]. cbn [map app]. apply Ex_quiet; [exact I|]. apply Ex_popped; [exact D1|exact E].
Qed.

(** ** Scanning again and again *)
Context (xs : list (list tok)) (Hxs : Forall one xs) (Hord : Forall ordinary (tl xs)).
Definition outs (l : list (list tok)) : list tok := flat_map (fun x => CM :: g x) l.
Definition state (k : nat) : list tok :=
  outs (firstn k xs) ++ (if k <=? length xs then pend (Nat.even k) (skipn k xs) else []).
Lemma xs_args : Forall argument xs.
Proof. revert Hxs. apply Forall_impl. intros x [H _]. exact H. Qed.
Lemma outs_quiet l : Forall one l -> Forall quiet (outs l).
Proof.
  induction 1 as [|x l (_ & _ & Q & _) _ IH]; [constructor|]. cbn [outs flat_map]. constructor; [exact I|]. apply Forall_app. now split.
Qed.
Lemma outs_depth l : Forall one l -> depth_after true 0 (outs l) = Some 0.
Proof.
  induction 1 as [|x l (_ & _ & _ & D) _ IH]; [reflexivity|]. cbn [outs flat_map]. rewrite <- app_comm_cons. cbn [depth_after].
  now rewrite depth_app, D.
Qed.
Lemma quiet_clean dis l : Forall quiet l -> clean dis l.
Proof. apply Forall_impl. intros [| | |n|m p]; cbn; try reflexivity. destruct p; [|contradiction]. now destruct (mem m dis). Qed.
Lemma Forall_firstn {X} (P : X -> Prop) n l : Forall P l -> Forall P (firstn n l).
Proof. intros H. revert n. induction H; intros [|n]; cbn; auto. Qed.
Lemma Forall_skipn {X} (P : X -> Prop) n l : Forall P l -> Forall P (skipn n l).
Proof. intros H. revert n. induction H; intros [|n]; cbn; auto. Qed.
Lemma head_notin b ys dis : above 1 dis -> ~ In (head b ys) dis.
Proof. intros A. apply (above_notin 1); [exact A|]. destruct ys; [cbn; lia|destruct b; cbn; lia]. Qed.
Lemma state_clean dis k : above 1 dis -> clean dis (state k).
Proof.
  intros A. apply Forall_app. split.
  - apply quiet_clean, outs_quiet, Forall_firstn, Hxs.
  - destruct (k <=? length xs); [|constructor]. constructor; [cbn [paint nm]; now rewrite mem_false by now apply head_notin|].
    constructor; [reflexivity|]. apply Forall_app. split; [|repeat constructor]. apply rest_clean; [exact A|]. apply Forall_skipn, xs_args.
Qed.
Lemma state_depth k : depth_after true 0 (state k) = Some 0.
Proof.
  unfold state. rewrite depth_app, outs_depth by apply Forall_firstn, Hxs.
  destruct (k <=? length xs); [|reflexivity]. unfold pend. rewrite <- (app_nil_r (rest (skipn k xs) ++ [RP])).
  cbn [depth_after nm]. rewrite app_nil_r, depth_app.
  pose proof (depth_inside true true _ 0 0 0 (rest_depth (skipn k xs) (Forall_skipn _ _ _ xs_args))) as K. cbn [Nat.add] in K.
  now rewrite K.
Qed.
Lemma skipn_S {X} n (l : list X) y ys : skipn n l = y :: ys -> skipn (S n) l = ys.
Proof. revert l. induction n as [|n IH]; intros [|a l] E; cbn in *; try discriminate; [congruence|]. now apply IH. Qed.
Lemma firstn_S {X} n (l : list X) y ys : skipn n l = y :: ys -> firstn (S n) l = firstn n l ++ [y].
Proof.
  revert l. induction n as [|n IH]; intros [|a l] E; cbn [skipn] in E; try discriminate.
  - injection E as -> ->. reflexivity.
  - cbn [firstn app]. f_equal. now apply IH.
Qed.
Lemma skipn_tl {X} n (l : list X) y ys : skipn n l = y :: ys -> exists k, ys = skipn k (tl l).
Proof.
  intros E. exists n. destruct l as [|a l]; [now destruct n|]. cbn [tl]. symmetry. apply (skipn_S n (a :: l) y ys E).
Qed.
Lemma scan dis k s o : above 1 dis -> Ex dis s o -> Ex dis (map T (state k) ++ s) (state (S k) ++ o).
Proof.
  intros A E. unfold state. rewrite map_app, <- !app_assoc.
  destruct (Nat.leb_spec k (length xs)) as [Hk|Hk].
  - destruct (skipn k xs) as [|y ys] eqn:Es.
    + (* the end *)
      assert (k = length xs). { pose proof (f_equal (@length _) Es) as L. rewrite skipn_length in L. cbn in L. lia. }
      destruct (Nat.leb_spec (S k) (length xs)); [lia|]. cbn [app].
      rewrite (firstn_all2 (n := S k)) by lia. rewrite (firstn_all2 (n := k)) by lia.
      apply Ex_quiets; [apply outs_quiet, Hxs|]. now apply end_step.
    + assert (k < length xs). { pose proof (f_equal (@length _) Es) as L. rewrite skipn_length in L. cbn in L. lia. }
      destruct (Nat.leb_spec (S k) (length xs)); [|lia].
      rewrite (firstn_S k xs y ys Es), (skipn_S k xs y ys Es). unfold outs. rewrite flat_map_app. rewrite <- !app_assoc.
      apply Ex_quiets; [apply outs_quiet, Forall_firstn, Hxs|]. cbn [flat_map]. rewrite app_nil_r.
      rewrite Nat.even_succ, <- Nat.negb_even.
      pose proof (Forall_skipn one k xs Hxs) as F1. rewrite Es in F1. inversion F1; subst.
      apply step; auto. destruct (skipn_tl k xs y ys Es) as [j ->]. apply Forall_skipn, Hord.
  - destruct (Nat.leb_spec (S k) (length xs)); [lia|]. cbn [map app].
    rewrite !firstn_all2 by lia. apply Ex_quiets; [apply outs_quiet, Hxs|exact E].
Qed.
Lemma scan_alone dis k : above 1 dis -> Ex dis (map T (state k)) (state (S k)).
Proof.
  intros A. rewrite <- (app_nil_r (map T (state k))), <- (app_nil_r (state (S k))). apply scan; [exact A|apply Ex_nil].
Qed.

Definition ev (j : nat) : mac :=
  match j with 0 => EVAL0 | 1 => EVAL1 | 2 => EVAL2 | 3 => EVAL3 | 4 => EVAL4 | _ => EVAL5 end.
Fixpoint scans (j : nat) : nat := match j with O => 1 | S j' => 1 + 3 * scans j' end.
Lemma rank_ev j : j <= 5 -> rank (ev j) = S j.
Proof. intros H. do 6 (destruct j as [|j]; [reflexivity|]). lia. Qed.
Lemma call_clean dis m Y : ~ In m dis -> clean dis Y -> clean dis (nm m :: LP :: Y ++ [RP]).
Proof.
  intros D C. constructor; [cbn [paint nm]; now rewrite mem_false|]. constructor; [reflexivity|].
  apply Forall_app. split; [exact C|]. repeat constructor.
Qed.
Lemma call_depth c m Y : depth_after true 0 Y = Some 0 -> depth_after c 0 (nm m :: LP :: Y ++ [RP]) = Some 0.
Proof. intros D. cbn [depth_after nm]. rewrite depth_app. pose proof (depth_inside true c Y 0 0 0 D) as K. cbn [Nat.add] in K. now rewrite K. Qed.
Lemma eval_ok j : j <= 5 -> forall dis k Y s o, above (S (S j)) dis -> clean dis Y -> depth_after true 0 Y = Some 0 ->
  Ex dis (map T Y) (state k) -> Ex dis s o -> Ex dis (map T (nm (ev j) :: LP :: Y ++ [RP]) ++ s) (state (k + scans j) ++ o).
Proof.
  induction j as [|j IH]; intros Hj dis k Y s o A C D Hy E.
  - eapply (Ex_call1 user dis EVAL0 0 true false [VaArgs] Y [] Y [] (state k)); try reflexivity; try assumption.
    + apply (above_notin 2); [exact A|cbn; lia].
    + constructor.
    + cbn [subst andb flat_map subst1]. rewrite app_nil_r. rewrite Nat.add_1_r. apply scan.
      * apply above_cons; [now apply (above_weaken 1 2); [lia|]|cbn; lia].
      * apply Ex_popped; [apply (above_notin 2); [exact A|cbn; lia]|exact E].
  - assert (Rj : rank (ev (S j)) = S (S j)) by now apply rank_ev.
    assert (N : ~ In (ev (S j)) dis) by (apply (above_notin _ _ _ A); lia).
    set (dis' := ev (S j) :: dis).
    assert (A' : above (S (S j)) dis') by (apply above_cons; [apply (above_weaken _ (S (S (S j)))); [lia|exact A]|lia]).
    assert (N' : ~ In (ev j) dis') by (apply (above_notin _ _ _ A'); rewrite rank_ev; lia).
    assert (A1 : above 1 dis') by (apply (above_weaken _ (S (S j))); [lia|exact A']).
    eapply (Ex_call1 user dis (ev (S j)) 0 true false (call (ev j) (call (ev j) (call (ev j) [VaArgs]))) Y [] Y [] (state k)); try reflexivity; try assumption.
    + do 5 (destruct j as [|j]; [reflexivity|]). lia.
    + constructor.
    + set (Y1 := nm (ev j) :: LP :: state k ++ [RP]). set (Y2 := nm (ev j) :: LP :: Y1 ++ [RP]).
      replace (subst false (call (ev j) (call (ev j) (call (ev j) [VaArgs]))) [] (state k)) with (nm (ev j) :: LP :: Y2 ++ [RP])
        by (cbn; now rewrite <- !app_assoc).
      assert (C1 : clean dis' Y1) by (apply call_clean; [exact N'|now apply state_clean]).
      assert (E1 : Ex dis' (map T Y1) (state (S k + scans j))).
      { rewrite <- (app_nil_r (map T Y1)), <- (app_nil_r (state _)). apply IH; auto; [lia|now apply state_clean|apply state_depth|now apply scan_alone|apply Ex_nil]. }
      assert (D1 : depth_after true 0 Y1 = Some 0) by apply call_depth, state_depth.
      assert (E2 : Ex dis' (map T Y2) (state (S k + scans j + scans j))).
      { rewrite <- (app_nil_r (map T Y2)), <- (app_nil_r (state _)). apply IH; auto; [lia|apply Ex_nil]. }
      replace (k + scans (S j)) with (S k + scans j + scans j + scans j) by (cbn [scans]; lia).
      apply IH; auto; [lia|now apply call_clean|now apply call_depth|]. now apply Ex_popped.
Qed.

(** ** The whole macro *)
Context (extra : list (list tok)) (Hextra : Forall argument extra).
Let E : list tok := [LP; RP; LP; RP; LP; RP].
Context (Htail : e :: es = extra ++ [E; E; E; [zero]]) (Nxs : xs <> []) (Njoin : join (xs ++ extra) <> []).
Lemma state0 : state 0 = pend true xs.
Proof. reflexivity. Qed.
Lemma state_cons k : exists st, state (S k) = CM :: st.
Proof. unfold state. destruct xs as [|x l]; [congruence|]. cbn [firstn outs flat_map app]. eexists. reflexivity. Qed.
Lemma above_nil l : above l [].
Proof. intros m []. Qed.
Lemma pend_call : pend true xs = nm MAP_A :: LP :: ([f] ++ CM :: join (xs ++ extra) ++ CM :: E ++ CM :: E ++ CM :: E ++ [CM; zero]) ++ [RP].
Proof.
  unfold pend, rest, head. destruct xs as [|x l] eqn:Ex; [congruence|]. rewrite <- Ex in *. rewrite Htail, app_assoc.
  rewrite join_app; [|rewrite Ex; discriminate|discriminate]. reflexivity.
Qed.
Lemma drop_tl dis k st st' : above 1 dis -> state k = CM :: st -> state (S k) = CM :: st' -> Ex dis (map T st) st'.
Proof.
  intros A E1 E2. pose proof (scan_alone dis k A) as H. rewrite E1, E2 in H. cbn [map] in H.
  destruct (Ex_quiet_inv user dis CM (map T st) (CM :: st') I H) as (o' & E3 & H'). injection E3 as <-. exact H'.
Qed.
Lemma all_args : Forall argument (xs ++ extra).
Proof. apply Forall_app. split; [apply xs_args|exact Hextra]. Qed.
Theorem map_result : preprocesses user (map_call f (xs ++ extra)) (tl (state 368)).
Proof.
  assert (S : state 368 <> []) by (destruct (state_cons 367) as [st ->]; discriminate).
  unfold preprocesses, map_call.
  replace (match xs ++ extra with [] => [] | _ :: _ => CM :: join (xs ++ extra) end) with (CM :: join (xs ++ extra))
    by (destruct xs; [congruence|reflexivity]).
  rewrite <- (app_nil_r (map T _)).
  eapply (Ex_call1 user [] MAP 1 true true _ (f :: CM :: join (xs ++ extra)) [[f]] (join (xs ++ extra)) [[f]] (join (xs ++ extra))).
  { intros []. }
  { reflexivity. }
  { constructor; [apply f_clean, above_nil|]. constructor; [reflexivity|]. apply no_names_clean, join_no_names, all_args. }
  { rewrite f_depth. cbn [depth_after]. apply join_depth, all_args. }
  { change (f :: CM :: join (xs ++ extra)) with ([f] ++ CM :: join (xs ++ extra)). cbn [bind_args split_args]. rewrite (cut_arg [f]) by (rewrite f_depth; reflexivity). reflexivity. }
  { constructor; [|constructor]. cbn [map]. apply f_alone; [intros u []|reflexivity|apply Ex_nil]. }
  { apply Ex_same, join_no_names, all_args. }
  set (d1 := [MAP]).
  assert (A8 : above 8 d1) by (intros m [<-|[]]; cbn; lia).
  replace (subst true _ [[f]] (join (xs ++ extra)))
    with (nm DROP1 :: LP :: (zero :: nm EVAL :: LP :: pend true xs ++ [RP]) ++ [RP]).
  2:{ rewrite pend_call. unfold subst. destruct (join (xs ++ extra)) as [|t j] eqn:Ej; [congruence|]. rewrite <- Ej. cbn [andb].
      cbn. unfold E. cbn. repeat (rewrite <- !app_assoc; cbn). reflexivity. }
  rewrite <- state0.
  destruct (state_cons 365) as [st1 E1], (state_cons 366) as [st2 E2], (state_cons 367) as [st3 E3].
  assert (Cz : forall dis, above 1 dis -> clean dis (zero :: state 366)).
  { intros dis A. constructor; [reflexivity|now apply state_clean]. }
  assert (AW : forall l, l <= 8 -> above l d1) by (intros l L; now apply (above_weaken l 8)).
  eapply (Ex_call1 user d1 DROP1 0 true false _ (zero :: nm EVAL :: LP :: state 0 ++ [RP]) [] (zero :: nm EVAL :: LP :: state 0 ++ [RP]) [] (zero :: state 366)).
  { intros [K|[]]; discriminate. }
  { reflexivity. }
  { constructor; [reflexivity|]. apply call_clean; [intros [K|[]]; discriminate|]. apply state_clean, AW. lia. }
  { apply (call_depth true EVAL (state 0)). apply state_depth. }
  { reflexivity. }
  { constructor. }
  { cbn [map]. apply Ex_quiet; [exact I|]. rewrite <- (app_nil_r (T (nm EVAL) :: _)).
    apply (Ex_call1 user d1 EVAL 0 true false (call EVAL5 [VaArgs]) (state 0) [] (state 0) [] (state 1)).
    { intros [K|[]]; discriminate. }
    { reflexivity. }
    { apply state_clean, AW. lia. }
    { apply state_depth. }
    { reflexivity. }
    { constructor. }
    { apply scan_alone, AW. lia. }
    replace (subst false (call EVAL5 [VaArgs]) [] (state 1)) with (nm (ev 5) :: LP :: state 1 ++ [RP]) by reflexivity.
    assert (A7 : above 7 (EVAL :: d1)) by (apply above_cons; [apply AW; lia|cbn; lia]).
    rewrite <- (app_nil_r (state 366)). change 366 with (2 + scans 5).
    apply eval_ok; [lia|exact A7|apply state_clean, (above_weaken 1 7); [lia|exact A7]|apply state_depth|apply scan_alone, (above_weaken 1 7); [lia|exact A7]|].
    apply Ex_popped; [intros [K|[]]; discriminate|apply Ex_nil]. }
  replace (subst false (call DROP0 [VaArgs]) [] (zero :: state 366)) with (nm DROP0 :: LP :: (zero :: state 366) ++ [RP])
    by reflexivity.
  assert (A1 : above 1 (DROP1 :: d1)) by (apply above_cons; [apply AW; lia|cbn; lia]).
  assert (A0 : above 1 (DROP0 :: DROP1 :: d1)) by (apply above_cons; [exact A1|cbn; lia]).
  rewrite E1, E3. cbn [tl].
  eapply (Ex_call1 user (DROP1 :: d1) DROP0 1 true false [VaArgs] (zero :: CM :: st1) [[zero]] st1 [[zero]] st2).
  { intros [K|[K|[]]]; discriminate. }
  { reflexivity. }
  { rewrite <- E1. now apply Cz. }
  { change (depth_after true 0 (CM :: st1) = Some 0). rewrite <- E1. apply state_depth. }
  { reflexivity. }
  { constructor; [|constructor]. apply Ex_same. repeat constructor. }
  { apply (drop_tl _ 366); auto. }
  cbn [subst andb flat_map subst1]. rewrite app_nil_r.
  (* the last scan, past the end of the macros *)
  pose proof (scan (DROP0 :: DROP1 :: d1) 367 (Pop DROP0 :: Pop DROP1 :: Pop MAP :: []) [] A0) as L.
  rewrite E2, E3 in L.
  assert (P : Ex (DROP0 :: DROP1 :: d1) (Pop DROP0 :: Pop DROP1 :: Pop MAP :: []) []).
  { apply Ex_popped; [intros [K|[K|[]]]; discriminate|]. apply Ex_popped; [intros [K|[]]; discriminate|]. apply Ex_popped; [intros []|apply Ex_nil]. }
  specialize (L P). cbn [map app] in L.
  destruct (Ex_quiet_inv user _ CM _ _ I L) as (o' & E4 & H'). injection E4 as E4. rewrite app_nil_r in E4. subst o'. exact H'.
Qed.
Theorem map_all : length xs <= 367 -> tl (state 368) = tl (outs xs).
Proof.
  intros H. unfold state. destruct (Nat.leb_spec 368 (length xs)); [lia|]. rewrite app_nil_r, firstn_all2 by lia. reflexivity.
Qed.
End P.
