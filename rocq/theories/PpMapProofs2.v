(** One step of STDX_MAP. *)
From Verif Require Import Base PpMapModel PpMapSpec PpMapProofs.
Open Scope nat_scope.

Section P.
Context (user : nat -> mdef).
Notation Ex := (expands user).

(** What may follow a name without calling it. *)
Definition no_call (s : list item) : Prop := s = [] \/ exists s', s = T CM :: s'.
Lemma no_call_open dis s : no_call s -> open_paren dis s = None.
Proof. intros [->|[s' ->]]; reflexivity. Qed.

(** *** The test for the end *)
(** [t] is what STDX_MAP_GET_END peek expands to: it stays as it is when scanned again. *)
Definition stays (dis : list mac) (t : list tok) : Prop :=
  forall s o, no_call s -> Ex dis s o -> Ex dis (map T t ++ s) (t ++ o).
Lemma stays_alone dis t : stays dis t -> Ex dis (map T t) t.
Proof.
  intros H. rewrite <- (app_nil_r (map T t)). replace t with (t ++ []) at 2 by apply app_nil_r.
  apply H; [now left|apply Ex_nil].
Qed.
Lemma clean_name dis m r : ~ In m dis -> no_names r -> clean dis (nm m :: r).
Proof. intros D N. constructor; [|now apply no_names_clean]. cbn [paint nm]. now rewrite mem_false. Qed.
Lemma open_none dis r s : (forall r', r <> LP :: r') -> no_call s -> open_paren dis (map T r ++ s) = None.
Proof.
  intros H N. destruct r as [|t r]; [now apply no_call_open|]. cbn [map app open_paren].
  destruct t; try reflexivity. exfalso. now apply (H r).
Qed.
Lemma stays_name dis m r : ~ In m dis -> is_fun user m -> no_names r -> (forall r', r <> LP :: r') -> stays dis (nm m :: r).
Proof.
  intros D F N H s o S E. cbn [map app]. apply Ex_keep; auto.
  - now apply open_none.
  - apply Ex_quiets; [now apply no_names_quiet|exact E].
Qed.
Lemma no_names_app a b : no_names (a ++ b) <-> no_names a /\ no_names b.
Proof. unfold no_names. apply Forall_app. Qed.
Lemma groups_inv k l r : groups k l r -> argument l -> no_names r /\ depth_after false 0 r = Some 0 /\ (forall r', r <> LP :: r').
Proof.
  induction 1 as [r H|k a l r Ha _ IH]; intros [N E]; [auto|]. apply IH.
  apply Forall_inv_tail in N. apply no_names_app in N as [_ N]. apply Forall_inv_tail in N. split; [exact N|].
  destruct Ha as [_ Ha]. now rewrite (depth_paren true false 0 a l Ha) in E.
Qed.
Lemma test_is dis k l r : ~ In GET_END dis -> ~ In GET_END1 dis -> ~ In GET_END2 dis ->
  k < 3 -> groups k l r -> argument l ->
  Ex dis (map T (nm GET_END :: l)) (nm match k with 0 => GET_END | 1 => GET_END1 | _ => GET_END2 end :: r).
Proof.
  intros D0 D1 D2 Hk G A. pose proof (groups_inv k l r G A) as (N & E & H).
  assert (Z : forall m, ~ In m dis -> is_fun user m -> Ex dis (map T (nm m :: r)) (nm m :: r)).
  { intros m Dm Fm. now apply stays_alone, stays_name. }
  assert (Z1 : forall m m', ~ In m dis -> is_fun user m -> ~ In m' dis -> m <> m' -> Ex (m' :: dis) (T (nm m) :: Pop m' :: map T r) (nm m :: r)).
  { intros m m' Dm Fm Dm' Nm. apply Ex_keep; auto.
    - intros [K|K]; [congruence|auto].
    - cbn [open_paren]. rewrite <- (app_nil_r (map T r)). apply open_none; [exact H|now left].
    - apply Ex_popped; [exact Dm'|]. now apply Ex_same. }
  destruct G as [r H0|k a l r Ha G]; [now apply Z|].
  assert (Aa : forall m dis' s o, ~ In m dis' -> def user m = Fun 0 true false [B (nm match m with GET_END => GET_END1 | _ => GET_END2 end)] ->
     Ex (m :: dis') (T (nm match m with GET_END => GET_END1 | _ => GET_END2 end) :: Pop m :: s) o ->
     Ex dis' (map T (nm m :: LP :: a ++ [RP]) ++ s) o).
  { intros m dis' s o Dm Fm R. destruct Ha as [Na Ea].
    eapply (Ex_call1 user dis' m 0 true false _ a [] a [] a s o); eauto; [now apply no_names_clean|now apply Ex_same]. }
  replace (map T (nm GET_END :: LP :: a ++ RP :: l)) with (map T (nm GET_END :: LP :: a ++ [RP]) ++ map T l)
    by (rewrite <- map_app; cbn [app]; now rewrite <- app_assoc).
  destruct G as [r H1|k b l r Hb G].
  { apply Aa; [exact D0|reflexivity|]. apply Z1; auto; [exact I|discriminate]. }
  (* two groups *)
  destruct G as [r H2|k c l r Hc G]; [|lia].
  apply Aa; [exact D0|reflexivity|].
  destruct Hb as [Nb Eb].
  (* GET_END1, end of GET_END, ( b ) r *)
  eapply (Ex_call user (GET_END :: dis) GET_END1 0 true false _ _ dis (map T b ++ T RP :: map T r) b dis (map T r) [] b [] b).
  - intros [K|K]; [discriminate|auto].
  - reflexivity.
  - cbn [map app open_paren]. cbn [remove]. destruct (mac_eq_dec GET_END GET_END); [|contradiction].
    rewrite notin_remove by exact D0. now rewrite map_app.
  - apply grab_bal; [now apply no_names_clean|exact Eb].
  - reflexivity.
  - constructor.
  - now apply Ex_same.
  - cbn [subst andb flat_map subst1 app map]. apply Z1; auto; [exact I|discriminate].
Qed.
Lemma test_end dis l : ~ In GET_END dis -> ~ In GET_END1 dis -> ~ In GET_END2 dis -> ~ In MAP_END dis -> three_groups l ->
  Ex dis (map T (nm GET_END :: l)) [zero; CM; nm MAP_END].
Proof.
  intros D0 D1 D2 D3 (a & b & Ha & Hb & ->). destruct Ha as [Na Ea], Hb as [Nb Eb].
  replace (map T (nm GET_END :: LP :: a ++ RP :: LP :: b ++ [RP; LP; RP]))
    with (map T (nm GET_END :: LP :: a ++ [RP]) ++ map T (LP :: b ++ [RP; LP; RP]))
    by (rewrite <- map_app; cbn [app]; now rewrite <- app_assoc).
  eapply (Ex_call1 user dis GET_END 0 true false _ a [] a [] a); eauto; [reflexivity|now apply no_names_clean|now apply Ex_same|].
  cbn [subst andb flat_map subst1 app map].
  eapply (Ex_call user (GET_END :: dis) GET_END1 0 true false _ _ dis (map T b ++ T RP :: map T [LP; RP]) b dis (map T [LP; RP]) [] b [] b).
  - intros [K|K]; [discriminate|auto].
  - reflexivity.
  - cbn [open_paren remove]. destruct (mac_eq_dec GET_END GET_END); [|contradiction].
    rewrite notin_remove by exact D0. cbn [map app open_paren]. now rewrite map_app.
  - apply grab_bal; [now apply no_names_clean|exact Eb].
  - reflexivity.
  - constructor.
  - now apply Ex_same.
  - cbn [subst andb flat_map subst1 app map].
    eapply (Ex_call user (GET_END1 :: dis) GET_END2 0 false false _ _ dis [T RP] [] dis [] [] [] [] []).
    + intros [K|K]; [discriminate|auto].
    + reflexivity.
    + cbn [open_paren remove]. destruct (mac_eq_dec GET_END1 GET_END1); [|contradiction]. now rewrite notin_remove.
    + reflexivity.
    + reflexivity.
    + constructor.
    + apply Ex_nil.
    + cbn [subst andb flat_map subst1 app map]. apply Ex_quiet; [exact I|]. apply Ex_quiet; [exact I|].
      apply Ex_keep; [intros [K|K]; [discriminate|auto]|exact I|reflexivity|]. apply Ex_popped; [auto|apply Ex_nil].
Qed.

(** *** Choosing the next macro *)
(** The macros that must be available. *)
Definition inner : list mac := [DEFER; NEXT; NEXT1; NEXT0; GET_END; GET_END1; GET_END2; EMPTY; MAP_OUT; MAP_END].
Definition free (dis : list mac) : Prop := forall m, In m inner -> ~ In m dis.
Lemma free_cons m dis : ~ In m inner -> free dis -> free (m :: dis).
Proof. intros H F x Hx [<-|K]; [contradiction|]. now apply (F x). Qed.
Ltac avail := match goal with
  | F : free ?d |- ~ In ?m ?d => apply F; cbn; tauto
  | |- ~ In _ (_ :: _) => apply not_in_cons; split; [discriminate|avail]
  | |- ~ In _ _ => assumption
  end.
(** STDX_EMPTY() disappears. *)
Lemma Ex_empty dis s o : ~ In EMPTY dis -> Ex dis s o -> Ex dis (T (nm EMPTY) :: T LP :: T RP :: s) o.
Proof.
  intros D H. apply (Ex_call1 user dis EMPTY 0 false false [] [] [] [] [] [] s o); auto; [constructor|apply Ex_nil|].
  cbn. now apply Ex_popped.
Qed.
Lemma Ex_out dis s o : ~ In MAP_OUT dis -> Ex dis s o -> Ex dis (T (nm MAP_OUT) :: s) o.
Proof. intros D H. apply (Ex_obj user dis MAP_OUT []); auto. cbn [map app]. now apply Ex_popped. Qed.

Definition testable (dis : list mac) : Prop := forall m', In m' [GET_END; GET_END1; GET_END2; MAP_END] -> ~ In m' dis.
Lemma testable_cons m dis : ~ In m [GET_END; GET_END1; GET_END2; MAP_END] -> testable dis -> testable (m :: dis).
Proof. intros H F x Hx [<-|K]; [contradiction|]. now apply (F x). Qed.
Lemma free_testable dis : free dis -> testable dis.
Proof. intros F m H. apply F. cbn in *. tauto. Qed.
Ltac testb := repeat (apply testable_cons; [cbn; intuition discriminate|]); now apply free_testable.

Lemma next_ok d peek t m x a0 va s o :
  free d -> argument peek -> In m [MAP_A; MAP_B] -> ~ In m d -> is_fun user x -> ~ In x (NEXT0 :: DEFER :: d) ->
  (forall dis, testable dis -> Ex dis (map T (nm GET_END :: peek)) t) ->
  (forall dis, testable dis -> stays dis t /\ clean dis t) ->
  depth_after true 0 t = Some 0 ->
  bind_args 2 true (t ++ [CM; nm m; CM; zero]) = Some ([a0; [nm x]], va) ->
  (forall dis, testable dis -> Ex dis (map T a0) a0) ->
  (forall dis, ~ In m dis -> Ex dis (map T va) va) ->
  Ex d s o ->
  Ex d (map T (nm DEFER :: LP :: (nm NEXT :: LP :: (peek ++ [CM; nm m]) ++ [RP]) ++ [RP]) ++ s) (nm x :: o).
Proof.
  intros Fd [Np Ep] Hm Dm Fx Dx Ht Hs Et Hb Ha Hv Hs'.
  assert (Fm : is_fun user m) by (destruct Hm as [<-|[<-|[]]]; exact I).
  assert (Nm : ~ In m inner) by (destruct Hm as [<-|[<-|[]]]; cbn; intuition discriminate).
  assert (Nmd : forall k, In k inner -> forall dis, ~ In m dis -> ~ In m (k :: dis)).
  { intros k Hk dis D [E|K]; [subst k; contradiction|contradiction]. }
  assert (Km : forall dis, ~ In m dis -> Ex dis (map T [nm m]) [nm m]).
  { intros dis D. cbn [map]. apply Ex_keep; auto. apply Ex_nil. }
  assert (Cm : forall dis l, ~ In m dis -> clean dis l -> clean dis (l ++ [CM; nm m])).
  { intros dis l D N. apply Forall_app. split; [exact N|]. constructor; [reflexivity|]. now apply clean_name; [|constructor]. }
  assert (Dp : forall c d0, depth_after c (S d0) peek = Some (S d0)).
  { intros c d0. exact (depth_inside false c peek 0 0 d0 Ep). }
  assert (D1 : depth_after false 0 (nm NEXT :: LP :: (peek ++ [CM; nm m]) ++ [RP]) = Some 0).
  { cbn [depth_after nm]. rewrite <- app_assoc, depth_app, Dp. reflexivity. }
  assert (Sc : forall dis, testable dis -> ~ In m dis -> forall s1 o1, Ex dis s1 o1 ->
    Ex dis (map T (t ++ [CM; nm m; CM; zero; RP]) ++ s1) ((t ++ [CM; nm m; CM; zero; RP]) ++ o1)).
  { intros dis Td D s1 o1 E. rewrite map_app, <- !app_assoc. apply (proj1 (Hs dis Td)); [right; eexists; reflexivity|].
    cbn [map app]. apply Ex_quiet; [exact I|]. apply Ex_keep; auto. repeat (apply Ex_quiet; [exact I|]). exact E. }
  (* DEFER's argument *)
  eapply (Ex_call1 user d DEFER 1 false false _ (nm NEXT :: LP :: (peek ++ [CM; nm m]) ++ [RP])
            [nm NEXT :: LP :: (peek ++ [CM; nm m]) ++ [RP]] []
            [nm NEXT0 :: LP :: (t ++ [CM; nm m; CM; zero]) ++ [RP]] []).
  { avail. }
  { reflexivity. }
  { constructor; [cbn [paint nm]; rewrite mem_false; [reflexivity|avail]|]. constructor; [reflexivity|].
    apply Forall_app. split; [apply Cm; [auto|now apply no_names_clean]|]. repeat constructor. }
  { now apply depth_weaken. }
  { cbn [bind_args split_args]. rewrite cut_last by exact D1. reflexivity. }
  { constructor; [|constructor]. (* NEXT(peek, m) *)
    rewrite <- (app_nil_r (map T _)).
    eapply (Ex_call1 user d NEXT 2 false false _ (peek ++ [CM; nm m]) [peek; [nm m]] [] [peek; [nm m]] []).
    { avail. }
    { reflexivity. }
    { apply Cm; [auto|now apply no_names_clean]. }
    { rewrite depth_app, (depth_weaken _ _ _ Ep). reflexivity. }
    { cbn [bind_args split_args]. rewrite cut_arg by exact Ep. reflexivity. }
    { constructor; [now apply Ex_same|]. constructor; [now apply Km|constructor]. }
    { apply Ex_nil. }
    replace (subst false (call NEXT1 [B (nm GET_END); Par 0; B CM; Par 1]) [peek; [nm m]] [])
      with (nm NEXT1 :: LP :: ((nm GET_END :: peek) ++ [CM; nm m]) ++ [RP])
      by (cbn; rewrite <- !app_assoc; reflexivity).
    eapply (Ex_call1 user (NEXT :: d) NEXT1 2 false false _ ((nm GET_END :: peek) ++ [CM; nm m]) [nm GET_END :: peek; [nm m]] [] [t; [nm m]] []).
    { avail. }
    { reflexivity. }
    { apply Cm; [apply Nmd; [cbn; tauto|auto]|]. apply clean_name; [avail|exact Np]. }
    { cbn [app depth_after nm]. rewrite depth_app, (depth_weaken _ _ _ Ep). reflexivity. }
    { cbn [bind_args split_args]. rewrite (cut_arg (nm GET_END :: peek)) by exact Ep. reflexivity. }
    { constructor; [apply Ht; testb|]. constructor; [|constructor]. apply Km. apply Nmd; [cbn; tauto|auto]. }
    { apply Ex_nil. }
    replace (subst false (call DEFER [B (nm NEXT0)] ++ [B LP; Par 0; B CM; Par 1; B CM; B zero; B RP]) [t; [nm m]] [])
      with ((nm DEFER :: LP :: [nm NEXT0] ++ [RP]) ++ LP :: t ++ [CM; nm m; CM; zero; RP])
      by (cbn; reflexivity).
    rewrite map_app, <- app_assoc.
    eapply (Ex_call1 user (NEXT1 :: NEXT :: d) DEFER 1 false false _ [nm NEXT0] [[nm NEXT0]] [] [[nm NEXT0]] []).
    { avail. }
    { reflexivity. }
    { apply clean_name; [avail|constructor]. }
    { reflexivity. }
    { reflexivity. }
    { constructor; [|constructor]. cbn [map]. apply Ex_keep; [avail|exact I|reflexivity|apply Ex_nil]. }
    { apply Ex_nil. }
    cbn [subst andb flat_map subst1 app map nth].
    apply Ex_keep; [avail|exact I|reflexivity|]. apply Ex_empty; [avail|].
    apply Ex_popped; [avail|]. apply Ex_quiet; [exact I|].
    replace (map T (t ++ [CM; nm m; CM; zero; RP]) ++ Pop NEXT1 :: Pop NEXT :: [])
      with (map T (t ++ [CM; nm m; CM; zero; RP]) ++ (Pop NEXT1 :: Pop NEXT :: [])) by reflexivity.
    replace ((t ++ [CM; nm m; CM; zero]) ++ [RP]) with ((t ++ [CM; nm m; CM; zero; RP]) ++ []) by (rewrite app_nil_r, <- app_assoc; reflexivity).
    apply Sc; [testb|apply Nmd; [cbn; tauto|]; apply Nmd; [cbn; tauto|auto]|].
    apply Ex_popped; [avail|]. apply Ex_popped; [avail|]. apply Ex_nil. }
  { apply Ex_nil. }
  (* DEFER's replacement: NEXT0(t, m, 0) EMPTY() *)
  replace (subst false [Par 0; B (nm EMPTY); B LP; B RP] [nm NEXT0 :: LP :: (t ++ [CM; nm m; CM; zero]) ++ [RP]] [])
    with ((nm NEXT0 :: LP :: (t ++ [CM; nm m; CM; zero]) ++ [RP]) ++ [nm EMPTY; LP; RP]) by (cbn; reflexivity).
  rewrite map_app, <- app_assoc.
  eapply (Ex_call1 user (DEFER :: d) NEXT0 2 true false _ (t ++ [CM; nm m; CM; zero]) [a0; [nm x]] va [a0; [nm x]] va).
  { avail. }
  { reflexivity. }
  { apply Forall_app. split; [apply Hs; testb|]. constructor; [reflexivity|]. constructor; [|repeat constructor].
    cbn [paint nm]. rewrite mem_false; [reflexivity|]. apply Nmd; [cbn; tauto|auto]. }
  { rewrite depth_app, Et. reflexivity. }
  { exact Hb. }
  { constructor; [apply Ha; testb|]. constructor; [|constructor]. cbn [map]. apply Ex_keep; auto; [|apply Ex_nil].
    intros K. apply Dx. now right. }
  { apply Hv. apply Nmd; [cbn; tauto|auto]. }
  cbn [subst andb flat_map subst1 app map nth].
  apply Ex_keep; auto. apply Ex_out; [avail|]. apply Ex_popped; [avail|]. apply Ex_empty; [avail|]. apply Ex_popped; [avail|]. exact Hs'.
Qed.

(** An ordinary argument comes next: go on with [m]. *)
Lemma next_more d peek m s o : free d -> ordinary peek -> In m [MAP_A; MAP_B] -> ~ In m d -> Ex d s o ->
  Ex d (map T (nm DEFER :: LP :: (nm NEXT :: LP :: (peek ++ [CM; nm m]) ++ [RP]) ++ [RP]) ++ s) (nm m :: o).
Proof.
  intros Fd [A (k & r & Hk & G)] Hm Dm E. pose proof (groups_inv k peek r G A) as (Nr & Er & Hr).
  pose (g := match k with 0 => GET_END | 1 => GET_END1 | _ => GET_END2 end).
  assert (Hg : In g [GET_END; GET_END1; GET_END2]) by (unfold g; destruct k as [|[|?]]; cbn; tauto).
  assert (Fg : is_fun user g) by (unfold g; destruct k as [|[|?]]; exact I).
  assert (Tg : forall dis, testable dis -> ~ In g dis) by (intros dis H; apply H; cbn in *; tauto).
  apply (next_ok d peek (nm g :: r) m m (nm g :: r) [zero]); auto.
  - destruct Hm as [<-|[<-|[]]]; exact I.
  - intros [K|[K|K]]; [subst m; destruct Hm as [K|[K|[]]]; discriminate|subst m; destruct Hm as [K|[K|[]]]; discriminate|auto].
  - intros dis H. apply test_is; auto; apply H; cbn; tauto.
  - intros dis H. split; [apply stays_name; auto|apply clean_name; auto].
  - now apply depth_weaken.
  - cbn [bind_args split_args app]. change (nm g :: r ++ [CM; nm m; CM; zero]) with ((nm g :: r) ++ CM :: [nm m; CM; zero]).
    rewrite (cut_arg (nm g :: r)) by exact Er. reflexivity.
  - intros dis H. apply stays_alone, stays_name; auto.
  - intros dis _. apply Ex_same. repeat constructor.
Qed.
(** The end mark comes next. *)
Lemma next_end d peek m s o : free d -> argument peek -> three_groups peek -> In m [MAP_A; MAP_B] -> ~ In m d -> Ex d s o ->
  Ex d (map T (nm DEFER :: LP :: (nm NEXT :: LP :: (peek ++ [CM; nm m]) ++ [RP]) ++ [RP]) ++ s) (nm MAP_END :: o).
Proof.
  intros Fd A G Hm Dm E.
  assert (Sm : forall dis, testable dis -> stays dis [zero; CM; nm MAP_END]).
  { intros dis H s1 o1 N1 E1. cbn [map app]. apply Ex_quiet; [exact I|]. apply Ex_quiet; [exact I|].
    apply Ex_keep; [apply H; cbn; tauto|exact I|now apply no_call_open|exact E1]. }
  apply (next_ok d peek [zero; CM; nm MAP_END] m MAP_END [zero] [nm m; CM; zero]); auto.
  - exact I.
  - intros [K|[K|K]]; [discriminate|discriminate|]. revert K. apply Fd. cbn; tauto.
  - intros dis H. apply test_end; auto; apply H; cbn; tauto.
  - intros dis H. split; [auto|]. constructor; [reflexivity|]. constructor; [reflexivity|]. apply clean_name; [apply H; cbn; tauto|constructor].
  - intros dis _. apply Ex_same. repeat constructor.
  - intros dis D. cbn [map]. apply Ex_keep; [auto|destruct Hm as [<-|[<-|[]]]; exact I|reflexivity|].
    apply Ex_quiet; [exact I|]. apply Ex_quiet; [exact I|]. apply Ex_nil.
Qed.
End P.
