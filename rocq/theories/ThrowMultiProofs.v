From Coq Require Import Permutation.
From Verif Require Import Base BaseLemmas CxSetModel CxSetProofs CxMapModel CxMapProofs CxMultimapModel
  ThrowModel ThrowSpec ThrowProofs RetainSpec RetainProofs ThrowMultiModel ThrowMultiSpec.
Open Scope N_scope.

Section Multi.
Context {K V : Type} (keqb : K -> K -> bool) (Hk : forall x y, keqb x y = true <-> x = y).
Context (veqb : V -> V -> bool) (Hv : forall x y, veqb x y = true <-> x = y).
Context (kcap vcap : N) (Hkc : kcap < size_mod) (Hvc : vcap < size_mod) (dv : V).
Notation mmap := (cmap K (cset V)).

Definition cont (s : cset V) : list V := firstn (N.to_nat (s_size s)) (s_storage s).
Definition swf (s : cset V) : Prop := len (s_storage s) = vcap /\ s_size s <= vcap.
Lemma srep_cont s : swf s -> SRepL vcap s (cont s).
Proof.
  intros [H1 H2]. split; [exact H1|]. unfold cont. split.
  - unfold len in *. rewrite firstn_length. lia.
  - exists (skipn (N.to_nat (s_size s)) (s_storage s)). symmetry. apply firstn_skipn.
Qed.
Lemma srep_wf s ws : SRepL vcap s ws -> swf s /\ cont s = ws.
Proof.
  intros (H1 & H2 & t & Ht). unfold cont. split; [split; [exact H1|]|].
  - rewrite H2, <- H1, Ht, len_app. lia.
  - rewrite H2, Ht. unfold len. rewrite Nat2N.id. apply firstn_app_len.
Qed.
Definition ab (e : K * cset V) : K * list V := (fst e, cont (snd e)).
Definition Inv (m : mmap) (lc : list (K * cset V)) : Prop :=
  MRepL kcap m lc /\ Forall (fun e => swf (snd e)) (m_storage m).
Definition MMRep (m : mmap) (l : list (K * list V)) : Prop := exists lc, Inv m lc /\ l = map ab lc.

Lemma has_ab k lc : has k (map ab lc) <-> has k lc.
Proof. unfold has. rewrite map_map. reflexivity. Qed.
Lemma first_ab k s l1 l2 lc : first_at k s l1 l2 lc -> first_at k (cont s) (map ab l1) (map ab l2) (map ab lc).
Proof.
  intros [-> H]. split; [rewrite map_app; reflexivity|]. now rewrite map_map.
Qed.
Lemma first_unique {B} (k : K) (w w' : B) l1 l2 l1' l2' (l : list (K * B)) :
  first_at k w l1 l2 l -> first_at k w' l1' l2' l -> w = w' /\ l1 = l1' /\ l2 = l2'.
Proof.
  intros [-> H] [E H']. revert l1' E H'. induction l1 as [|[k1 x] l1 IH]; intros [|[k2 y] l1'] E H'; cbn in *.
  - injection E as -> ->. auto.
  - injection E as -> -> ->. tauto.
  - injection E as <- <- <-. tauto.
  - injection E as -> -> E. destruct (IH ltac:(tauto) l1' E ltac:(tauto)) as (-> & -> & ->). auto.
Qed.
Lemma first_has {B} (k : K) (w : B) l1 l2 l : first_at k w l1 l2 l -> has k l.
Proof. intros [-> _]. unfold has. rewrite map_app. apply in_or_app. right. now left. Qed.
Lemma map_removelast {A B} (f : A -> B) l : map f (removelast l) = removelast (map f l).
Proof.
  induction l as [|x l IH]; [reflexivity|]. destruct l as [|y l]; [reflexivity|].
  change (removelast (x :: y :: l)) with (x :: removelast (y :: l)).
  cbn [map] in *. rewrite IH. reflexivity.
Qed.

(** ** the map's operations *)
Lemma get_cases m lc k : Inv m lc ->
  (exists s l1 l2, first_at k s l1 l2 lc /\ swf s /\ m_find keqb m k = Some (Some (length l1)) /\
     rd (m_storage m) (N.of_nat (length l1)) = Some (k, s) /\
     m_get keqb m k = Some s /\ m_contains keqb m k = Some true /\
     forall s', swf s' -> exists m', m_get_assign keqb m k s' = Some m' /\ Inv m' (l1 ++ (k, s') :: l2)) \/
  (~ has k lc /\ m_find keqb m k = Some None /\ m_contains keqb m k = Some false).
Proof.
  intros [HR HF]. destruct (find_entry keqb Hk kcap Hkc m lc k HR) as [(s & l1 & l2 & F & E & R)|[H E]].
  - left. exists s, l1, l2. split; [exact F|].
    split; [exact (rd_keeps (fun e : K * cset V => swf (snd e)) _ _ _ R HF)|]. split; [exact E|]. split; [exact R|].
    unfold m_get, m_contains, m_get_assign. rewrite E. cbn [option_map]. rewrite R. cbn [option_map snd].
    split; [reflexivity|]. split; [reflexivity|]. intros s' Hs'.
    destruct F as [-> _]. destruct (put_at kcap Hkc m l1 (k, s) l2 (k, s') HR) as (st & W & HR').
    unfold m_set_at. rewrite R, W. cbn [option_map]. eexists. split; [reflexivity|]. split; [exact HR'|].
    cbn [m_storage]. exact (proj1 (wr_keeps (fun e : K * cset V => swf (snd e)) _ _ _ _ W Hs' HF)).
  - right. unfold m_contains. rewrite E. auto.
Qed.
Lemma put_new m lc k s : Inv m lc -> ~ has k lc -> len lc < kcap -> swf s ->
  exists m', m_put keqb m k s = Some (m', true) /\ Inv m' (lc ++ [(k, s)]).
Proof.
  intros [HR HF] Hn Hl Hs.
  destruct (ent_step_ok keqb Hk kcap Hkc m lc (Call (MPut k s)) HR) as (m' & o & l' & E & S & HR'); [cbn; auto|].
  cbn [either m_step] in E. destruct (m_put keqb m k s) as [[m1 b]|] eqn:P; [|discriminate]. cbn in E. injection E as <- <-.
  destruct S as [(w & l1 & l2 & F & _)|(_ & Eb & ->)]; [apply first_has in F; contradiction|]. injection Eb as ->.
  exists m1. split; [reflexivity|]. split; [exact HR'|].
  assert (E' : m_step keqb 0 m (MPut k s) = Done m1 (MBool true) []) by (cbn [m_step]; now rewrite P).
  destruct (m_keeps keqb (fun _ => True) swf (length (m_storage m)) 0 m _ m1 _ [] E') as [[H _] _].
  - split; [|reflexivity]. eapply Forall_impl; [|exact HF]. intros e He. split; auto.
  - split; repeat constructor; apply Hs.
  - eapply Forall_impl; [|exact H]. intros e [_ He]. exact He.
Qed.
Lemma erase_key m lc k s l1 l2 : Inv m lc -> first_at k s l1 l2 lc ->
  exists m' lc', m_erase keqb m k = Some (m', 1) /\ Inv m' lc' /\ Permutation lc' (l1 ++ l2).
Proof.
  intros [HR HF] F.
  destruct (ent_step_ok keqb Hk kcap Hkc m lc (Call (MErase k)) HR I) as (m' & o & l' & E & S & HR').
  cbn [either m_step] in E. destruct (m_erase keqb m k) as [[m1 n]|] eqn:P; [|discriminate]. cbn in E. injection E as <- <-.
  destruct S as [(w & a & b & F' & En & Pe)|(Hn & _)]; [|apply first_has in F; contradiction]. injection En as ->.
  destruct (first_unique _ _ _ _ _ _ _ _ F' F) as (-> & -> & ->).
  exists m1, l'. split; [reflexivity|]. split; [split; [exact HR'|]|].
  - assert (E' : m_step keqb 0 m (MErase k) = Done m1 (MNum 1) []) by (cbn [m_step]; now rewrite P).
    destruct (m_keeps keqb (fun _ => True) swf (length (m_storage m)) 0 m _ m1 _ [] E') as [[H _] _].
    + split; [|reflexivity]. eapply Forall_impl; [|exact HF]. intros e He. split; auto.
    + split; repeat constructor.
    + eapply Forall_impl; [|exact H]. intros e [_ He]. exact He.
  - destruct F as [-> _]. apply Permutation_cons_app_inv in Pe. exact Pe.
Qed.

(** ** assignments that throw *)
Lemma part_wf old new n j : swf old -> swf new -> N.of_nat n < vcap ->
  swf (set_part old new n j) /\ len (cont (set_part old new n j)) = len (cont old).
Proof.
  intros [O1 O2] [N1 N2] Hn.
  assert (L : len (s_storage (set_part old new n j)) = vcap).
  { unfold set_part. cbn [s_storage]. unfold len in *.
    destruct (skipn n (s_storage old)) as [|x t] eqn:E.
    - apply (f_equal (@length V)) in E. rewrite skipn_length in E. cbn in E. lia.
    - apply (f_equal (@length V)) in E. rewrite skipn_length in E. cbn in E.
      rewrite app_length, firstn_length. cbn [length]. lia. }
  split; [split; [exact L | exact O2]|].
  unfold cont. change (s_size (set_part old new n j)) with (s_size old). unfold len in *. rewrite !firstn_length. lia.
Qed.

Lemma nth_error_firstn {A} n (l : list A) : forall i, (i < n)%nat -> nth_error (firstn n l) i = nth_error l i.
Proof. revert l. induction n as [|n IH]; intros [|x l] [|i] H; try lia; cbn; try reflexivity. apply IH. lia. Qed.
Lemma nth_error_cont s i : swf s -> (i < length (cont s))%nat -> nth_error (cont s) i = nth_error (s_storage s) i.
Proof. intros _ H. unfold cont in *. rewrite firstn_length in H. apply nth_error_firstn. lia. Qed.
Lemma part_half old new n j : swf old -> swf new -> N.of_nat n < vcap ->
  half_assigned n j (cont old) (cont new) (cont (set_part old new n j)).
Proof.
  intros Ho Hn Hx. destruct (part_wf old new n j Ho Hn Hx) as [Hp Hl].
  assert (L : length (cont (set_part old new n j)) = length (cont old)) by (unfold len in Hl; lia).
  assert (Ln : length (firstn n (s_storage new)) = n) by (rewrite firstn_length; destruct Hn as [H _]; unfold len in H; lia).
  assert (Lo : (n < length (s_storage old))%nat) by (destruct Ho as [H _]; unfold len in H; lia).
  assert (Es : exists x, nth_error (s_storage old) n = Some x /\
    s_storage (set_part old new n j) = firstn n (s_storage new) ++ left_with x j :: skipn (S n) (s_storage old)).
  { destruct (nth_error (s_storage old) n) as [x|] eqn:E; [|apply nth_error_None in E; lia]. exists x. split; [reflexivity|].
    apply nth_error_split in E as (a & b & E0 & E). unfold set_part. cbn [s_storage]. rewrite E0, <- E.
    assert (E2 : skipn (S (length a)) (a ++ x :: b) = b).
    { replace (S (length a)) with (length (a ++ [x])) by (rewrite app_length; cbn; lia).
      replace (a ++ x :: b) with ((a ++ [x]) ++ b) by (rewrite <- app_assoc; reflexivity). apply skipn_app_len. }
    rewrite E2, skipn_app_len. reflexivity. }
  destruct Es as (x & Ex & Es). split; [exact L|]. repeat split.
  - intros i y Hi Hio Hy. assert (Hin : (i < length (cont new))%nat) by (apply nth_error_Some; congruence).
    rewrite nth_error_cont by (auto; rewrite L; exact Hio). rewrite Es, nth_error_app1 by lia. rewrite nth_error_firstn by exact Hi.
    rewrite <- nth_error_cont by auto. exact Hy.
  - intros y Hy. assert (Hin : (n < length (cont old))%nat) by (apply nth_error_Some; congruence).
    rewrite nth_error_cont by (auto; rewrite L; exact Hin). rewrite nth_error_cont in Hy by auto.
    rewrite Es, nth_error_app2 by lia. rewrite Ln, Nat.sub_diag. cbn. congruence.
  - intros i Hi. destruct (Nat.lt_ge_cases i (length (cont old))) as [Hl'|Hg].
    + rewrite !nth_error_cont by (auto; rewrite ?L; exact Hl'). rewrite Es, nth_error_app2 by lia. rewrite Ln.
      replace (i - n)%nat with (S (i - S n)) by lia. cbn [nth_error].
      rewrite <- (firstn_skipn (S n) (s_storage old)) at 2. rewrite nth_error_app2; rewrite firstn_length; [|lia].
      f_equal. lia.
    + rewrite !(proj2 (nth_error_None _ _)) by lia. reflexivity.
Qed.

Lemma bad_add m lc k s x : Inv m lc -> ~ has k lc -> len lc < kcap -> swf s ->
  match x with AtKey _ => True | AtValue n _ => N.of_nat n < vcap end ->
  exists m' k' s' old, rd (m_storage m) (m_size m) = Some old /\
    m_bad keqb m (MTAdd k s (member_at old (k, s) x)) = Some m' /\ Inv m' (lc ++ [(k', s')]) /\ swf s' /\
    match x with AtKey j => any_left j k' | AtValue n j => k' = k /\ exists ws0, half_assigned n j ws0 (cont s) (cont s') end.
Proof.
  intros [HR HF] Hn Hl Hs Hx.
  assert (R : exists old, rd (m_storage m) (m_size m) = Some old /\ swf (snd old)).
  { destruct HR as (H1 & H2 & t & Ht). rewrite H2. destruct t as [|y t]; [rewrite app_nil_r in Ht; rewrite Ht in H1; lia|].
    exists y. rewrite Ht, rd_len. split; [reflexivity|].
    rewrite Forall_forall in HF. apply HF. rewrite Ht. apply in_or_app. right. now left. }
  destruct R as (old & R & Ho).
  destruct (ent_step_ok keqb Hk kcap Hkc m lc (Throws (MTAdd k s (member_at old (k, s) x))) HR) as (m' & o & l' & E & S & HR').
  { cbn [ent_pre]. auto. }
  cbn [either] in E. destruct (m_bad keqb m (MTAdd k s (member_at old (k, s) x))) as [m1|] eqn:B; [|discriminate]. injection E as <- <-.
  clear S HR'. cbn [m_bad] in B.
  destruct (find_entry keqb Hk kcap Hkc m lc k HR) as [(w & l1 & l2 & F & _)|[_ Ef]]; [apply first_has in F; contradiction|].
  rewrite Ef, R in B. destruct (wr (m_storage m) (m_size m) (half old (k, s) (member_at old (k, s) x))) as [st|] eqn:W; [|discriminate].
  cbn in B. injection B as <-.
  set (e := half old (k, s) (member_at old (k, s) x)) in *.
  assert (He : swf (snd e)).
  { unfold e. destruct x as [j|n j]; cbn [member_at half snd left_with]; [exact Ho|]. exact (proj1 (part_wf _ _ _ _ Ho Hs Hx)). }
  exists {| m_storage := st; m_size := sz_inc (m_size m) |}, (fst e), (snd e), old.
  split; [exact R|]. split.
  { cbn [m_bad]. rewrite Ef, R. fold e. rewrite W. reflexivity. }
  split; [|split; [exact He|]].
  - destruct e as [k' s'] eqn:Ee. cbn [fst snd] in *. split.
    + destruct HR as (H1 & H2 & t & Ht). destruct t as [|y t]; [rewrite app_nil_r in Ht; rewrite Ht in H1; lia|].
      rewrite H2, Ht, wr_app_len in W. injection W as <-.
      exact (grown kcap Hkc (arr m) lc (k', s') y t (conj H1 (conj H2 (ex_intro _ (y :: t) Ht))) Hl Ht).
    + cbn [m_storage]. exact (proj1 (wr_keeps (fun e : K * cset V => swf (snd e)) _ _ _ _ W He HF)).
  - unfold e. destruct x as [j|n j]; cbn [member_at half fst snd]; [apply any_left_with|]. split; [reflexivity|].
    exists (cont (snd old)). exact (part_half _ _ _ _ Ho Hs Hx).
Qed.

Lemma bad_erase_ok m lc k s l1 l2 x : Inv m lc -> first_at k s l1 l2 lc ->
  match x with AtKey _ => True | AtValue n _ => N.of_nat n < vcap end ->
  exists m' lc', bad_erase keqb m k x = Some m' /\ Inv m' lc' /\
    half_erased k (cont s) (map ab l1) (map ab l2) x (map ab lc').
Proof.
  intros [HR HF] F Hx.
  destruct (find_entry keqb Hk kcap Hkc m lc k HR) as [(w & a & b & F' & Ef & R)|[Hn _]]; [|apply first_has in F; contradiction].
  destruct (first_unique _ _ _ _ _ _ _ _ F' F) as (-> & -> & ->). clear F'.
  assert (Hne : lc <> []) by (destruct F as [-> _]; destruct l1; discriminate).
  destruct (pop_rd kcap Hkc (arr m) lc HR Hne) as (r & lst & t & El & Et & D & Rl). cbn [arr s_storage s_size] in *.
  assert (Hs : swf s) by (exact (rd_keeps (fun e : K * cset V => swf (snd e)) _ _ _ R HF)).
  assert (Hlst : swf (snd lst)) by (exact (rd_keeps (fun e : K * cset V => swf (snd e)) _ _ _ Rl HF)).
  unfold bad_erase. rewrite Ef, Rl, R. cbn [m_bad]. rewrite Ef, Rl, R.
  set (e := half (k, s) lst (member_at (k, s) lst x)).
  assert (He : swf (snd e)).
  { unfold e. destruct x as [j|n j]; cbn [member_at half snd left_with]; [exact Hs|]. exact (proj1 (part_wf _ _ _ _ Hs Hlst Hx)). }
  assert (HR0 : SRepL kcap (arr m) (l1 ++ (k, s) :: l2)) by (destruct F as [<- _]; exact HR).
  destruct (erase_at kcap Hkc (arr m) l1 (k, s) l2 e HR0) as (st & W & HR').
  cbn [arr s_storage s_size] in W, HR'. change (len l1) with (N.of_nat (length l1)) in W. rewrite W. cbn [option_map].
  exists {| m_storage := st; m_size := sz_dec (m_size m) |}, (removelast (l1 ++ e :: l2)). split; [reflexivity|]. split; [split; [exact HR'|]|].
  - cbn [m_storage]. exact (proj1 (wr_keeps (fun e : K * cset V => swf (snd e)) _ _ _ _ W He HF)).
  - rewrite map_removelast, map_app. cbn [map]. destruct x as [j|n j]; cbn [half_erased].
    + reflexivity.
    + exists (map ab r), (fst lst), (cont (snd lst)), (cont (snd e)). split; [|split].
      * destruct F as [F _]. rewrite F in El. apply (f_equal (map ab)) in El. rewrite !map_app in El. exact El.
      * unfold e. cbn [member_at half snd left_with]. exact (part_half _ _ _ _ Hs Hlst Hx).
      * reflexivity.
Qed.

Lemma make_wf l s : s_make vcap dv l = Some s -> swf s /\ cont s = l.
Proof. intro E. apply srep_wf. exact (s_make_rep veqb Hv vcap Hvc dv l s E). Qed.
Lemma make_ok l : len l <= vcap -> exists s, s_make vcap dv l = Some s.
Proof. intro H. unfold s_make. destruct (N.leb_spec (len l) vcap); [eauto|lia]. Qed.

Lemma lists_cont lc : Forall (fun e => swf (snd e)) lc -> mm_lists lc = Some (map ab lc).
Proof.
  intros H. induction H as [|[k s] lc Hs _ IH]; [reflexivity|]. cbn [snd] in Hs. cbn [mm_lists map].
  rewrite (s_items_ok vcap Hvc s (cont s) (srep_cont s Hs)), IH. reflexivity.
Qed.

Lemma mmt_step_ok m l a : MMRep m l -> mmt_pre kcap vcap l a ->
  exists m' o l', either (mm_step keqb veqb vcap dv) (mm_bad keqb veqb vcap dv) m a = Done m' o [] /\
    mmt_spec vcap l a o l' /\ MMRep m' l'.
Proof.
  intros (lc & HI & ->) Hp. destruct a as [op|t]; [destruct op as [k v|k|k v|k|k|k v|k op| | | |]|destruct t as [k t|k v x|k x|k v x]];
    cbn [mmt_pre mmt_spec either mm_step mm_bad] in *.
  - (* insert *) destruct Hp as (H1 & Hroom & Hset). unfold mm_insert.
    destruct (get_cases m lc k HI) as [(s & l1 & l2 & F & Hs & _ & _ & G & C & A)|(Hn & Ef & C)]; rewrite C.
    + rewrite G. pose proof (first_ab _ _ _ _ _ F) as Fa.
      destruct (insert_bag veqb Hv vcap Hvc s (cont s) v (srep_cont s Hs) (Hset _ _ _ Fa)) as (s' & b & E & Cs). rewrite E.
      destruct Cs as [(Hin & -> & R')|(Hin & _ & -> & R')]; destruct (srep_wf _ _ R') as [W' C'].
      * destruct (A s' W') as (m' & -> & I'). cbn [option_map]. eexists m', _, _. split; [reflexivity|].
        split; [split; [reflexivity|]; left; exists (cont s), (map ab l1), (map ab l2); split; [exact Fa|left; split; [exact Hin|reflexivity]]|].
        exists (l1 ++ (k, s') :: l2). split; [exact I'|]. destruct F as [-> _]. rewrite !map_app. cbn [map]. unfold ab at 2 5. cbn [fst snd]. now rewrite C'.
      * destruct (A s' W') as (m' & -> & I'). cbn [option_map]. eexists m', _, _. split; [reflexivity|].
        split; [split; [reflexivity|]; left; exists (cont s), (map ab l1), (map ab l2); split; [exact Fa|right; split; [exact Hin|reflexivity]]|].
        exists (l1 ++ (k, s') :: l2). split; [exact I'|]. rewrite !map_app. cbn [map]. unfold ab at 4. cbn [fst snd]. now rewrite C'.
    + rewrite has_ab in Hroom. destruct (make_ok [v]) as (s & Em); [rewrite len_cons; change (len (@nil V)) with 0; lia|].
      rewrite Em. destruct (make_wf _ _ Em) as [W Cs].
      destruct (put_new m lc k s HI Hn ltac:(specialize (Hroom Hn); unfold len in *; rewrite map_length in Hroom; exact Hroom) W) as (m' & -> & I').
      cbn [option_map fst]. eexists m', _, _. split; [reflexivity|]. split.
      * split; [reflexivity|]. right. rewrite has_ab. split; [exact Hn|reflexivity].
      * exists (lc ++ [(k, s)]). split; [exact I'|]. rewrite map_app. cbn [map]. unfold ab at 3. cbn [fst snd]. now rewrite Cs.
  - (* insert key *) unfold mm_insert_key.
    destruct (get_cases m lc k HI) as [(s & l1 & l2 & F & _ & _ & _ & _ & C & _)|(Hn & Ef & C)]; rewrite C.
    + cbn [option_map]. eexists m, _, _. split; [reflexivity|]. split.
      * split; [reflexivity|]. left. rewrite has_ab. split; [eapply first_has, F|reflexivity].
      * exists lc. auto.
    + rewrite has_ab in Hp. unfold empty_set. destruct (make_ok []) as (s & Em); [change (len (@nil V)) with 0; lia|].
      rewrite Em. destruct (make_wf _ _ Em) as [W Cs].
      destruct (put_new m lc k s HI Hn ltac:(specialize (Hp Hn); unfold len in *; rewrite map_length in Hp; exact Hp) W) as (m' & -> & I').
      cbn [option_map fst]. eexists m', _, _. split; [reflexivity|]. split.
      * split; [reflexivity|]. right. rewrite has_ab. split; [exact Hn|reflexivity].
      * exists (lc ++ [(k, s)]). split; [exact I'|]. rewrite map_app. cbn [map]. unfold ab at 3. cbn [fst snd]. now rewrite Cs.
  - (* erase value *) unfold mm_erase.
    destruct (get_cases m lc k HI) as [(s & l1 & l2 & F & Hs & _ & _ & G & C & A)|(Hn & Ef & C)]; rewrite C.
    + rewrite G. pose proof (first_ab _ _ _ _ _ F) as Fa.
      destruct (erase_bag veqb Hv vcap Hvc s (cont s) v (srep_cont s Hs)) as (s' & n & ws' & E & R' & Cs). rewrite E.
      destruct (srep_wf _ _ R') as [W' C']. destruct (A s' W') as (m1 & -> & I1).
      assert (Hz : s_size s' = len ws') by apply R'. rewrite Hz.
      assert (Hn : In v (cont s) /\ n = 1 /\ Permutation (v :: ws') (cont s) \/ ~ In v (cont s) /\ n = 0 /\ ws' = cont s) by tauto.
      destruct (N.eqb_spec (len ws') 0) as [Z|Z].
      * assert (Ew : ws' = []) by (destruct ws'; [reflexivity|rewrite len_cons in Z; lia]).
        assert (F1 : first_at k s' l1 l2 (l1 ++ (k, s') :: l2)) by (split; [reflexivity|apply F]).
        destruct (erase_key m1 _ k s' l1 l2 I1 F1) as (m2 & lc2 & -> & I2 & P2). cbn [option_map].
        eexists m2, _, _. split; [reflexivity|]. split; [|exists lc2; split; [exact I2|reflexivity]].
        left. exists (cont s), (map ab l1), (map ab l2), ws'. split; [exact Fa|]. split.
        -- destruct Hn as [(Hi & -> & P)|(Hi & -> & P)]; [left|right]; (split; [exact Hi|]); (split; [reflexivity|]); exact P.
        -- right. split; [exact Ew|]. rewrite <- map_app. now apply Permutation_map.
      * cbn [option_map]. eexists m1, _, _. split; [reflexivity|]. split; [|exists (l1 ++ (k, s') :: l2); split; [exact I1|reflexivity]].
        left. exists (cont s), (map ab l1), (map ab l2), ws'. split; [exact Fa|]. split.
        -- destruct Hn as [(Hi & -> & P)|(Hi & -> & P)]; [left|right]; (split; [exact Hi|]); (split; [reflexivity|]); exact P.
        -- left. split; [intros ->; apply Z; reflexivity|]. rewrite map_app. cbn [map]. unfold ab at 2. cbn [fst snd]. now rewrite C'.
    + cbn [option_map]. eexists m, _, _. split; [reflexivity|]. split; [|exists lc; auto].
      right. rewrite has_ab. auto.
  - (* erase key *) destruct (get_cases m lc k HI) as [(s & l1 & l2 & F & _)|(Hn & Ef & C)].
    + destruct (erase_key m lc k s l1 l2 HI F) as (m' & lc' & -> & I' & P). cbn [option_map].
      eexists m', _, _. split; [reflexivity|]. split; [|exists lc'; split; [exact I'|reflexivity]].
      left. exists (cont s), (map ab l1), (map ab l2). split; [exact (first_ab _ _ _ _ _ F)|]. split; [reflexivity|].
      rewrite <- map_app. now apply Permutation_map.
    + unfold m_erase. rewrite Ef. cbn [option_map]. eexists m, _, _. split; [reflexivity|]. split; [|exists lc; auto].
      right. rewrite has_ab. auto.
  - (* contains *) destruct (get_cases m lc k HI) as [(s & l1 & l2 & F & _ & _ & _ & _ & C & _)|(Hn & Ef & C)]; rewrite C; cbn [option_map];
      eexists m, _, _; (split; [reflexivity|]); (split; [|exists lc; auto]); (split; [reflexivity|]); eexists; (split; [reflexivity|]); rewrite has_ab.
    + split; [intros _; eapply first_has, F|reflexivity].
    + split; [discriminate|contradiction].
  - (* contains value *) unfold mm_contains2.
    destruct (get_cases m lc k HI) as [(s & l1 & l2 & F & Hs & _ & _ & G & C & _)|(Hn & Ef & C)]; rewrite C.
    + rewrite G. destruct (contains_bag veqb Hv vcap Hvc s (cont s) v (srep_cont s Hs)) as (b & E & Hb). rewrite E. cbn [option_map].
      eexists m, _, _. split; [reflexivity|]. split; [|exists lc; auto]. split; [reflexivity|]. exists b. split; [reflexivity|].
      pose proof (first_ab _ _ _ _ _ F) as Fa. rewrite Hb. split.
      * intro Hi. exists (cont s), (map ab l1), (map ab l2). auto.
      * intros (ws & a & c & F' & Hi). destruct (first_unique _ _ _ _ _ _ _ _ F' Fa) as (-> & _). exact Hi.
    + cbn [option_map]. eexists m, _, _. split; [reflexivity|]. split; [|exists lc; auto]. split; [reflexivity|]. exists false. split; [reflexivity|].
      split; [discriminate|]. intros (ws & a & c & F' & _). apply first_has in F'. rewrite has_ab in F'. contradiction.
  - (* through get *) destruct Hp as (ws & a & c & F0 & Hb).
    destruct (get_cases m lc k HI) as [(s & l1 & l2 & F & Hs & _ & _ & G & C & A)|(Hn & _)].
    2: { apply first_has in F0. rewrite has_ab in F0. contradiction. }
    pose proof (first_ab _ _ _ _ _ F) as Fa. destruct (first_unique _ _ _ _ _ _ _ _ F0 Fa) as (-> & -> & ->).
    rewrite G. destruct (bag_step_ok veqb Hv vcap Hvc s (cont s) (Call op) (srep_cont s Hs) Hb) as (s' & o & ws' & E & S & R').
    cbn [either] in E. destruct (s_step veqb s op) as [s1 so ps1|?|]; try discriminate. injection E as <- <- ->.
    destruct (srep_wf _ _ R') as [W' C']. destruct (A s1 W') as (m' & -> & I'). cbn [option_map].
    eexists m', _, _. split; [reflexivity|]. split; [|exists (l1 ++ (k, s1) :: l2); split; [exact I'|reflexivity]].
    exists (cont s), (map ab l1), (map ab l2), so, ws'. split; [exact Fa|]. split; [exact S|]. split; [reflexivity|].
    rewrite map_app. cbn [map]. unfold ab at 2. cbn [fst snd]. now rewrite C'.
  - (* size *) eexists m, _, _. split; [reflexivity|]. split; [|exists lc; auto]. split; [reflexivity|].
    destruct HI as [(_ & -> & _) _]. unfold len. now rewrite map_length.
  - (* empty *) eexists m, _, _. split; [reflexivity|]. split; [|exists lc; auto]. split; [reflexivity|]. eexists. split; [reflexivity|].
    destruct HI as [(_ & -> & _) _]. destruct lc as [|e lc]; cbn [map]; [split; reflexivity|].
    rewrite len_cons. split; [|discriminate]. intro H. apply N.eqb_eq in H. lia.
  - (* clear *) eexists _, _, _. split; [reflexivity|]. split; [split; reflexivity|]. exists []. split; [|reflexivity].
    destruct HI as [(H1 & H2 & t & Ht) HF]. split; [|exact HF]. split; [exact H1|]. split; [reflexivity|]. exists (m_storage m). reflexivity.
  - (* items *) pose proof HI as [HRL HF]. pose proof HRL as (H1 & H2 & t & Ht). unfold mm_items. rewrite (m_items_ok kcap Hkc m lc HRL).
    rewrite lists_cont by (rewrite Ht in HF; apply Forall_app in HF; apply HF).
    cbn [option_map]. eexists m, _, _. split; [reflexivity|]. split; [|exists lc; auto]. split; reflexivity.
  - (* a set operation throws *) destruct Hp as (ws & a & c & F0 & Hb).
    destruct (get_cases m lc k HI) as [(s & l1 & l2 & F & Hs & _ & _ & G & C & A)|(Hn & _)].
    2: { apply first_has in F0. rewrite has_ab in F0. contradiction. }
    pose proof (first_ab _ _ _ _ _ F) as Fa. destruct (first_unique _ _ _ _ _ _ _ _ F0 Fa) as (-> & -> & ->).
    rewrite G. destruct (bag_step_ok veqb Hv vcap Hvc s (cont s) (Throws t) (srep_cont s Hs) Hb) as (s' & o & ws' & E & S & R').
    cbn [either] in E. destruct (s_bad veqb s t) as [s1|]; [|discriminate]. injection E as <- <-.
    destruct (srep_wf _ _ R') as [W' C']. destruct (A s1 W') as (m' & -> & I').
    eexists m', _, _. split; [reflexivity|]. split; [|exists (l1 ++ (k, s1) :: l2); split; [exact I'|reflexivity]].
    split; [reflexivity|]. exists (cont s), (map ab l1), (map ab l2), ws'. split; [exact Fa|]. split; [exact S|].
    rewrite map_app. cbn [map]. unfold ab at 2. cbn [fst snd]. now rewrite C'.
  - (* adding a key throws *) destruct Hp as (Hn & Hl & H1 & Hx). rewrite has_ab in Hn.
    destruct (make_ok (match v with Some v => [v] | None => [] end)) as (s & Em).
    { destruct v as [v|]; [|change (len (@nil V)) with 0; lia]. rewrite len_cons. change (len (@nil V)) with 0. specialize (H1 ltac:(discriminate)). lia. }
    rewrite Em. destruct (make_wf _ _ Em) as [W Cm].
    destruct (bad_add m lc k s x HI Hn ltac:(unfold len in *; rewrite map_length in Hl; exact Hl) W Hx) as (m' & k' & s' & old & R & B & I' & W' & Hk').
    rewrite R, B. eexists m', _, _. split; [reflexivity|]. split; [|exists (lc ++ [(k', s')]); split; [exact I'|reflexivity]].
    split; [reflexivity|]. exists k', (cont s'). split; [rewrite map_app; reflexivity|]. rewrite <- Cm. split; [|exact Hk'].
    unfold cont. destruct W' as [W1 W2]. unfold len in *. rewrite firstn_length. lia.
  - (* erasing a key throws *) destruct Hp as [Hh Hx]. rewrite has_ab in Hh.
    destruct (get_cases m lc k HI) as [(s & l1 & l2 & F & _)|(Hn & _)]; [|contradiction].
    destruct (bad_erase_ok m lc k s l1 l2 x HI F Hx) as (m' & lc' & -> & I' & H).
    eexists m', _, _. split; [reflexivity|]. split; [|exists lc'; split; [exact I'|reflexivity]].
    split; [reflexivity|]. exists (cont s), (map ab l1), (map ab l2). split; [exact (first_ab _ _ _ _ _ F)|exact H].
  - (* erasing the key with its last value throws *) destruct Hp as [(a & c & F0) Hx].
    destruct (get_cases m lc k HI) as [(s & l1 & l2 & F & Hs & _ & _ & G & C & A)|(Hn & _)].
    2: { apply first_has in F0. rewrite has_ab in F0. contradiction. }
    pose proof (first_ab _ _ _ _ _ F) as Fa. destruct (first_unique _ _ _ _ _ _ _ _ F0 Fa) as (Ew & -> & ->).
    rewrite G. destruct (erase_bag veqb Hv vcap Hvc s (cont s) v (srep_cont s Hs)) as (s' & n & ws' & E & R' & Cs). rewrite E.
    assert (Ez : ws' = []).
    { destruct Cs as [(_ & _ & P)|(Hn & _)].
      - rewrite <- Ew in P. apply Permutation_cons_inv in P. now apply Permutation_sym, Permutation_nil in P.
      - exfalso. apply Hn. rewrite <- Ew. now left. }
    rewrite Ez in R'. destruct (srep_wf _ _ R') as [W' C']. assert (Hz : s_size s' = 0) by (destruct R' as (_ & -> & _); reflexivity).
    rewrite Hz. cbn [N.eqb]. destruct (A s' W') as (m1 & -> & I1).
    assert (F1 : first_at k s' l1 l2 (l1 ++ (k, s') :: l2)) by (split; [reflexivity|apply F]).
    destruct (bad_erase_ok m1 _ k s' l1 l2 x I1 F1 Hx) as (m' & lc' & -> & I' & H). rewrite C' in H.
    eexists m', _, _. split; [reflexivity|]. split; [|exists lc'; split; [exact I'|reflexivity]].
    split; [reflexivity|]. exists (map ab l1), (map ab l2). split; [|exact H]. now rewrite Ew.
Qed.
End Multi.
