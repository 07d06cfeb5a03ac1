(** Proofs about copies and moves. *)
From Verif Require Import Base BaseLemmas TupleModel TupleSpec TupleProofs TupleProofs2 TupleProofs3 MoveModel MoveSpec.
From Coq Require Import Permutation.

Lemma look_set {V} (m : store V) k x l : l <> k -> look (set_nth k x m) l = look m l.
Proof.
  unfold look. revert k l. induction m as [|c m IH]; intros k l H; [destruct k; reflexivity|].
  destruct k as [|k], l as [|l]; cbn [set_nth nth]; try congruence. apply IH. congruence.
Qed.
Lemma look_gone {V} (m : store V) k : look (set_nth k Gone m) k = Gone.
Proof. unfold look. revert k. induction m as [|c m IH]; intros k; [destruct k; reflexivity|]. destruct k as [|k]; cbn [set_nth nth]; [reflexivity|apply IH]. Qed.

Section Moves.
Context {V T : Type}.
Notation store := (store V).
Notation ref := (ref T).
Implicit Types (m : store) (rs : list ref).
Notation cnt l rs := (count_occ Nat.eq_dec (map loc rs) l).

(** ** exclusive *)
Lemma cnt_app l (a b : list ref) : cnt l (a ++ b) = cnt l a + cnt l b.
Proof. rewrite map_app. apply count_occ_app. Qed.
Lemma cnt_in (r : ref) rs : In r rs -> 1 <= cnt (loc r) rs.
Proof. intros H. apply (count_occ_In Nat.eq_dec). now apply in_map. Qed.
Lemma cnt_perm l (a b : list ref) : Permutation a b -> cnt l a = cnt l b.
Proof. intros P. apply (Permutation_count_occ Nat.eq_dec). now apply Permutation_map. Qed.
Lemma exclusive_part rs s rest : Permutation rs (s ++ rest) -> exclusive rs -> exclusive s.
Proof.
  intros P X r I C. assert (In r rs) by (apply (Permutation_in r (Permutation_sym P)), in_or_app; now left).
  specialize (X r H C). rewrite (cnt_perm _ _ _ P), cnt_app in X. pose proof (cnt_in r s I). lia.
Qed.
Lemma exclusive_perm rs s : Permutation rs s -> exclusive rs -> exclusive s.
Proof. intros P. apply (exclusive_part rs s []). now rewrite app_nil_r. Qed.
Lemma unaliased_part rs s rest : Permutation rs (s ++ rest) -> unaliased rs -> unaliased s.
Proof.
  intros P X r I C. assert (In r rs) by (apply (Permutation_in r (Permutation_sym P)), in_or_app; now left).
  specialize (X r H C). rewrite (cnt_perm _ _ _ P), cnt_app in X. pose proof (cnt_in r s I). lia.
Qed.
Lemma exclusive_elements c (t : list (nat * T)) : NoDup (map fst t) -> exclusive (elements c t).
Proof.
  intros N r I _. assert (E : map loc (elements c t) = map fst t) by (unfold elements; rewrite map_map; reflexivity). rewrite E.
  apply NoDup_count_occ'; [exact N|]. rewrite <- E. now apply in_map.
Qed.
Lemma unaliased_elements c (t : list (nat * T)) : NoDup (map fst t) -> unaliased (elements c t).
Proof.
  intros N r I _. assert (E : map loc (elements c t) = map fst t) by (unfold elements; rewrite map_map; reflexivity). rewrite E.
  apply NoDup_count_occ'; [exact N|]. rewrite <- E. now apply in_map.
Qed.

(** ** build *)
Lemma initialize_other m (r : ref) l : ~ (cat r = Rvalue /\ loc r = l) -> look (fst (initialize m r)) l = look m l.
Proof. unfold initialize. intros H. destruct (cat r); try reflexivity. cbn [fst]. apply look_set. intros E. now apply H. Qed.
Lemma build_cons m (r : ref) rs : build m (r :: rs) = (fst (build (fst (initialize m r)) rs), look m (loc r) :: snd (build (fst (initialize m r)) rs)).
Proof.
  unfold build. cbn [effects]. destruct (initialize m r) as [m1 x] eqn:E. cbn [fst]. destruct (effects initialize m1 rs) as [m2 xs]. cbn [fst snd]. f_equal. f_equal.
  unfold initialize in E. destruct (cat r); congruence.
Qed.
Lemma given_up_cons (r : ref) rs l : given_up (r :: rs) l <-> (cat r = Rvalue /\ loc r = l) \/ given_up rs l.
Proof.
  split.
  - intros (x & [<-|I] & C & L); [left; auto|right; exists x; auto].
  - intros [[C L]|(x & I & C & L)]; [exists r; cbn; auto|exists x; cbn; auto].
Qed.
Lemma given_up_dec rs l : given_up rs l \/ ~ given_up rs l.
Proof.
  induction rs as [|r rs IH]; [right; intros (x & [] & _)|].
  destruct IH as [H|H]; [left; apply given_up_cons; now right|].
  destruct (Nat.eq_dec (loc r) l) as [E|E]; [|right; intros K; apply given_up_cons in K as [[_ K]|K]; contradiction].
  destruct (cat r) eqn:C; [right|right|left; apply given_up_cons; auto]; intros K; apply given_up_cons in K as [[K _]|K]; congruence.
Qed.
Lemma given_up_perm rs s l : Permutation rs s -> given_up rs l -> given_up s l.
Proof. intros P (r & I & H). exists r. split; [now apply (Permutation_in r P)|exact H]. Qed.
Lemma build_store m rs : (forall l, given_up rs l -> look (fst (build m rs)) l = Gone) /\ (forall l, ~ given_up rs l -> look (fst (build m rs)) l = look m l).
Proof.
  revert m. induction rs as [|r rs IH]; intros m; [split; [intros l (x & [] & _)|reflexivity]|].
  rewrite build_cons. cbn [fst]. destruct (IH (fst (initialize m r))) as [G U]. split; intros l H.
  - destruct (given_up_dec rs l) as [K|K]; [now apply G|]. rewrite U by exact K. apply given_up_cons in H as [[C <-]|H]; [|contradiction].
    unfold initialize. rewrite C. apply look_gone.
  - rewrite U by (intros K; apply H, given_up_cons; now right). apply initialize_other. intros K. apply H, given_up_cons. now left.
Qed.
Lemma exclusive_tail (r : ref) rs : exclusive (r :: rs) -> exclusive rs /\ forall s, In s rs -> cat r = Rvalue -> loc s <> loc r.
Proof.
  intros X. split.
  - apply (exclusive_part (r :: rs) rs [r]); [|exact X]. change (r :: rs) with ([r] ++ rs). apply Permutation_app_comm.
  - intros s I C E. specialize (X r (or_introl eq_refl) C). cbn [map count_occ] in X. destruct (Nat.eq_dec (loc r) (loc r)) as [_|K]; [|congruence].
    pose proof (cnt_in s rs I) as L. rewrite E in L. lia.
Qed.
Lemma build_values m rs : exclusive rs -> snd (build m rs) = map (fun r => look m (loc r)) rs.
Proof.
  revert m. induction rs as [|r rs IH]; intros m X; [reflexivity|]. rewrite build_cons. cbn [snd map]. apply exclusive_tail in X as [X D]. f_equal.
  rewrite IH by exact X. apply map_ext_in. intros s I. apply initialize_other. intros [C E]. exact (D s I C (eq_sym E)).
Qed.
Lemma built m rs : exclusive rs -> exists m', build m rs = (m', values_of m rs) /\ left_behind m rs m'.
Proof.
  intros X. exists (fst (build m rs)). destruct (build_store m rs) as [G U]. split; [|now split].
  unfold values_of. rewrite <- (build_values m rs X). apply surjective_pairing.
Qed.
Lemma build_lvalues m rs : Forall (fun r => cat r <> Rvalue) rs -> build m rs = (m, map (fun r => look m (loc r)) rs).
Proof.
  induction 1 as [|r rs H F IH]; [reflexivity|]. rewrite build_cons. assert (E : fst (initialize m r) = m) by (unfold initialize; destruct (cat r); [reflexivity|reflexivity|congruence]).
  rewrite E, IH. reflexivity.
Qed.
Lemma build_length m rs : length (fst (build m rs)) = length m.
Proof.
  revert m. induction rs as [|r rs IH]; intros m; [reflexivity|]. rewrite build_cons. cbn [fst]. rewrite IH.
  unfold initialize. destruct (cat r); cbn [fst]; [reflexivity|reflexivity|apply set_nth_length].
Qed.
Lemma build_app m (a b : list ref) : build m (a ++ b) = (fst (build (fst (build m a)) b), snd (build m a) ++ snd (build (fst (build m a)) b)).
Proof.
  revert m. induction a as [|r a IH]; intros m; [cbn [app]; change (build m []) with (m, @nil (cell V)); cbn [fst snd app]; apply surjective_pairing|].
  cbn [app]. rewrite !build_cons. rewrite IH. cbn [fst snd app]. reflexivity.
Qed.

(** ** Unordered evaluation *)
Section Unordered.
Variable order : nat -> list nat.
Hypothesis Ho : any_order order.
Lemma pick_ok {X} (xs : list X) : exists args, mapo (nth_error xs) (order (length xs)) = Some args /\ Permutation xs args /\ length args = length xs /\ length (order (length xs)) = length xs.
Proof.
  pose proof (Ho (length xs)) as P.
  assert (F : forall is, Forall (fun i => i < length xs) is -> exists args, mapo (nth_error xs) is = Some args).
  { induction 1 as [|i is Hi _ [args E]]; [exists []; reflexivity|]. destruct (nth_error xs i) as [x|] eqn:K; [|apply nth_error_None in K; lia].
    exists (x :: args). cbn [mapo]. now rewrite K, E. }
  destruct (F (order (length xs))) as [args E].
  { apply Forall_forall. intros i I. apply (Permutation_in i (Permutation_sym P)) in I. apply in_seq in I. lia. }
  exists args. split; [exact E|].
  assert (G : forall is js, Permutation is js -> forall a b, mapo (nth_error xs) is = Some a -> mapo (nth_error xs) js = Some b -> Permutation a b).
  { induction 1 as [|i is js P' IH|i j is|is js ks P1 IH1 P2 IH2]; intros a b Ea Eb.
    - cbn in Ea, Eb. injection Ea as <-. injection Eb as <-. constructor.
    - cbn [mapo] in Ea, Eb. destruct (nth_error xs i); [|discriminate]. destruct (mapo (nth_error xs) is); [|discriminate]. destruct (mapo (nth_error xs) js); [|discriminate].
      injection Ea as <-. injection Eb as <-. constructor. now apply IH.
    - cbn [mapo] in Ea, Eb. destruct (nth_error xs i); [|discriminate]. destruct (nth_error xs j); [|discriminate]. destruct (mapo (nth_error xs) is); [|discriminate].
      injection Ea as <-. injection Eb as <-. apply perm_swap.
    - destruct (mapo (nth_error xs) js) as [c|] eqn:Ec.
      + apply (Permutation_trans (IH1 a c Ea eq_refl)). now apply IH2.
      + exfalso. assert (K : exists c, mapo (nth_error xs) js = Some c).
        { clear -P1 Ea. apply mapo_Forall2 in Ea. 
          assert (Fi : Forall (fun i => exists x, nth_error xs i = Some x) is) by (clear P1; induction Ea; constructor; eauto).
          assert (Fj : Forall (fun i => exists x, nth_error xs i = Some x) js) by (apply Forall_forall; intros i I; apply (Permutation_in i (Permutation_sym P1)) in I; exact (proj1 (Forall_forall _ _) Fi i I)).
          clear -Fj. induction Fj as [|i js [x E] _ [c IH]]; [exists []; reflexivity|]. exists (x :: c). cbn [mapo]. now rewrite E, IH. }
        destruct K; congruence. }
  split; [|split].
  - apply (G _ _ P); [|exact E]. pose proof (pack_get xs) as K. unfold pack, tuple_size, get in K. exact K.
  - apply mapo_length in E. rewrite E. symmetry. rewrite <- (seq_length (length xs) 0) at 1. now apply Permutation_length.
  - symmetry. rewrite <- (seq_length (length xs) 0) at 1. now apply Permutation_length.
Qed.
Lemma assoc_pick {X Y} (xs : list X) (g : X -> Y) is args i x : mapo (nth_error xs) is = Some args -> In i is -> nth_error xs i = Some x ->
  assoc i (combine is (map g args)) = Some (g x).
Proof.
  revert args. induction is as [|k is IH]; intros args E I Ex; [destruct I|]. cbn [mapo] in E. destruct (nth_error xs k) as [y|] eqn:K; [|discriminate].
  destruct (mapo (nth_error xs) is) as [r|]; [|discriminate]. injection E as <-. cbn [map combine assoc]. destruct (Nat.eqb_spec k i) as [->|N]; [congruence|].
  destruct I as [I|I]; [congruence|]. now apply IH.
Qed.
Lemma arrange_ok {X Y} (xs : list X) (g : X -> Y) args : mapo (nth_error xs) (order (length xs)) = Some args ->
  mapo (fun i => assoc i (combine (order (length xs)) (map g args))) (seq 0 (length xs)) = Some (map g xs).
Proof.
  intros E. change (pack (length xs) (fun i => assoc i (combine (order (length xs)) (map g args))) = Some (map g xs)).
  apply pack_ok; [apply map_length|]. intros i Hi. rewrite nth_error_map. destruct (nth_error xs i) as [x|] eqn:K; [|apply nth_error_None in K; lia].
  cbn [option_map]. apply (assoc_pick xs g _ args); [exact E| |exact K]. apply (Permutation_in i (Ho (length xs))). apply in_seq. lia.
Qed.
Lemma unordered_ok {X Y} (f : store -> X -> store * Y) (g : X -> Y) m xs :
  (forall args, Permutation xs args -> snd (effects f m args) = map g args) ->
  exists args, Permutation xs args /\ unordered order f m xs = Some (fst (effects f m args), map g xs).
Proof.
  intros H. destruct (pick_ok xs) as (args & E & P & _). exists args. split; [exact P|]. unfold unordered. rewrite E.
  specialize (H args P). destruct (effects f m args) as [m' ys]. cbn [fst snd] in *. subst ys. rewrite (arrange_ok xs g args E). reflexivity.
Qed.
Lemma effects_build m (css : list (list ref)) : effects build m css = (fst (build m (concat css)), snd (effects build m css)) /\ concat (snd (effects build m css)) = snd (build m (concat css)).
Proof.
  revert m. induction css as [|cs css IH]; intros m; [split; reflexivity|]. cbn [effects concat]. rewrite build_app. destruct (build m cs) as [m1 xs]. cbn [fst snd].
  destruct (IH m1) as [E1 E2]. destruct (effects build m1 css) as [m2 ys]. cbn [fst snd concat] in *. injection E1 as E1. rewrite E1, E2. split; reflexivity.
Qed.
Lemma effects_build_values m (css : list (list ref)) : exclusive (concat css) -> snd (effects build m css) = map (map (fun r => look m (loc r))) css.
Proof.
  revert m. induction css as [|cs css IH]; intros m X; [reflexivity|]. cbn [effects concat map] in *.
  assert (X1 : exclusive cs) by (apply (exclusive_part (cs ++ concat css) cs (concat css)); [reflexivity|exact X]).
  assert (X2 : exclusive (concat css)) by (apply (exclusive_part (cs ++ concat css) (concat css) cs); [apply Permutation_app_comm|exact X]).
  pose proof (build_values m cs X1) as Ev. destruct (build_store m cs) as [_ U]. destruct (build m cs) as [m1 xs]. cbn [fst snd] in *. specialize (IH m1 X2). destruct (effects build m1 css) as [m2 ys]. cbn [snd] in *.
  rewrite Ev, IH. f_equal. apply map_ext_in. intros c Ic. apply map_ext_in. intros r Ir. apply U.
  intros (s & Is & Cs & Ls). assert (Is' : In s (cs ++ concat css)) by (apply in_or_app; now left). specialize (X s Is' Cs). rewrite cnt_app in X.
  pose proof (cnt_in s cs Is). assert (Ir' : In r (concat css)) by (apply in_concat; eauto). pose proof (cnt_in r (concat css) Ir') as K. rewrite <- Ls in K. lia.
Qed.
Lemma perm_concat {X} (a b : list (list X)) : Permutation a b -> Permutation (concat a) (concat b).
Proof.
  induction 1; cbn [concat]; [constructor|now apply Permutation_app_head| |eapply Permutation_trans; eassumption].
  rewrite !app_assoc. apply Permutation_app_tail, Permutation_app_comm.
Qed.
Lemma unordered_build m (css : list (list ref)) : exclusive (concat css) ->
  exists m', unordered order build m css = Some (m', map (values_of m) css) /\ left_behind m (concat css) m' /\ length m' = length m.
Proof.
  intros X. destruct (unordered_ok build (map (fun r => look m (loc r))) m css) as (args & P & E).
  - intros args P. apply effects_build_values. now apply (exclusive_perm (concat css)), X; apply perm_concat.
  - eexists. split; [exact E|]. destruct (effects_build m args) as [-> _]. cbn [fst]. destruct (build_store m (concat args)) as [G U].
    pose proof (perm_concat _ _ P) as Pc. split; [|apply build_length]. split.
    + intros l H. apply G. now apply (given_up_perm (concat css)).
    + intros l H. apply U. intros K. apply H. now apply (given_up_perm (concat args)); [apply Permutation_sym|].
Qed.
End Unordered.
End Moves.
