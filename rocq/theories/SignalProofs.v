From Coq Require Import Permutation.
From Verif Require Import Base BaseLemmas BitModel BitsetModel BitsetSpec BitsetProofs ConcModel ConcSpec RelaxedModel RelaxedProofs
  BitLemmas AtomicModel AtomicSpec AtomicBitsetModel AtomicBitsetSpec AtomicBitsetProofs AtomicProps SignalSpec.
Open Scope N_scope.

Section Bits.
Context (n w i : N) (Hi : i < n).

Lemma was_returns m op o b : signals i op || takes i op || toggles i op = true -> returns n w m op o ->
  was w i b o = Bool.eqb (bit m i) b.
Proof.
  intros Hs Hr. assert (K : is_bits n w m o -> was w i b o = Bool.eqb (bit m i) b).
  { intros (s & -> & _ & _ & Hh). unfold was. now rewrite (Hh i Hi). }
  apply K. destruct op; cbn [signals takes toggles orb] in Hs; try discriminate Hs; exact Hr.
Qed.
Lemma elsewhere_becomes op b : elsewhere i op = true -> becomes w op i b = b.
Proof.
  destruct op; cbn [elsewhere becomes]; try discriminate; try reflexivity; rewrite ?(N.eqb_sym i);
    intros H; apply negb_true_iff in H; now rewrite H.
Qed.
Lemma signals_becomes op b : signals i op = true -> becomes w op i b = true.
Proof.
  destruct op as [j v|l m v|l k v| | | | | | | | | | | | | | | | | |]; cbn [signals becomes]; try discriminate; rewrite ?(N.eqb_sym i); destruct v; try discriminate; intros H; now rewrite H.
Qed.
Lemma takes_becomes op b : takes i op = true -> becomes w op i b = false.
Proof.
  destruct op as [j v|l m v|l k v| | | | | | | | | | | | | | | | | |]; cbn [takes becomes]; try discriminate; rewrite ?(N.eqb_sym i); try destruct v; try discriminate; intros H; now rewrite H.
Qed.
Lemma toggles_becomes op b : toggles i op = true -> becomes w op i b = negb b.
Proof.
  destruct op; cbn [toggles becomes]; try discriminate; rewrite ?(N.eqb_sym i); intros H; now rewrite ?H.
Qed.
Lemma kinds op : elsewhere i op = true -> signals i op = false /\ takes i op = false /\ toggles i op = false.
Proof.
  destruct op as [j v|l m v|l k v| | | | | | | | | | | | | | | | | |]; cbn [elsewhere signals takes toggles]; try discriminate; auto; intros H; apply negb_true_iff in H; try destruct v; auto.
Qed.
Lemma kinds_signal op : signals i op = true -> takes i op = false /\ toggles i op = false.
Proof. destruct op as [j v|l m v|l k v| | | | | | | | | | | | | | | | | |]; cbn; try discriminate; destruct v; try discriminate; auto. Qed.
Lemma kinds_take op : takes i op = true -> toggles i op = false.
Proof. destruct op as [j v|l m v|l k v| | | | | | | | | | | | | | | | | |]; cbn; try discriminate; auto. Qed.

Definition reporting (op : abop) : Prop := signals i op || takes i op || toggles i op || elsewhere i op = true.

Lemma conserved order : forall m m', Forall (fun x => reporting (fst x)) order -> legal (abspec n w) m order m' ->
  (one (bit m i) + turned_on w i order = one (bit m' i) + turned_off w i order)%nat.
Proof.
  induction order as [|(op, o) order IH]; intros m m' Ha Hl; cbn [legal] in Hl; [now subst m'|].
  destruct Hl as (m1 & (Em & Hr) & Hl). inversion Ha as [|? ? H1 Ha']; subst. cbn [fst] in H1.
  set (m1 := tab n (fun j => becomes w op j (bit m j))) in *.
  assert (B1 : bit m1 i = becomes w op i (bit m i)) by (apply bit_tab; exact Hi).
  specialize (IH m1 m' Ha' Hl). unfold turned_on, turned_off in *. cbn [filter fst snd]. unfold reporting in H1.
  destruct (elsewhere i op) eqn:Ee.
  { destruct (kinds op Ee) as (-> & -> & ->). cbn [orb andb]. rewrite (elsewhere_becomes op _ Ee) in B1. now rewrite <- B1. }
  rewrite orb_false_r in H1. rewrite (was_returns m op o false H1 Hr), (was_returns m op o true H1 Hr).
  destruct (signals i op) eqn:Es.
  { destruct (kinds_signal op Es) as (-> & ->). rewrite (signals_becomes op _ Es) in B1. rewrite B1 in IH. cbn [orb andb].
    destruct (bit m i); cbn [Bool.eqb one length] in *; lia. }
  destruct (takes i op) eqn:Et.
  { rewrite (kinds_take op Et). rewrite (takes_becomes op _ Et) in B1. rewrite B1 in IH. cbn [orb andb].
    destruct (bit m i); cbn [Bool.eqb one length] in *; lia. }
  cbn [orb] in H1. rewrite H1. rewrite (toggles_becomes op _ H1) in B1. rewrite B1 in IH. cbn [orb andb].
  destruct (bit m i); cbn [Bool.eqb one length negb] in *; lia.
Qed.

Lemma somebody order : forall m m', Forall (fun x => reporting (fst x)) order -> legal (abspec n w) m order m' ->
  existsb (signals i) (map fst order) = true -> (1 <= one (bit m i) + turned_on w i order)%nat.
Proof.
  induction order as [|(op, o) order IH]; intros m m' Ha Hl Hex; cbn [legal map existsb fst] in *; [discriminate|].
  destruct Hl as (m1 & (Em & Hr) & Hl). inversion Ha as [|? ? H1 Ha']; subst. cbn [fst] in H1.
  set (m1 := tab n (fun j => becomes w op j (bit m j))) in *.
  assert (B1 : bit m1 i = becomes w op i (bit m i)) by (apply bit_tab; exact Hi).
  specialize (IH m1 m' Ha' Hl). unfold turned_on in *. cbn [filter fst snd]. unfold reporting in H1.
  destruct (bit m i) eqn:Eb; [cbn [one]; lia|]. cbn [one] in *.
  destruct (signals i op) eqn:Es.
  { cbn [orb] in H1 |- *. rewrite (was_returns m op o false) by (try exact Hr; now rewrite Es). rewrite Eb. cbn. lia. }
  cbn [orb] in Hex, H1 |- *. specialize (IH Hex).
  destruct (toggles i op) eqn:Et.
  { rewrite (was_returns m op o false) by (try exact Hr; now rewrite Es, Et, orb_true_r). rewrite Eb. cbn. lia. }
  rewrite orb_false_r in H1. cbn [andb]. assert (E : bit m1 i = false).
  { rewrite B1. destruct (takes i op) eqn:Ek; [now apply takes_becomes|]. cbn [orb] in H1. now apply elsewhere_becomes. }
  rewrite E in IH. exact IH.
Qed.
End Bits.

Lemma perm_count {A} (f : A -> bool) l l' : Permutation l l' -> length (filter f l) = length (filter f l').
Proof.
  induction 1 as [|x l l' H IH|x y l|]; cbn [filter]; [reflexivity| | |congruence].
  - destruct (f x); cbn [length]; congruence.
  - destruct (f x), (f y); reflexivity.
Qed.

(** A finished execution, put in order. *)
Lemma in_order pl n w sw same64 contents k m programs evss ts' outss :
  ab_sizes pl n w same64 -> stores n (contents 0%nat) m -> Forall (Forall (abpre n w sw)) programs ->
  all_perform (abcode pl n w sw same64) (start programs) evss ts' outss -> execution w contents k evss -> finished ts' ->
  exists order m', stores n (contents k) m' /\ Permutation order (concat outss) /\ Permutation (map fst order) (concat programs) /\
    legal (abspec n w) m order m'.
Proof.
  intros Hs HR Hp A E F. destruct (execution_run _ _ _ _ _ _ _ _ A E) as (s & h & R & P & _).
  destruct (C20_linearizable pl n w sw same64 s (contents 0%nat) m programs Hs HR Hp) as (mem1 & ts1 & h1 & m1 & E1 & S1 & _ & Hfin).
  rewrite R in E1. injection E1 as <- <- <-. destruct (Hfin F) as (P1 & order & P2 & Hl).
  exists order, m1. split; [exact S1|]. split; [now rewrite P2|]. split; [|exact Hl]. rewrite <- P1. now apply Permutation_map.
Qed.

Lemma reporting_all i programs (order : list (abop * about)) :
  Forall (Forall (fun op => signals i op || takes i op || toggles i op || elsewhere i op = true)) programs ->
  Permutation (map fst order) (concat programs) -> Forall (fun x => reporting i (fst x)) order.
Proof.
  intros H P. apply Forall_forall. intros x Hx. apply (in_map fst) in Hx. apply (Permutation_in _ P) in Hx.
  apply in_concat in Hx as (p & Hp1 & Hp2). rewrite Forall_forall in H. specialize (H p Hp1). rewrite Forall_forall in H. now apply H.
Qed.

Lemma signals_conserved pl n w sw same64 contents k m programs evss ts' outss i :
  ab_sizes pl n w same64 -> stores n (contents 0%nat) m -> Forall (Forall (abpre n w sw)) programs -> i < n ->
  Forall (Forall (fun op => signals i op || takes i op || toggles i op || elsewhere i op = true)) programs ->
  all_perform (abcode pl n w sw same64) (start programs) evss ts' outss -> execution w contents k evss -> finished ts' ->
  (one (N.testbit (contents 0%nat) i) + turned_on w i (concat outss) =
   one (N.testbit (contents k) i) + turned_off w i (concat outss))%nat /\
  (existsb (signals i) (concat programs) = true ->
   (1 <= one (N.testbit (contents k) i) + turned_off w i (concat outss))%nat).
Proof.
  intros Hs HR Hp Hi Hk A E F.
  destruct (in_order pl n w sw same64 contents k m programs evss ts' outss Hs HR Hp A E F) as (order & m' & S & P & P1 & Hl).
  pose proof (reporting_all i programs order Hk P1) as Hr. pose proof (conserved n w i Hi order m m' Hr Hl) as C.
  assert (B0 : bit m i = N.testbit (contents 0%nat) i) by (destruct HR as (_ & ->); now apply bit_tab).
  assert (B1 : bit m' i = N.testbit (contents k) i) by (destruct S as (_ & ->); now apply bit_tab).
  assert (T1 : turned_on w i order = turned_on w i (concat outss)) by (apply perm_count, P).
  assert (T2 : turned_off w i order = turned_off w i (concat outss)) by (apply perm_count, P).
  rewrite <- B0, <- B1, <- T1, <- T2. split; [exact C|]. intros Hex. rewrite <- C. apply (somebody n w i Hi order m m' Hr Hl).
  apply existsb_exists in Hex as (op & Hin & Hop). apply existsb_exists. exists op. split; [|exact Hop].
  apply (Permutation_in _ (Permutation_sym P1)). exact Hin.
Qed.

(** Exchange. *)
Lemma exchange_legal w order : forall m m', Forall (fun x => fst x = ALoad \/ exists v, fst x = AExchange v) order ->
  legal (aspec w) m order m' -> Permutation (m :: given (map fst order)) (m' :: returned order).
Proof.
  induction order as [|(op, o) order IH]; intros m m' Ha Hl; cbn [legal] in Hl; [subst m'; reflexivity|].
  destruct Hl as (m1 & Hs & Hl). inversion Ha as [|? ? H1 Ha']; subst. specialize (IH m1 m' Ha' Hl). cbn [fst] in H1.
  destruct H1 as [-> |(v & ->)]; unfold aspec in Hs; cbn [aeffect] in Hs; injection Hs as -> ->.
  - exact IH.
  - cbn [map fst given returned flat_map app]. change (flat_map _ (map fst order)) with (given (map fst order)).
    change (flat_map _ order) with (returned order). rewrite IH. apply perm_swap.
Qed.

Lemma flat_map_perm {A B} (f : A -> list B) l l' : Permutation l l' -> Permutation (flat_map f l) (flat_map f l').
Proof.
  induction 1 as [|x l l' H IH|x y l|]; cbn [flat_map]; [reflexivity| | |etransitivity; eassumption].
  - now apply Permutation_app_head.
  - rewrite !app_assoc. apply Permutation_app_tail, Permutation_app_comm.
Qed.

Lemma exchange_conserved int_w w ew sg esg contents k m programs evss ts' outss : 0 < w -> w <= ew ->
  word_holds w ew (contents 0%nat) m -> Forall (Forall (call_ok int_w w ew sg esg)) programs ->
  Forall (Forall (fun op => op = ALoad \/ exists v, op = AExchange v)) programs ->
  all_perform (acode int_w w ew sg esg) (start programs) evss ts' outss -> execution ew contents k evss -> finished ts' ->
  exists m', word_holds w ew (contents k) m' /\ Permutation (m :: given (concat programs)) (m' :: returned (concat outss)).
Proof.
  intros Hw Hew HR Hp Hk A E F. destruct (execution_run _ _ _ _ _ _ _ _ A E) as (s & h & R & P & _).
  destruct (C21_linearizable int_w w ew sg esg s (contents 0%nat) m programs Hw Hew HR Hp) as (mem1 & ts1 & h1 & m1 & E1 & S1 & _ & Hfin).
  rewrite R in E1. injection E1 as <- <- <-. destruct (Hfin F) as (P1 & order & P2 & Hl).
  exists m1. split; [exact S1|].
  assert (P3 : Permutation (map fst order) (concat programs)) by (rewrite <- P1; now apply Permutation_map).
  assert (Ha : Forall (fun x => fst x = ALoad \/ exists v, fst x = AExchange v) order).
  { apply Forall_forall. intros x Hx. apply (in_map fst) in Hx. apply (Permutation_in _ P3) in Hx.
    apply in_concat in Hx as (p & Hp1 & Hp2). rewrite Forall_forall in Hk. specialize (Hk p Hp1). rewrite Forall_forall in Hk. now apply Hk. }
  transitivity (m :: given (map fst order)); [constructor; apply flat_map_perm; now symmetry|].
  rewrite (exchange_legal w order m m1 Ha Hl). constructor. apply flat_map_perm. now rewrite P2.
Qed.

(** Looking and then clearing everything. *)
Lemma run1 {Op Out} w (code : Op -> prog Out) i rest mem ts t mem' t' es ts' mem2 ts2 h :
  rd ts i = Some t -> tstep w code i mem t = Some (mem', t', es) -> wr ts i t' = Some ts' ->
  run_threads w code rest mem' ts' = Some (mem2, ts2, h) -> run_threads w code (i :: rest) mem ts = Some (mem2, ts2, es ++ h).
Proof. intros E1 E2 E3 E4. cbn [run_threads]. rewrite E1, E2, E3, E4. reflexivity. Qed.

Lemma lost_run w (code : abop -> prog about) i p k1 kk o1 o2 mem r :
  code OLoad = Do PLoad k1 -> code (OSet i true) = Do p kk -> code OResetAll = Do (PStore 0) (fun _ => Ret RUnit) ->
  k1 0 = Ret o1 -> exec_prim w p 0 = (mem, r) -> kk r = Ret o2 ->
  exists ts' h, run_threads w code [1; 1; 1; 0; 0; 0; 1; 1; 1] 0 (start [[OSet i true]; [OLoad; OResetAll]]) = Some (0, ts', h) /\
    finished ts' /\ responses h = [(OLoad, o1); (OSet i true, o2); (OResetAll, RUnit)].
Proof.
  intros E1 E2 E3 K1 X K2. do 2 eexists. split.
  - assert (X3 : exec_prim w (PStore 0) mem = (0, 0)) by (unfold exec_prim, wrap; rewrite N.mod_0_l by (apply N.pow_nonzero; lia); reflexivity).
    eapply run1; [reflexivity|reflexivity|reflexivity|]. eapply run1; [reflexivity|unfold tstep; cbn [cur]; rewrite E1; reflexivity|reflexivity|].
    eapply run1; [reflexivity|unfold tstep; cbn [cur snd exec_prim]; rewrite K1; reflexivity|reflexivity|].
    eapply run1; [reflexivity|reflexivity|reflexivity|]. eapply run1; [reflexivity|unfold tstep; cbn [cur]; rewrite E2, X; reflexivity|reflexivity|].
    eapply run1; [reflexivity|unfold tstep; cbn [cur]; rewrite K2; reflexivity|reflexivity|].
    eapply run1; [reflexivity|reflexivity|reflexivity|]. eapply run1; [reflexivity|unfold tstep; cbn [cur]; rewrite E3, X3; reflexivity|reflexivity|].
    eapply run1; [reflexivity|reflexivity|reflexivity|]. reflexivity.
  - split; [repeat constructor|reflexivity].
Qed.

Lemma lost pl n w sw same64 i : ab_sizes pl n w same64 -> i < n ->
  exists ts' o1 o2 h,
    run_threads w (abcode pl n w sw same64) [1; 1; 1; 0; 0; 0; 1; 1; 1] 0 (start [[OSet i true]; [OLoad; OResetAll]]) = Some (0, ts', h) /\
    finished ts' /\ responses h = [(OLoad, o1); (OSet i true, o2); (OResetAll, RUnit)] /\
    was w i false o1 = true /\ was w i false o2 = true.
Proof.
  intros ((Hpl & Hw & Hwl & Hn & HnM) & Hnw & H32 & H64 & Hc) Hi.
  pose proof (ab_single pl n w sw same64 Hpl Hw Hwl Hn HnM Hnw H64 Hc H32) as AS.
  assert (S0 : stores n 0 (tab n (N.testbit 0))) by (split; [apply npow2_pos|reflexivity]).
  destruct (AS (OSet i true) Hi) as (p & kk & Ep & Hp).
  destruct (AS OLoad I) as (p1 & k1 & Ep1 & Hp1). pose proof Ep1 as Ep1'. cbn [abcode] in Ep1'. injection Ep1' as Epp _. subst p1.
  destruct (Hp1 0 _ S0) as (o1 & m1 & Eo1 & (_ & R1) & _). destruct (Hp 0 _ S0) as (o2 & m2 & Eo2 & (_ & R2) & _).
  cbn [exec_prim snd] in Eo1.
  assert (B : bit (tab n (N.testbit 0)) i = false) by (rewrite bit_tab by exact Hi; apply N.bits_0).
  destruct (exec_prim w p 0) as (mem, r) eqn:Ex. cbn [snd] in Eo2.
  destruct (lost_run w (abcode pl n w sw same64) i p k1 kk o1 o2 mem r Ep1 Ep eq_refl Eo1 Ex Eo2) as (ts' & h & R & F & Eh).
  exists ts', o1, o2, h. split; [exact R|]. split; [exact F|]. split; [exact Eh|]. split.
  - destruct R1 as (s & -> & _ & _ & Hh). unfold was. now rewrite (Hh i Hi), B.
  - cbn [returns] in R2. destruct R2 as (s & -> & _ & _ & Hh). unfold was. now rewrite (Hh i Hi), B.
Qed.
