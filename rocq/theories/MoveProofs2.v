(** Proofs about the tuple algorithms on references. *)
From Verif Require Import Base BaseLemmas TupleModel TupleSpec TupleProofs TupleProofs2 TupleProofs3 MoveModel MoveSpec MoveProofs.
From Coq Require Import Permutation.

Lemma filter_perm {X} (p : X -> bool) l : Permutation l (List.filter p l ++ List.filter (fun x => negb (p x)) l).
Proof.
  induction l as [|x l IH]; [constructor|]. cbn [List.filter]. destruct (p x); cbn [negb app]; [now constructor|].
  apply Permutation_cons_app. exact IH.
Qed.
Lemma firsts_perm {X} (cs : list (list X)) r : Forall2 (fun c e => nth_error c 0 = Some e) cs r -> exists rest, Permutation (concat cs) (r ++ rest).
Proof.
  induction 1 as [|c e cs r H _ [rest IH]]; [exists []; constructor|]. destruct c as [|x c]; [discriminate|]. cbn in H. injection H as ->.
  exists (c ++ rest). cbn [concat app]. constructor. rewrite IH. rewrite !app_assoc. apply Permutation_app_tail, Permutation_app_comm.
Qed.

Section Algorithms.
Context {V T : Type}.
Notation store := (store V).
Notation ref := (ref T).
Implicit Types (m : store) (t rs : list ref).

Lemma tuple_cat_m_ok m (ts : list (list ref)) : exclusive (concat ts) -> exists m', tuple_cat_m m ts = Some (m', values_of m (concat ts)) /\ left_behind m (concat ts) m'.
Proof. intros X. unfold tuple_cat_m. rewrite tuple_cat_ok. destruct (built m _ X) as (m' & -> & L). now exists m'. Qed.
Lemma cons_m_ok m (e : ref) t : exclusive (e :: t) -> exists m', tuple_cons_m m e t = Some (m', values_of m (e :: t)) /\ left_behind m (e :: t) m'.
Proof. intros X. unfold tuple_cons_m. rewrite cons_ok. destruct (built m _ X) as (m' & -> & L). now exists m'. Qed.
Lemma snoc_m_ok m (e : ref) t : exclusive (t ++ [e]) -> exists m', tuple_snoc_m m t e = Some (m', values_of m (t ++ [e])) /\ left_behind m (t ++ [e]) m'.
Proof. intros X. unfold tuple_snoc_m. rewrite snoc_ok. destruct (built m _ X) as (m' & -> & L). now exists m'. Qed.
Lemma tail_m_ok m (e : ref) t : exclusive t -> exists m', tail_m m (e :: t) = Some (m', values_of m t) /\ left_behind m t m'.
Proof. intros X. unfold tail_m. rewrite tail_ok. cbn [tl]. destruct (built m _ X) as (m' & -> & L). now exists m'. Qed.
Lemma make_m_ok m t : exclusive t -> exists m', make_tuple_m m t = Some (m', values_of m t) /\ left_behind m t m'.
Proof. intros X. unfold make_tuple_m. rewrite pack_get. destruct (built m _ X) as (m' & -> & L). now exists m'. Qed.
Lemma filter_m_ok pred m t : exclusive t -> let s := List.filter (fun r => pred (of_type r)) t in
  exists m', filter_m pred m t = Some (m', values_of m s) /\ left_behind m s m'.
Proof.
  intros X s. unfold filter_m. rewrite filter_ok. fold s. destruct (built m s) as (m' & -> & L); [|now exists m'].
  apply (exclusive_part t s (List.filter (fun x => negb (pred (of_type x))) t)); [apply (filter_perm (fun r => pred (of_type r)))|exact X].
Qed.
Lemma sort_m_ok proj name std_sort m t : sorts std_sort -> exclusive t ->
  exists s m', sort_m proj name std_sort m t = Some (m', values_of m s) /\ Permutation t s /\ ordered (fun r => name (proj (of_type r))) s /\ left_behind m s m'.
Proof.
  intros Hs X. destruct (sort_correct (E := ref) of_type proj name std_sort Hs t) as (s & E & P & O). unfold sort_m. rewrite E.
  destruct (built m s) as (m' & -> & L); [now apply (exclusive_perm t)|]. exists s, m'. auto.
Qed.
Lemma to_unsorted_m_ok same m t : decides same -> exclusive t -> let s := first_of_type same of_type t in
  exists m', to_unsorted_set_m same m t = Some (m', values_of m s) /\ left_behind m s m'.
Proof.
  intros D X s. unfold to_unsorted_set_m. rewrite (to_unsorted_set_ok (E := ref) of_type same D). fold s. destruct (built m s) as (m' & -> & L); [|now exists m'].
  unfold s, first_of_type. set (p := fun ie : nat * ref => _).
  apply (exclusive_part t _ (map snd (List.filter (fun x => negb (p x)) (combine (seq 0 (length t)) t)))); [|exact X]. rewrite <- map_app.
  assert (E : map snd (combine (seq 0 (length t)) t) = t).
  { generalize 0. clear. induction t as [|x t IH]; intros k; [reflexivity|]. cbn [length seq combine map snd]. now rewrite IH. }
  rewrite <- E at 1. apply Permutation_map, filter_perm.
Qed.

Section Ordered.
Variable order : nat -> list nat.
Hypothesis Ho : any_order order.
Lemma chunk_m_ok same proj m t : decides same -> exclusive t ->
  exists cs m', chunk_by_m order same proj m t = Some (m', map (values_of m) cs) /\ chunking (fun r => proj (of_type r)) t cs /\ left_behind m t m'.
Proof.
  intros D X. destruct (chunk_by_ok (E := ref) of_type same D proj t) as (cs & E & C). unfold chunk_by_m. rewrite E.
  pose proof (cuts _ _ _ C) as Ec. destruct (unordered_build order Ho m cs) as (m' & -> & L & _); [now rewrite Ec|]. rewrite Ec in L. now exists cs, m'.
Qed.
Lemma gather_m_ok same proj name std_sort m t : sorts std_sort -> decides same -> injective name -> exclusive t ->
  exists cs m', gather_by_m order same proj name std_sort m t = Some (m', map (values_of m) cs) /\ grouping (fun r => proj (of_type r)) t cs /\
    (forall i j c d x y, i < j -> nth_error cs i = Some c -> nth_error cs j = Some d -> In x c -> In y d -> name_lt (name (proj (of_type x))) (name (proj (of_type y)))) /\
    left_behind m t m'.
Proof.
  intros Hs D I X. destruct (gather_by_ok (E := ref) of_type proj name std_sort Hs same D I t) as (cs & E & G & O). unfold gather_by_m. rewrite E.
  pose proof (regroups _ _ _ G) as P. destruct (unordered_build order Ho m cs) as (m' & -> & [L1 L2] & _); [now apply (exclusive_perm t)|].
  exists cs, m'. split; [reflexivity|]. split; [exact G|]. split; [exact O|]. split; intros l H; [apply L1|apply L2].
  - now apply (given_up_perm t).
  - intros K. apply H. now apply (given_up_perm (concat cs)); [apply Permutation_sym|].
Qed.

(** ** Temporaries *)
Lemma temporary_ok m cells (types : list T) : length types = length cells ->
  exists rs, temporary m cells types = (m ++ cells, rs) /\ map loc rs = seq (length m) (length cells) /\ map of_type rs = types /\ Forall (fun r => cat r = Rvalue) rs /\
    (forall tail, map (fun r => look (m ++ cells ++ tail) (loc r)) rs = cells).
Proof.
  intros L. unfold temporary. eexists. split; [reflexivity|]. unfold elements. rewrite !map_map. cbn [loc of_type cat].
  assert (E1 : forall (a : list nat) (b : list T), length a = length b -> map fst (combine a b) = a).
  { induction a as [|x a IH]; intros [|y b] H; try discriminate H; [reflexivity|]. cbn. f_equal. apply IH. now injection H. }
  assert (E2 : forall (a : list nat) (b : list T), length a = length b -> map snd (combine a b) = b).
  { induction a as [|x a IH]; intros [|y b] H; try discriminate H; [reflexivity|]. cbn. f_equal. apply IH. now injection H. }
  assert (Ls : length (seq (length m) (length cells)) = length types) by (rewrite seq_length; congruence).
  split; [now apply E1|]. split; [now apply E2|]. split.
  - apply Forall_forall. intros r H. apply in_map_iff in H as (x & <- & _). reflexivity.
  - intros tail. rewrite map_map. cbn [loc]. rewrite <- (map_map fst (fun l => look (m ++ cells ++ tail) l)), (E1 _ _ Ls). clear.
    apply nth_error_eq. intros i. rewrite nth_error_map, nth_seq_from. destruct (Nat.ltb_spec i (length cells)) as [H|H]; cbn [option_map].
    + unfold look. rewrite app_nth2 by lia. replace (length m + i - length m) with i by lia. rewrite app_nth1 by lia. symmetry. now apply nth_error_nth'.
    + symmetry. now apply nth_error_None.
Qed.
Lemma temporaries_ok gs : forall m (tss : list (list T)), map (@length _) tss = map (@length _) gs ->
  exists rss, temporaries m gs tss = (m ++ concat gs, rss) /\ map loc (concat rss) = seq (length m) (length (concat gs)) /\ map (map of_type) rss = tss /\
    Forall (fun r => cat r = Rvalue) (concat rss) /\ map (fun rs => map (fun r => look (m ++ concat gs) (loc r)) rs) rss = gs.
Proof.
  induction gs as [|g gs IH]; intros m [|ts tss] H; try discriminate H.
  - exists []. cbn [temporaries concat]. rewrite app_nil_r. repeat split. constructor.
  - cbn [map] in H. injection H as H1 H2. destruct (temporary_ok m g ts H1) as (rs & E & L1 & T1 & F1 & V1). cbn [temporaries]. rewrite E.
    destruct (IH (m ++ g) tss H2) as (rss & E2 & L2 & T2 & F2 & V2). rewrite E2. exists (rs :: rss). rewrite <- app_assoc in *. cbn [concat]. split; [reflexivity|].
    split; [|split; [|split]].
    + rewrite map_app, L1, L2, app_length, app_length, seq_app. reflexivity.
    + cbn [map]. now rewrite T1, T2.
    + now apply Forall_app.
    + cbn [map]. f_equal; [apply V1|exact V2].
Qed.
Lemma look_firstn m n l : look (firstn n m) l = if l <? n then look m l else Gone.
Proof.
  unfold look. destruct (Nat.ltb_spec l n) as [H|H].
  - revert n l H. induction m as [|c m IH]; intros [|n] [|l] H; try lia; try reflexivity. cbn [firstn nth]. apply IH. lia.
  - apply nth_overflow. rewrite firstn_length. lia.
Qed.
Lemma look_out m l : length m <= l -> look m l = Gone.
Proof. apply nth_overflow. Qed.
Lemma exclusive_seq rs a n : map loc rs = seq a n -> exclusive rs.
Proof. intros E r I _. rewrite E. apply NoDup_count_occ'; [apply seq_NoDup|]. rewrite <- E. now apply in_map. Qed.

Lemma firsts_exist {X} (cs : list (list X)) : Forall (fun c => c <> []) cs -> exists r, mapo (fun c => get c 0) cs = Some r /\ Forall2 (fun c e => nth_error c 0 = Some e) cs r.
Proof.
  induction 1 as [|c cs Hc _ (r & E & F)]; [exists []; split; [reflexivity|constructor]|]. destruct c as [|x c]; [congruence|].
  exists (x :: r). cbn [mapo]. rewrite E. split; [reflexivity|]. now constructor.
Qed.
Lemma unique_m_ok same m t : decides same -> exclusive t ->
  exists cs s m', chunking of_type t cs /\ Forall2 (fun c e => nth_error c 0 = Some e) cs s /\
    unique_m order same m t = Some (m', values_of m s) /\ left_behind m t m' /\ length m' = length m.
Proof.
  intros D X. destruct (chunk_by_ok (E := ref) of_type same D (fun x => x) t) as (cs & E & C). unfold unique_m. rewrite E.
  pose proof (cuts _ _ _ C) as Ec. destruct (unordered_build order Ho m cs) as (m1 & -> & L & Lm); [now rewrite Ec|]. rewrite Ec in L. cbn [fst snd].
  destruct (temporaries_ok (map (values_of m) cs) m1 (map (map of_type) cs)) as (rss & -> & Lr & Tr & Fr & Vr).
  { rewrite !map_map. apply map_ext. intros c. unfold values_of. now rewrite !map_length. }
  rewrite apply1_ok.
  assert (Nr : Forall (fun c => c <> []) rss).
  { pose proof (nonempty _ _ _ C) as N. apply (f_equal (map (@length _))) in Vr. rewrite !map_map in Vr.
    apply Forall_forall. intros c Ic ->. apply In_nth_error in Ic as [i Ei]. apply (f_equal (fun l => nth_error l i)) in Vr. rewrite !nth_error_map, Ei in Vr. cbn in Vr.
    destruct (nth_error cs i) as [c'|] eqn:Ec'; [|discriminate Vr]. cbn in Vr. injection Vr as Vr. unfold values_of in Vr. rewrite map_length in Vr.
    rewrite Forall_forall in N. apply (N c'); [now apply nth_error_In in Ec'|]. now destruct c'. }
  destruct (firsts_exist rss Nr) as (fs & Ef & Ff). rewrite Ef.
  destruct (firsts_exist cs (nonempty _ _ _ C)) as (s & _ & Fs).
  destruct (firsts_perm _ _ Ff) as [rest P].
  assert (Xf : exclusive fs) by (apply (exclusive_part (concat rss) fs rest P); now apply (exclusive_seq _ (length m1) (length (concat (map (values_of m) cs))))).
  destruct (built (m1 ++ concat (map (values_of m) cs)) fs Xf) as (m2 & Eb & L2). rewrite Eb.
  exists cs, s, (firstn (length m) m2). split; [exact C|]. split; [exact Fs|]. split; [|split].
  - do 2 f_equal. unfold values_of at 1. clear -Ff Fs Vr. revert Ff Fs Vr. set (M := m1 ++ _). clearbody M. revert rss fs s.
    induction cs as [|c cs IH]; intros rss fs s Ff Fs Vr; destruct rss as [|rs rss]; try discriminate Vr; inversion Ff; inversion Fs; subst; [reflexivity|].
    cbn [map] in *. injection Vr as V1 V2. unfold values_of at 1. cbn [map]. f_equal; [|now apply (IH rss)].
    apply (f_equal (fun l => nth_error l 0)) in V1. unfold values_of in V1. rewrite !nth_error_map in V1.
    match goal with H1 : nth_error rs 0 = _, H2 : nth_error c 0 = _ |- _ => rewrite H1, H2 in V1 end. now injection V1.
  - assert (Hl : forall l, l < length m -> look m2 l = look m1 l).
    { intros l Hl. rewrite (untouched _ _ _ L2); [unfold look; apply app_nth1; lia|]. intros (r & I & _ & Lc).
      assert (I' : In (loc r) (map loc (concat rss))) by (apply in_map, (Permutation_in r (Permutation_sym P)), in_or_app; now left).
      rewrite Lr in I'. apply in_seq in I'. lia. }
    split; intros l H; rewrite look_firstn; destruct (Nat.ltb_spec l (length m)) as [K|K].
    + rewrite Hl by exact K. now apply (moved_from _ _ _ L).
    + reflexivity.
    + rewrite Hl by exact K. now apply (untouched _ _ _ L).
    + symmetry. now apply look_out.
  - rewrite firstn_length. assert (length m <= length m2); [|lia].
    pose proof (build_length (m1 ++ concat (map (values_of m) cs)) fs) as B. rewrite Eb in B. cbn [fst] in B. rewrite app_length in B. lia.
Qed.
Lemma chunking_map {E E' K} (g : E -> E') (key : E -> K) (key' : E' -> K) (t : list E) cs :
  (forall x, In x t -> key' (g x) = key x) -> chunking key t cs -> chunking key' (map g t) (map (map g) cs).
Proof.
  intros H C. pose proof (cuts _ _ _ C) as Ec.
  assert (Hin : forall c x, In c cs -> In x c -> key' (g x) = key x) by (intros c x Ic Ix; apply H; rewrite <- Ec; apply in_concat; eauto). split.
  - rewrite <- concat_map. now rewrite Ec.
  - apply Forall_forall. intros c I. apply in_map_iff in I as (d & <- & I). pose proof (nonempty _ _ _ C) as N. rewrite Forall_forall in N. specialize (N d I). now destruct d.
  - intros c x y I Hx Hy. apply in_map_iff in I as (d & <- & I). apply in_map_iff in Hx as (x' & <- & Hx), Hy as (y' & <- & Hy). rewrite !(Hin d) by assumption. now apply (homogeneous _ _ _ C d).
  - intros i c d x y Hc Hd Hx Hy. rewrite nth_error_map in Hc, Hd. destruct (nth_error cs i) as [c'|] eqn:E1; [|discriminate Hc]. destruct (nth_error cs (S i)) as [d'|] eqn:E2; [|discriminate Hd].
    injection Hc as <-. injection Hd as <-. apply in_map_iff in Hx as (x' & <- & Hx), Hy as (y' & <- & Hy).
    rewrite (Hin c'), (Hin d') by (try assumption; eapply nth_error_In; eassumption). now apply (maximal _ _ _ C i c' d').
Qed.
Lemma firsts_map {X Y} (g : X -> Y) cs r : Forall2 (fun c e => nth_error c 0 = Some e) cs r -> Forall2 (fun c e => nth_error c 0 = Some e) (map (map g) cs) (map g r).
Proof. induction 1 as [|c e cs r H _ IH]; [constructor|]. cbn [map]. constructor; [|exact IH]. now rewrite nth_error_map, H. Qed.
Lemma firsts_fun {X} (cs : list (list X)) r1 : Forall2 (fun c e => nth_error c 0 = Some e) cs r1 -> forall r2, Forall2 (fun c e => nth_error c 0 = Some e) cs r2 -> r1 = r2.
Proof. induction 1 as [|c e cs r H _ IH]; intros r2 G; inversion G; subst; [reflexivity|]. f_equal; [congruence|now apply IH]. Qed.
Lemma firsts_in {X} (cs : list (list X)) r e : Forall2 (fun c e => nth_error c 0 = Some e) cs r -> In e r -> In e (concat cs).
Proof. induction 1 as [|c x cs r H _ IH]; intros I; [contradiction|]. cbn [concat]. apply in_or_app. destruct I as [<-|I]; [left; now apply nth_error_In in H|right; now apply IH]. Qed.

Lemma to_sorted_m_ok same name std_sort m t : sorts std_sort -> decides same -> injective name -> exclusive t ->
  exists s m', to_sorted_set_m order same name std_sort m t = Some (m', values_of m s) /\ strictly_ordered (fun r => name (of_type r)) s /\
    (forall r, In r s -> In r t) /\ (forall r, In r t -> exists r', In r' s /\ of_type r' = of_type r) /\ left_behind m t m'.
Proof.
  intros Hs D I X. destruct (to_sorted_set_ok (E := ref) of_type same name std_sort t D I Hs) as (sel & Esel & Osel & Isel & Csel).
  destruct (sort_correct (E := ref) of_type (fun x => x) name std_sort Hs t) as (s & E & P & _).
  unfold to_sorted_set in Esel. rewrite E in Esel. unfold to_sorted_set_m. rewrite E.
  pose proof (build_length m s) as Bl. destruct (built m s (exclusive_perm t s P X)) as (m1 & Eb & L). rewrite Eb in *. cbn [fst] in Bl.
  destruct (temporary_ok m1 (values_of m s) (map of_type s)) as (s' & -> & Ls & Ts & _ & Vs). { unfold values_of. now rewrite !map_length. }
  specialize (Vs []). rewrite app_nil_r in Vs. set (m2 := m1 ++ values_of m s) in *.
  assert (Xs' : exclusive s') by (now apply (exclusive_seq _ (length m1) (length (values_of m s)))).
  destruct (unique_m_ok same m2 s' D Xs') as (cs' & f' & m3 & C' & F' & -> & L3 & Lm3). cbn [fst snd].
  (* pair the objects with their temporaries *)
  assert (Len : length s' = length s) by (rewrite <- (map_length of_type s'), Ts; apply map_length).
  assert (Z1 : map fst (combine s s') = s /\ map snd (combine s s') = s').
  { clear -Len. revert s' Len. induction s as [|x s IH]; intros [|y s'] H; try discriminate H; [split; reflexivity|]. injection H as H. destruct (IH s' H) as [A B]. cbn. now rewrite A, B. }
  destruct Z1 as [Z1 Z2].
  assert (Zk : forall p, In p (combine s s') -> of_type (snd p) = of_type (fst p) /\ look m2 (loc (snd p)) = look m (loc (fst p))).
  { clearbody m2. clear -Ts Vs Len. revert s' Ts Vs Len. induction s as [|x s IH]; intros [|y s'] Ts Vs Len; try discriminate Len; [contradiction|].
    unfold values_of in Vs. cbn [map] in *. injection Ts as T1 T2. injection Vs as V1 V2. injection Len as Len. intros p [<-|Ip]; [now split|]. now apply (IH s'). }
  destruct (unique_ok (E := ref * ref) (fun p => of_type (fst p)) same D (combine s s')) as (zs & fz & Cz & _ & Fz).
  assert (C1 : chunking of_type s (map (map fst) zs)) by (rewrite <- Z1; now apply (chunking_map fst (fun p => of_type (fst p)) of_type)).
  assert (C2 : chunking of_type s' (map (map snd) zs)) by (rewrite <- Z2; apply (chunking_map snd (fun p => of_type (fst p)) of_type); [intros p Ip; apply (Zk p Ip)|exact Cz]).
  destruct (unique_ok (E := ref) of_type same D s) as (cs0 & r0 & C0 & E0 & F0). rewrite E0 in Esel. injection Esel as ->.
  rewrite (chunking_unique _ _ _ _ C0 C1) in F0. rewrite (chunking_unique _ _ _ _ C' C2) in F'.
  pose proof (firsts_fun _ _ F0 _ (firsts_map fst _ _ Fz)) as ->. pose proof (firsts_fun _ _ F' _ (firsts_map snd _ _ Fz)) as ->.
  exists (map fst fz), (firstn (length m) m3). split; [|split; [exact Osel|split; [exact Isel|split; [exact Csel|]]]].
  - do 2 f_equal. unfold values_of. rewrite !map_map. apply map_ext_in. intros p Ip. apply Zk. rewrite <- (cuts _ _ _ Cz). now apply (firsts_in _ _ _ Fz).
  - assert (Hl : forall l, l < length m -> look m3 l = look m1 l).
    { intros l Hl. rewrite (untouched _ _ _ L3); [unfold m2, look; apply app_nth1; lia|]. intros (r & Ir & _ & Lr). apply (in_map loc) in Ir. rewrite Ls in Ir. apply in_seq in Ir. lia. }
    split; intros l H; rewrite look_firstn; destruct (Nat.ltb_spec l (length m)) as [K|K].
    + rewrite Hl by exact K. apply (moved_from _ _ _ L). now apply (given_up_perm t).
    + reflexivity.
    + rewrite Hl by exact K. apply (untouched _ _ _ L). intros G. apply H. now apply (given_up_perm s); [apply Permutation_sym|].
    + symmetry. now apply look_out.
Qed.
End Ordered.
End Algorithms.
