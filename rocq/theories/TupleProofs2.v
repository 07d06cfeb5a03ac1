From Verif Require Import Base BaseLemmas TupleModel TupleSpec TupleProofs.
From Coq Require Import Permutation.

(** ** Chunks *)
Fixpoint fin (o s : nat) (tests : list bool) : list chunk :=
  match tests with [] => [Chunk o s] | b :: r => if b then fin o (S s) r else Chunk o s :: fin (o + s) 1 r end.
Definition falses (tests : list bool) : nat := count_occ Bool.bool_dec tests false.
Lemma falses_cons b r : falses (b :: r) = (if b then 0 else 1) + falses r.
Proof. unfold falses. cbn [count_occ]. destruct b; reflexivity. Qed.
Lemma count_chunks_ok tests : count_chunks tests = S (falses tests).
Proof.
  unfold count_chunks. assert (G : forall a, List.fold_left (fun n (b : bool) => n + (if b then 0 else 1)) tests a = a + falses tests).
  { induction tests as [|b r IH]; intros a; cbn [List.fold_left]; [unfold falses; cbn; lia|]. rewrite IH, falses_cons. destruct b; lia. }
  rewrite G. lia.
Qed.
Lemma bump_mid pre o s post : bump (pre ++ Chunk o s :: post) (length pre) = Some (pre ++ Chunk o (S s) :: post).
Proof. unfold bump. rewrite nth_mid. cbn [offset size]. apply put_mid. Qed.
Lemma set_offset_mid pre o s post v : set_offset (pre ++ Chunk o s :: post) (length pre) v = Some (pre ++ Chunk v s :: post).
Proof. unfold set_offset. rewrite nth_mid. cbn [offset size]. apply put_mid. Qed.
Lemma mark_ok tests : forall done o s i, i + 1 = o + s ->
  mark (done ++ Chunk o s :: repeat (Chunk 0 0) (falses tests)) (length done) i tests = Some (done ++ fin o s tests).
Proof.
  induction tests as [|b r IH]; intros done o s i Hi; cbn [mark fin]; [reflexivity|]. rewrite falses_cons. destruct b.
  - cbn [Nat.add]. rewrite bump_mid. apply IH. lia.
  - cbn [Nat.add repeat]. replace (done ++ Chunk o s :: Chunk 0 0 :: repeat (Chunk 0 0) (falses r)) with ((done ++ [Chunk o s]) ++ Chunk 0 0 :: repeat (Chunk 0 0) (falses r)) by (rewrite <- app_assoc; reflexivity).
    replace (S (length done)) with (length (done ++ [Chunk o s])) by (rewrite app_length; cbn; lia).
    rewrite set_offset_mid, bump_mid. rewrite IH by lia. rewrite <- app_assoc. cbn [app]. rewrite Hi. reflexivity.
Qed.
Lemma chunks_ok tests n : n = S (falses tests) ->
  match bump (repeat (Chunk 0 0) n) 0 with Some cs => mark cs 0 0 tests | None => None end = Some (fin 0 1 tests).
Proof.
  intros ->. cbn [repeat]. pose proof (bump_mid [] 0 0 (repeat (Chunk 0 0) (falses tests))) as B. cbn [app length] in B. rewrite B.
  exact (mark_ok tests [] 0 1 0 eq_refl).
Qed.

Fixpoint cut {E} (cur rest : list E) (tests : list bool) : list (list E) :=
  match rest, tests with
  | y :: rest', b :: r => if b then cut (cur ++ [y]) rest' r else cur :: cut [y] rest' r
  | _, _ => [cur]
  end.
Definition slice {E} (t : list E) (c : chunk) : option (list E) := pack (size c) (fun j => nth_error t (offset c + j)).
Lemma slice_ok {E} (pre cur post : list E) : slice (pre ++ cur ++ post) (Chunk (length pre) (length cur)) = Some cur.
Proof.
  unfold slice. cbn [size offset]. apply pack_ok; [reflexivity|]. intros i Hi. rewrite nth_error_app2 by lia. rewrite nth_error_app1 by lia. f_equal. lia.
Qed.
Lemma slices_ok {E} (t : list E) : forall rest pre cur tests, t = pre ++ cur ++ rest -> length tests = length rest ->
  mapo (slice t) (fin (length pre) (length cur) tests) = Some (cut cur rest tests).
Proof.
  induction rest as [|y rest IH]; intros pre cur [|b tests] Et Hl; try discriminate Hl; cbn [fin cut].
  - cbn [mapo]. rewrite Et, slice_ok. reflexivity.
  - destruct b.
    + specialize (IH pre (cur ++ [y]) tests). rewrite app_length in IH. cbn [length] in IH. rewrite Nat.add_1_r in IH.
      apply IH; [rewrite Et, <- app_assoc; reflexivity|cbn in Hl; lia].
    + cbn [mapo]. rewrite Et at 1. rewrite slice_ok. specialize (IH (pre ++ cur) [y] tests). rewrite app_length in IH. cbn [length] in IH.
      rewrite IH by (try (rewrite Et, <- app_assoc; reflexivity); cbn in Hl; lia). reflexivity.
Qed.

Section Chunks.
Context {E K : Type}.
Variable key : E -> K.
Variable same : K -> K -> bool.
Hypothesis same_ok : decides same.
Fixpoint tests_for (x : E) (rest : list E) : list bool :=
  match rest with [] => [] | y :: r => same (key x) (key y) :: tests_for y r end.
Lemma tests_for_length rest : forall x, length (tests_for x rest) = length rest.
Proof. induction rest as [|y r IH]; intros x; [reflexivity|]. cbn. rewrite IH. reflexivity. Qed.
Lemma tests_for_nth rest : forall x i, i < length rest ->
  nth_error (tests_for x rest) i
  = match nth_error (x :: rest) i, nth_error (x :: rest) (i + 1) with Some a, Some b => Some (same (key a) (key b)) | _, _ => None end.
Proof.
  induction rest as [|y r IH]; intros x [|i] Hi; cbn [length] in Hi; try lia; [reflexivity|].
  cbn [tests_for]. change (S i + 1) with (S (i + 1)). cbn [nth_error]. rewrite IH by lia. reflexivity.
Qed.
Lemma cut_head rest : forall (cur : list E) tests, exists ext cs, cut cur rest tests = (cur ++ ext) :: cs.
Proof.
  induction rest as [|y r IH]; intros cur [|b tests]; cbn [cut]; try (exists [], []; rewrite app_nil_r; reflexivity).
  destruct b; [|exists []; rewrite app_nil_r; eauto]. destruct (IH (cur ++ [y]) tests) as [ext [cs H]]. exists (y :: ext), cs. rewrite H, <- app_assoc. reflexivity.
Qed.
Lemma cut_ok rest : forall cur x, In x cur -> (forall y, In y cur -> key y = key x) -> chunking key (cur ++ rest) (cut cur rest (tests_for x rest)).
Proof.
  induction rest as [|y r IH]; intros cur x Hx Hc; cbn [tests_for cut].
  - split; cbn.
    + reflexivity.
    + constructor; [destruct cur; [destruct Hx|discriminate]|constructor].
    + intros c a b [<-|[]] Ha Hb. rewrite (Hc a Ha), (Hc b Hb). reflexivity.
    + intros i c d a b H1 H2. destruct i as [|[|i]]; discriminate.
  - destruct (same (key x) (key y)) eqn:Es.
    + apply same_ok in Es. specialize (IH (cur ++ [y]) y). rewrite <- app_assoc in IH. apply IH; [apply in_or_app; right; left; reflexivity|].
      intros z Hz. apply in_app_or in Hz. destruct Hz as [Hz|[<-|[]]]; [rewrite (Hc z Hz); exact Es|reflexivity].
    + assert (Hne : key x <> key y) by (intros Heq; apply same_ok in Heq; congruence).
      assert (C : chunking key (y :: r) (cut [y] r (tests_for y r))) by (apply (IH [y] y); [left; reflexivity|intros z [<-|[]]; reflexivity]).
      destruct (cut_head r [y] (tests_for y r)) as [ext [cs Hcut]]. rewrite Hcut in *. destruct C as [C1 C2 C3 C4]. split.
      * cbn [concat]. rewrite <- C1. reflexivity.
      * constructor; [destruct cur; [destruct Hx|discriminate]|exact C2].
      * intros c a b [<-|Hc'] Ha Hb; [rewrite (Hc a Ha), (Hc b Hb); reflexivity|exact (C3 c a b Hc' Ha Hb)].
      * intros [|i] c d a b H1 H2 Ha Hb; [|exact (C4 i c d a b H1 H2 Ha Hb)]. cbn [nth_error] in H1, H2. injection H1 as <-. injection H2 as <-.
        rewrite (Hc a Ha). intros Heq. apply Hne. rewrite Heq. apply (C3 ([y] ++ ext)); [left; reflexivity|exact Hb|left; reflexivity].
Qed.
Lemma chunking_nil : chunking key [] [].
Proof. split; cbn; [reflexivity|constructor|intros ? ? ? []|intros [|] ? ? ? ? H; discriminate]. Qed.
Lemma chunking_one x : chunking key [x] [[x]].
Proof. apply (cut_ok [] [x] x); [left; reflexivity|intros y [<-|[]]; reflexivity]. Qed.

(** ** Uniqueness *)
Lemma chunking_tail t c cs : chunking key t (c :: cs) -> chunking key (concat cs) cs.
Proof.
  intros [C1 C2 C3 C4]. split; [reflexivity|inversion C2; assumption|intros d x y Hd; apply C3; right; exact Hd|].
  intros i d1 d2 x y H1 H2. exact (C4 (S i) d1 d2 x y H1 H2).
Qed.
Lemma first_le t c cs d ds : chunking key t (c :: cs) -> chunking key t (d :: ds) -> length d <= length c.
Proof.
  intros [A1 A2 A3 A4] [B1 B2 B3 B4]. destruct (le_lt_dec (length d) (length c)) as [|Hlt]; [assumption|exfalso].
  cbn [concat] in A1, B1. destruct cs as [|c2 cs].
  - cbn in A1. rewrite app_nil_r in A1. rewrite <- A1 in B1. apply (f_equal (@length E)) in B1. rewrite app_length in B1. lia.
  - assert (c2 <> []) by (inversion A2; subst; inversion H2; assumption). destruct c2 as [|y c2]; [congruence|].
    assert (c <> []) by (inversion A2; assumption). destruct c as [|x c]; [congruence|].
    assert (Hy : nth_error t (length (x :: c)) = Some y) by (rewrite <- A1; exact (nth_mid (x :: c) y (c2 ++ concat cs))).
    assert (Hx : nth_error t 0 = Some x) by (rewrite <- A1; reflexivity).
    rewrite <- B1 in Hy, Hx. rewrite nth_error_app1 in Hy by lia. rewrite nth_error_app1 in Hx by (cbn [length] in Hlt; lia).
    apply (A4 0 (x :: c) (y :: c2) x y); [reflexivity|reflexivity|left; reflexivity|left; reflexivity|].
    apply (B3 d); [left; reflexivity|eapply nth_error_In; exact Hx|eapply nth_error_In; exact Hy].
Qed.
Lemma chunking_unique cs : forall t ds, chunking key t cs -> chunking key t ds -> cs = ds.
Proof.
  induction cs as [|c cs IH]; intros t [|d ds] A B.
  - reflexivity.
  - exfalso. destruct A as [A1 _ _ _], B as [B1 B2 _ _]. cbn in A1, B1. subst t. inversion B2; subst. destruct d; [congruence|discriminate].
  - exfalso. destruct A as [A1 A2 _ _], B as [B1 _ _ _]. cbn in A1, B1. subst t. inversion A2; subst. destruct c; [congruence|discriminate].
  - pose proof (first_le _ _ _ _ _ A B). pose proof (first_le _ _ _ _ _ B A).
    assert (Hcd : c = d /\ concat cs = concat ds).
    { destruct A as [A1 _ _ _], B as [B1 _ _ _]. cbn [concat] in A1, B1. rewrite <- B1 in A1. 
      assert (Hl : length c = length d) by lia. clear -A1 Hl. revert d A1 Hl. induction c as [|x c IHc]; intros [|y d] A1 Hl; try discriminate Hl; [split; [reflexivity|exact A1]|].
      cbn [app] in A1. injection A1 as -> A1. destruct (IHc d A1) as [-> H]; [cbn in Hl; lia|]. split; [reflexivity|exact H]. }
    destruct Hcd as [-> Hcc]. f_equal. apply (IH (concat cs)); [apply chunking_tail in A; exact A|]. rewrite Hcc. apply chunking_tail in B. exact B.
Qed.
End Chunks.

Section ChunkBy.
Context {E T : Type}.
Variable ty : E -> T.
Variable same : T -> T -> bool.
Hypothesis same_ok : decides same.
Variable proj : T -> T.
Let key (e : E) := proj (ty e).
Lemma neighbour_tests_ok x rest : neighbour_tests ty same proj (x :: rest) = Some (tests_for key same x rest).
Proof.
  unfold neighbour_tests, tuple_size. cbn [length]. rewrite Nat.sub_0_r || replace (S (length rest) - 1) with (length rest) by lia.
  apply pack_ok; [apply tests_for_length|]. intros i Hi. rewrite tests_for_nth by exact Hi. reflexivity.
Qed.
Lemma pack_slices (t : list E) cs f : (forall c, f c = slice t c) ->
  pack (length cs) (fun i => match nth_error cs i with Some c => f c | None => None end) = mapo (slice t) cs.
Proof. intros H. rewrite pack_via. apply mapo_ext. intros c _. apply H. Qed.
Lemma chunk_by_ok t : exists cs, chunk_by ty same proj t = Some cs /\ chunking key t cs.
Proof.
  unfold chunk_by. destruct t as [|x [|y rest]]; cbn [tuple_size length].
  - exists []. split; [reflexivity|apply chunking_nil].
  - exists [[x]]. split; [reflexivity|apply (chunking_one key same same_ok)].
  - unfold tuple_size. cbn [length]. rewrite neighbour_tests_ok. unfold create_chunks. rewrite chunks_ok by apply count_chunks_ok.
    rewrite (pack_slices (x :: y :: rest)) by (intros c; reflexivity).
    pose proof (slices_ok (x :: y :: rest) (y :: rest) [] [x] (tests_for key same x (y :: rest)) eq_refl (tests_for_length _ _ _ _)) as S0. cbn [length] in S0. rewrite S0.
    eexists. split; [reflexivity|]. exact (cut_ok key same same_ok (y :: rest) [x] x (or_introl eq_refl) (fun z H => match H with or_introl e => f_equal key (eq_sym e) | or_intror f => match f with end end)).
Qed.
End ChunkBy.

Lemma unique_ok {E T} (ty : E -> T) same (same_ok : decides same) t :
  exists cs r, chunking ty t cs /\ unique ty same t = Some r /\ Forall2 (fun c e => nth_error c 0 = Some e) cs r.
Proof.
  destruct (chunk_by_ok ty same same_ok (fun x => x) t) as [cs [H1 H2]]. unfold unique. rewrite H1.
  assert (exists r, mapo (fun c : list E => get c 0) cs = Some r) as [r Hr].
  { pose proof (nonempty _ _ _ H2) as Hn. clear -Hn. induction Hn as [|c cs Hc _ [r IH]]; [exists []; reflexivity|]. destruct c as [|x c]; [congruence|]. cbn [mapo]. rewrite IH. eexists; reflexivity. }
  exists cs, r. split; [exact H2|]. split; [exact Hr|]. apply mapo_Forall2 in Hr. exact Hr.
Qed.

(** ** Names *)
Lemma name_lt_irrefl a : ~ name_lt a a.
Proof. induction a as [|x a IH]; cbn; [tauto|]. intros [H|[_ H]]; [lia|tauto]. Qed.
Lemma name_lt_trans a : forall b c, name_lt a b -> name_lt b c -> name_lt a c.
Proof.
  induction a as [|x a IH]; intros [|y b] [|z c]; cbn; try tauto. intros [H1|[H1 H1']] [H2|[H2 H2']]; try (left; lia). right. split; [lia|]. eapply IH; eassumption.
Qed.
Lemma name_lt_total a : forall b, name_lt a b \/ a = b \/ name_lt b a.
Proof.
  induction a as [|x a IH]; intros [|y b]; cbn; try tauto. destruct (N.lt_total x y) as [H|[H|H]]; [tauto| |tauto]. subst y.
  destruct (IH b) as [H|[H|H]]; [tauto|subst; tauto|tauto].
Qed.
Lemma name_squeeze a b c : ~ name_lt b a -> ~ name_lt c b -> a = c -> a = b.
Proof. intros H1 H2 ->. destruct (name_lt_total b c) as [H|[H|H]]; [tauto|congruence|tauto]. Qed.

Section Sort.
Context {E T : Type}.
Variable ty : E -> T.
Variable proj : T -> T.
Variable name : T -> list N.
Variable std_sort : list (list N * nat) -> list (list N * nat).
Hypothesis sort_ok : sorts std_sort.
Let nm (e : E) := name (proj (ty e)).
Lemma nth_error_combine_seq {X} (l : list X) : forall a i, nth_error (combine (seq a (length l)) l) i = match nth_error l i with Some x => Some (a + i, x) | None => None end.
Proof.
  induction l as [|x l IH]; intros a [|i]; try reflexivity; cbn [length seq combine nth_error].
  - rewrite Nat.add_0_r. reflexivity.
  - rewrite IH. replace (S a + i) with (a + S i) by lia. reflexivity.
Qed.
Lemma sort_ok' t : exists idx s, sorted_indices ty proj name std_sort t = Some idx /\ length idx = length t /\ mapo (get t) idx = Some s /\
  Permutation t s /\ ordered nm s.
Proof.
  set (a := map (fun ie => (nm (snd ie), fst ie)) (combine (seq 0 (length t)) t)).
  assert (Ha : pack (tuple_size t) (fun i => match get t i with Some e => Some (name (proj (ty e)), i) | None => None end) = Some a).
  { apply pack_ok; [unfold a; rewrite map_length, combine_length, seq_length, Nat.min_id; reflexivity|]. intros i Hi. unfold a.
    rewrite nth_error_map, nth_error_combine_seq. unfold get. destruct (nth_error t i); reflexivity. }
  destruct (sort_ok a) as [P O]. set (b := std_sort a) in *.
  assert (Lb : length b = length t). { rewrite <- (Permutation_length P). exact (pack_length _ _ _ Ha). }
  assert (Hb : Forall (fun p => exists e, nth_error t (snd p) = Some e /\ fst p = nm e) b).
  { rewrite Forall_forall. intros p Hp. apply (Permutation_in _ (Permutation_sym P)) in Hp. unfold a in Hp. apply in_map_iff in Hp. destruct Hp as [[i e] [<- Hin]].
    apply In_nth_error in Hin. destruct Hin as [k Hk]. rewrite nth_error_combine_seq in Hk. cbn [fst snd]. destruct (nth_error t k) eqn:Ek; [|discriminate]. injection Hk as <- <-. eauto. }
  assert (Hs : exists s, Forall2 (fun p e => nth_error t (snd p) = Some e /\ fst p = nm e) b s).
  { clear -Hb. induction Hb as [|p b [e He] _ [s IH]]; [exists []; constructor|]. exists (e :: s). constructor; assumption. }
  destruct Hs as [s Hs]. exists (map snd b), s. split.
  - unfold sorted_indices. rewrite Ha. fold b. apply pack_ok; [rewrite map_length; exact Lb|]. intros i _. rewrite nth_error_map. destruct (nth_error b i); reflexivity.
  - split; [rewrite map_length; exact Lb|]. split; [|split].
    + rewrite mapo_map. apply mapo_Forall2. clear -Hs. induction Hs as [|p e b s [H _] _ IH]; constructor; assumption.
    + (* s is t read through a permutation of its indices *)
      assert (Ps : Permutation (map snd a) (map snd b)) by (apply Permutation_map; exact P).
      assert (Hsa : map snd a = seq 0 (length t)).
      { unfold a. rewrite map_map. cbn [snd]. clear. generalize 0. induction t as [|x l IH]; intros n; [reflexivity|]. cbn [length seq combine map fst]. rewrite IH. reflexivity. }
      rewrite Hsa in Ps.
      assert (M1 : map Some t = map (nth_error t) (seq 0 (length t))).
      { apply nth_error_eq. intros i. rewrite !nth_error_map. rewrite nth_seq_from. destruct (Nat.ltb_spec i (length t)) as [H|H].
        - cbn. destruct (nth_error t i) eqn:Ei; [reflexivity|apply nth_error_None in Ei; lia].
        - cbn. destruct (nth_error t i) eqn:Ei; [|reflexivity]. assert (i < length t) by (apply nth_error_Some; congruence). lia. }
      assert (M2 : map Some s = map (nth_error t) (map snd b)).
      { clear -Hs. induction Hs as [|p e b s [H _] _ IH]; [reflexivity|]. cbn [map]. rewrite IH, H. reflexivity. }
      assert (PS : Permutation (map Some t) (map Some s)) by (rewrite M1, M2; apply Permutation_map; exact Ps).
      apply (Permutation_map (fun o => match o with Some e => [e] | None => [] end)) in PS. rewrite !map_map in PS.
      assert (Cc : forall l : list E, concat (map (fun x => [x]) l) = l) by (induction l as [|x l IH]; [reflexivity|cbn; rewrite IH; reflexivity]).
      rewrite <- (Cc t), <- (Cc s). clear -PS. induction PS as [| |x y l|]; cbn; [constructor|apply Permutation_app_head; assumption|rewrite !app_assoc; apply Permutation_app_tail, Permutation_app_comm|eapply Permutation_trans; eassumption].
    + intros i j x y Hij Hx Hy.
      assert (G : forall i x, nth_error s i = Some x -> exists p, nth_error b i = Some p /\ fst p = nm x).
      { clear -Hs. induction Hs as [|p e b s [_ H] _ IH]; intros [|i] x Hx; try discriminate; cbn [nth_error] in *; [injection Hx as <-; eauto|apply IH; exact Hx]. }
      destruct (G i x Hx) as [p [Hp Ep]], (G j y Hy) as [q [Hq Eq]]. unfold nm. fold (nm x) (nm y). rewrite <- Ep, <- Eq. exact (O i j p q Hij Hp Hq).
Qed.
Lemma sort_correct t : exists s, sort ty proj name std_sort t = Some s /\ Permutation t s /\ ordered nm s.
Proof.
  destruct (sort_ok' t) as [idx [s [H1 [H2 [H3 [H4 H5]]]]]]. exists s. split; [|split; assumption]. unfold sort. rewrite H1. unfold tuple_size. rewrite <- H2, pack_via. exact H3.
Qed.

Lemma ordered_app {X} (f : X -> list N) a b x y : ordered f (a ++ b) -> In x a -> In y b -> ~ name_lt (f y) (f x).
Proof.
  intros O Hx Hy. apply In_nth_error in Hx. apply In_nth_error in Hy. destruct Hx as [i Hi], Hy as [j Hj].
  assert (i < length a) by (apply nth_error_Some; congruence).
  apply (O i (length a + j)); [lia|rewrite nth_error_app1 by assumption; exact Hi|rewrite nth_error_app2 by lia; replace (length a + j - length a) with j by lia; exact Hj].
Qed.
Lemma concat_split {X} (cs : list (list X)) i j c d : i < j -> nth_error cs i = Some c -> nth_error cs j = Some d ->
  exists a b, concat cs = a ++ b /\ (forall x, In x c -> In x a) /\ (forall y, In y d -> In y b).
Proof.
  revert i j. induction cs as [|e cs IH]; intros [|i] [|j] Hij H1 H2; try discriminate; try lia; cbn [nth_error concat] in *.
  - injection H1 as ->. exists c, (concat cs). split; [reflexivity|]. split; [tauto|]. intros y Hy. apply in_concat. exists d. split; [eapply nth_error_In; exact H2|exact Hy].
  - destruct (IH i j) as [a [b [Hc [Ha Hb]]]]; [lia|assumption|assumption|]. exists (e ++ a), b. split; [rewrite Hc, app_assoc; reflexivity|]. split; [intros; apply in_or_app; right; auto|exact Hb].
Qed.
Variable same : T -> T -> bool.
Hypothesis same_ok : decides same.
Hypothesis name_inj : injective name.
Let key (e : E) := proj (ty e).
(** The chunks of an ordered tuple are in strict name order. *)
Lemma ordered_chunks s cs : ordered nm s -> chunking key s cs ->
  forall i j c d x y, i < j -> nth_error cs i = Some c -> nth_error cs j = Some d -> In x c -> In y d -> name_lt (nm x) (nm y).
Proof.
  intros O C i j c d x y Hij Hc Hd Hx Hy.
  assert (L : forall i j c d x y, i < j -> nth_error cs i = Some c -> nth_error cs j = Some d -> In x c -> In y d -> ~ name_lt (nm y) (nm x)).
  { clear i j c d x y Hij Hc Hd Hx Hy. intros i j c d x y Hij Hc Hd Hx Hy. destruct (concat_split cs i j c d Hij Hc Hd) as [a [b [Hab [Ha Hb]]]].
    rewrite (cuts _ _ _ C) in Hab. rewrite Hab in O. eapply ordered_app; [exact O|apply Ha; exact Hx|apply Hb; exact Hy]. }
  destruct (name_lt_total (nm x) (nm y)) as [H|[H|H]]; [exact H|exfalso|exfalso; exact (L i j c d x y Hij Hc Hd Hx Hy H)].
  destruct (nth_error cs (S i)) as [c'|] eqn:Ec'; [|apply nth_error_None in Ec'; assert (j < length cs) by (apply nth_error_Some; congruence); lia].
  assert (Hz : exists z, In z c'). { pose proof (nonempty _ _ _ C) as Hn. rewrite Forall_forall in Hn. specialize (Hn c' (nth_error_In _ _ Ec')). destruct c' as [|z c']; [congruence|]. exists z. left. reflexivity. }
  destruct Hz as [z Hz]. apply (maximal _ _ _ C i c c' x z Hc Ec' Hx Hz).
  assert (nm x = nm z).
  { destruct (Nat.eq_dec (S i) j) as [<-|Hn].
    - assert (c' = d) by congruence. subst d. rewrite H. unfold nm. f_equal. exact (homogeneous _ _ _ C c' y z (nth_error_In _ _ Hd) Hy Hz).
    - apply (name_squeeze (nm x) (nm z) (nm y)); [exact (L i (S i) c c' x z (Nat.lt_succ_diag_r i) Hc Ec' Hx Hz)|apply (L (S i) j c' d z y); [lia|assumption..]|exact H]. }
  apply name_inj. assumption.
Qed.
Lemma gather_by_ok t : exists cs, gather_by ty same proj name std_sort t = Some cs /\ grouping key t cs /\
  (forall i j c d x y, i < j -> nth_error cs i = Some c -> nth_error cs j = Some d -> In x c -> In y d -> name_lt (nm x) (nm y)).
Proof.
  assert (G : exists cs s, gather_by ty same proj name std_sort t = Some cs /\ Permutation t s /\ ordered nm s /\ chunking key s cs).
  { unfold gather_by. destruct t as [|x [|y rest]].
    - exists [], []. split; [reflexivity|]. split; [constructor|]. split; [intros [|i] j ? ? ? H; discriminate|apply chunking_nil].
    - exists [[x]], [x]. split; [reflexivity|]. split; [apply Permutation_refl|]. split; [|apply (chunking_one key same same_ok)].
      intros i j a b Hij Ha Hb. destruct j as [|[|j]]; [lia|discriminate|discriminate].
    - set (t := x :: y :: rest). destruct (sort_ok' t) as [idx [s [H1 [H2 [H3 [H4 H5]]]]]]. rewrite H1.
      assert (Ls : length s = length t) by (rewrite <- H2; exact (mapo_length _ _ _ H3)).
      change (tuple_size t) with (S (S (length rest))) at 1. cbn match. replace (tuple_size t - 1) with (length s - 1) by (unfold tuple_size; rewrite Ls; reflexivity).
      assert (Hget : forall i, match nth_error idx i with Some j => get t j | None => None end = nth_error s i).
      { intros i. destruct (nth_error idx i) as [j|] eqn:Ej; [symmetry; exact (mapo_nth _ _ _ _ _ H3 Ej)|]. apply nth_error_None in Ej. symmetry. apply nth_error_None. lia. }
      destruct s as [|s0 s']; [discriminate Ls|].
      assert (Ht : pack (length (s0 :: s') - 1) (fun i => match nth_error idx i with Some x0 => match nth_error idx (i + 1) with Some y0 => test_pair ty same proj t x0 y0 | None => None end | None => None end)
                   = Some (tests_for key same s0 s')).
      { cbn [length]. replace (S (length s') - 1) with (length s') by lia. apply pack_ok; [apply tests_for_length|]. intros i Hi. rewrite tests_for_nth by exact Hi.
        rewrite <- !Hget. unfold test_pair. destruct (nth_error idx i) as [u|]; [|reflexivity]. destruct (nth_error idx (i + 1)) as [v|]; [|destruct (get t u); reflexivity]. reflexivity. }
      rewrite Ht. rewrite Nat.add_1_r. fold (falses (tests_for key same s0 s')).
      pose proof (chunks_ok (tests_for key same s0 s') _ eq_refl) as C.
      destruct (bump (repeat (Chunk 0 0) (S (falses (tests_for key same s0 s')))) 0) as [cs0|]; [|discriminate C]. rewrite C.
      rewrite (pack_slices (s0 :: s')).
      2: { intros c. unfold slice. apply mapo_ext. intros j _. apply Hget. }
      pose proof (slices_ok (s0 :: s') s' [] [s0] (tests_for key same s0 s') eq_refl (tests_for_length _ _ _ _)) as S0. cbn [length] in S0. rewrite S0.
      exists (cut [s0] s' (tests_for key same s0 s')), (s0 :: s'). split; [reflexivity|]. split; [exact H4|]. split; [exact H5|].
      exact (cut_ok key same same_ok s' [s0] s0 (or_introl eq_refl) (fun z H => match H with or_introl e => f_equal key (eq_sym e) | or_intror f => match f with end end)). }
  destruct G as [cs [s [H1 [H2 [H3 H4]]]]]. exists cs. split; [exact H1|]. pose proof (ordered_chunks s cs H3 H4) as L. split; [|exact L]. split.
  - rewrite (cuts _ _ _ H4). exact H2.
  - exact (nonempty _ _ _ H4).
  - exact (homogeneous _ _ _ H4).
  - intros i j c d x y Hc Hd Hx Hy Hk. assert (Hn : nm x = nm y) by (unfold nm; f_equal; exact Hk).
    destruct (lt_eq_lt_dec i j) as [[Hij|Hij]|Hij]; [exfalso|exact Hij|exfalso].
    + pose proof (L i j c d x y Hij Hc Hd Hx Hy) as F. rewrite Hn in F. exact (name_lt_irrefl _ F).
    + pose proof (L j i d c y x Hij Hd Hc Hy Hx) as F. rewrite Hn in F. exact (name_lt_irrefl _ F).
Qed.
End Sort.
