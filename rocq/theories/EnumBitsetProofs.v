From Verif Require Import Base BitModel BitLemmas BitSpec BitsetModel BitsetSpec BitsetProofs BitsetProofs2 EnumBitsetModel EnumBitsetSpec.
Open Scope Z_scope.

Lemma filter_none {A} (p : A -> bool) l : filter p l = [] <-> forallb (fun x => negb (p x)) l = true.
Proof. induction l as [|x l IH]; cbn; [tauto|]. destruct (p x); cbn; [split; discriminate|exact IH]. Qed.
Lemma filter_all_len {A} (p : A -> bool) l : (length (filter p l) = length l)%nat <-> forallb p l = true.
Proof.
  assert (H : forall l : list A, (length (filter p l) <= length l)%nat) by (induction l0 as [|y k]; cbn; [lia|destruct (p y); cbn; lia]).
  induction l as [|x l IH]; cbn; [tauto|]. destruct (p x); cbn.
  - rewrite <- IH. lia.
  - split; [intros E|discriminate]. pose proof (H l). lia.
Qed.
Lemma filter_same {A} (p q : A -> bool) l : filter p l = filter q l <-> forallb (fun x => eqb (p x) (q x)) l = true.
Proof.
  split.
  - intros E. apply forallb_forall. intros x Hx. apply eqb_true_iff.
    pose proof (filter_In p x l) as F. pose proof (filter_In q x l) as G. rewrite E in F. rewrite F in G.
    destruct G as (G1 & G2). destruct (p x), (q x); try reflexivity.
    + destruct (G1 (conj Hx eq_refl)); discriminate.
    + destruct (G2 (conj Hx eq_refl)); discriminate.
  - intros H. apply filter_ext_in. intros x Hx. rewrite forallb_forall in H. apply eqb_true_iff, H, Hx.
Qed.
Lemma forallb_map {A B} (f : A -> B) (p : B -> bool) l : forallb p (map f l) = forallb (fun x => p (f x)) l.
Proof. induction l as [|x l IH]; cbn; [reflexivity|]. rewrite IH. reflexivity. Qed.
Lemma existsb_negb {A} (p : A -> bool) l : existsb p l = negb (forallb (fun x => negb (p x)) l).
Proof. induction l as [|x l IH]; cbn; [reflexivity|]. rewrite IH. destruct (p x); reflexivity. Qed.
Lemma rd_map {A B} (f : A -> B) l i : rd (map f l) i = option_map f (rd l i).
Proof. unfold rd, len. rewrite map_length. destruct (i <? _)%N; [|reflexivity]. apply nth_error_map. Qed.
Lemma set_nth_map {A B} (f : A -> B) l : forall k v, map f (set_nth k v l) = set_nth k (f v) (map f l).
Proof. induction l as [|x l IH]; intros [|k] v; cbn; [reflexivity..|]. rewrite IH. reflexivity. Qed.
Lemma wr_map {A B} (f : A -> B) l i v : wr (map f l) i (f v) = option_map (map f) (wr l i v).
Proof. unfold wr, len. rewrite map_length. destruct (i <? _)%N; [|reflexivity]. cbn. rewrite set_nth_map. reflexivity. Qed.

Lemma size_mod_Z : Z.of_N size_mod = 2 ^ 64.
Proof. Transparent size_mod. reflexivity. Opaque size_mod. Qed.

Section E.
Context (pl : platform) (w : N) (same64 : bool) (Size : index).
Context (HE : enum_ok pl w Size) (H64 : same64 = true -> w = 64%N).
Let M := value Size.
Let n := Z.to_N M.

Lemma M_pos : 0 < M. Proof. apply HE. Qed.
Lemma n_small : (0 < n < size_mod)%N. Proof. destruct HE as ((_ & _ & _ & A & B) & _). unfold n, M. lia. Qed.
Lemma size_n : size Size = n.
Proof.
  pose proof n_small. pose proof M_pos. unfold size, to_size_t. fold M. unfold n. f_equal. apply Z.mod_small.
  pose proof size_mod_Z as Q. revert Q. generalize (2 ^ 64). unfold n in *. lia.
Qed.
Lemma index_n z : 0 <= z < M -> to_size_t z = Z.to_N z.
Proof.
  intros H. pose proof n_small. unfold to_size_t. f_equal. apply Z.mod_small.
  pose proof size_mod_Z as Q. revert Q. generalize (2 ^ 64). unfold n in *. lia.
Qed.
Lemma iter_id i : (i <= n)%N -> iter_arg Size i = Z.of_N i.
Proof.
  intros Hi. unfold iter_arg. destruct HE as (_ & P & T). fold M in P, T. unfold n in Hi.
  destruct (type_of Size) as [s b|e s b]; cbn [is_enum]; [reflexivity|]. unfold cast. destruct T as (Hb & T).
  assert (E : 2 ^ Z.of_N b = 2 * 2 ^ (Z.of_N b - 1)) by (rewrite <- Z.pow_succ_r by lia; f_equal; lia).
  assert (P1 : 0 < 2 ^ (Z.of_N b - 1)) by (apply Z.pow_pos_nonneg; lia).
  destruct s.
  - rewrite Z.mod_small by lia. cbn [andb]. destruct (Z.leb_spec (2 ^ (Z.of_N b - 1)) (Z.of_N i)); lia.
  - rewrite Z.sub_0_r in T. rewrite Z.mod_small by lia. reflexivity.
Qed.

Lemma below_alt : below M = map Z.of_N (map N.of_nat (seq 0 (N.to_nat n))).
Proof. unfold below, n. rewrite map_map, Z_N_nat. apply map_ext. intros. lia. Qed.
Lemma In_below z : In z (below M) <-> 0 <= z < M.
Proof.
  unfold below. rewrite in_map_iff. split.
  - intros (k & <- & H). apply in_seq in H. lia.
  - intros H. exists (Z.to_nat z). split; [lia|]. apply in_seq. lia.
Qed.
Lemma such_ext p q : (forall z, 0 <= z < M -> p z = q z) -> such_that M p = such_that M q.
Proof. intros H. apply filter_ext_in. intros z Hz. apply H, In_below, Hz. Qed.
Lemma mem_such p z : 0 <= z < M -> mem z (such_that M p) = p z.
Proof.
  intros Hz. unfold mem. destruct (p z) eqn:E.
  - apply existsb_exists. exists z. split; [|apply Z.eqb_refl]. apply filter_In. split; [apply In_below; exact Hz|exact E].
  - apply not_true_is_false. intros H. apply existsb_exists in H. destruct H as (y & Hy & Ey). apply Z.eqb_eq in Ey. subst y.
    apply filter_In in Hy. rewrite E in Hy. destruct Hy; discriminate.
Qed.
Lemma indices_such f : map Z.of_N (indices_where n f) = such_that M (fun z => f (Z.to_N z)).
Proof.
  unfold indices_where, such_that. rewrite below_alt. generalize (map N.of_nat (seq 0 (N.to_nat n))). intros l.
  induction l as [|x l IH]; cbn; [reflexivity|]. rewrite N2Z.id. destruct (f x); cbn; rewrite IH; reflexivity.
Qed.
Lemma len_indices f : len (indices_where n f) = len (such_that M (fun z => f (Z.to_N z))).
Proof. rewrite <- indices_such. unfold len. rewrite map_length. reflexivity. Qed.

Definition conv (b : list bool) : list Z := such_that M (fun z => bit b (Z.to_N z)).
Lemma conv_tab F : conv (tab n F) = such_that M (fun z => F (Z.to_N z)).
Proof. apply such_ext. intros z Hz. apply bit_tab. unfold n. lia. Qed.
Lemma mem_conv z b : 0 <= z < M -> mem z (conv b) = bit b (Z.to_N z).
Proof. apply mem_such. Qed.
Lemma conv_nil : conv [] = [].
Proof.
  unfold conv, such_that. apply filter_none. apply forallb_forall. intros x _. unfold bit, rd, len. cbn [length].
  destruct (N.ltb_spec (Z.to_N x) (N.of_nat 0)); [lia|reflexivity].
Qed.
Lemma var_conv mb r : var (map conv mb) r = conv (reg mb r).
Proof. unfold var, reg. rewrite rd_map. destruct (rd mb r); cbn [option_map]; [reflexivity|]. symmetry. apply conv_nil. Qed.

Definition sized (mb : regs) : Prop := Forall (fun b => exists f, b = tab n f) mb.
Lemma R_sized c st mb : R n w c st mb -> sized mb.
Proof. intros H. unfold sized. induction H as [|s b st mb V H IH]; constructor; [|exact IH]. exists (ab w s). apply V. Qed.
Lemma reg_tab mb r : sized mb -> (r < len mb)%N -> exists f, reg mb r = tab n f.
Proof.
  intros H Hr. unfold reg. destruct (rd mb r) as [b|] eqn:E.
  - unfold rd in E. destruct (r <? len mb)%N; [|discriminate]. apply nth_error_In in E. unfold sized in H. rewrite Forall_forall in H. apply H, E.
  - unfold rd in E. rewrite (proj2 (N.ltb_lt _ _) Hr) in E. apply nth_error_None in E. unfold len in Hr. lia.
Qed.

(** The observers on a whole register. *)
Lemma forallb_ext {A} (p q : A -> bool) l : (forall x, p x = q x) -> forallb p l = forallb q l.
Proof. intros H. induction l as [|x l IH]; cbn; [reflexivity|]. rewrite H, IH. reflexivity. Qed.
Lemma forallb_tab (p : bool -> bool) f : forallb p (tab n f) = forallb (fun z => p (f (Z.to_N z))) (below M).
Proof. rewrite tab_alt, below_alt, !forallb_map. apply forallb_ext. intros x. rewrite N2Z.id. reflexivity. Qed.
Lemma len_zero {A} (l : list A) : (len l =? 0)%N = true <-> l = [].
Proof. destruct l; cbn; split; intros H; try reflexivity; try discriminate. Qed.
Lemma empty_conv f : forallb negb (tab n f) = (len (conv (tab n f)) =? 0)%N.
Proof.
  rewrite forallb_tab, conv_tab. apply eq_true_iff_eq. rewrite len_zero. symmetry. apply filter_none.
Qed.
Lemma any_conv f : existsb (fun b => b) (tab n f) = negb (len (conv (tab n f)) =? 0)%N.
Proof. rewrite existsb_negb. f_equal. apply empty_conv. Qed.
Lemma len_below : Z.of_N (len (below M)) = M.
Proof. pose proof M_pos. unfold len, below. rewrite map_length, seq_length. lia. Qed.
Lemma all_conv f : forallb (fun b => b) (tab n f) = (Z.of_N (len (conv (tab n f))) =? M).
Proof.
  rewrite forallb_tab, conv_tab. apply eq_true_iff_eq. rewrite Z.eqb_eq, <- filter_all_len. fold (such_that M (fun z => f (Z.to_N z))).
  pose proof len_below. unfold len in *. lia.
Qed.
Lemma eq_conv a b : forallb (fun i => eqb (bit a i) (bit b i)) (map N.of_nat (seq 0 (N.to_nat n)))
  = if list_eq_dec Z.eq_dec (conv a) (conv b) then true else false.
Proof.
  assert (E : forallb (fun i => eqb (bit a i) (bit b i)) (map N.of_nat (seq 0 (N.to_nat n)))
    = forallb (fun z => eqb (bit a (Z.to_N z)) (bit b (Z.to_N z))) (below M)).
  { rewrite below_alt, !forallb_map. apply forallb_ext. intros x. rewrite N2Z.id. reflexivity. }
  rewrite E. destruct (list_eq_dec Z.eq_dec (conv a) (conv b)) as [e|e].
  - apply filter_same in e. exact e.
  - apply not_true_is_false. intros H. apply e. apply filter_same. exact H.
Qed.
Lemma map_iter f : map (iter_arg Size) (indices_where n f) = such_that M (fun z => f (Z.to_N z)).
Proof.
  rewrite <- indices_such. apply map_ext_in. intros i Hi. apply iter_id. unfold indices_where in Hi. apply filter_In in Hi.
  destruct Hi as (Hi & _). apply in_map_iff in Hi. destruct Hi as (k & <- & Hk). apply in_seq in Hk. lia.
Qed.

(** One call. *)
Definition Rel (c : bool) (st : list storage) (me : sets) : Prop := exists mb, R n w c st mb /\ me = map conv mb.

Lemma write_spec me c o r F p mb mb' : eeffect M me c = (Some (r, p), EUnit) -> o = EUnit -> me = map conv mb -> wr mb r (tab n F) = Some mb' ->
  (forall z, 0 <= z < M -> F (Z.to_N z) = p z) -> espec M me c o (map conv mb').
Proof.
  intros E -> -> Hw H. unfold espec. rewrite E. split; [reflexivity|]. cbn [fst].
  assert (X : such_that M p = conv (tab n F)) by (rewrite conv_tab; apply such_ext; intros z Hz; symmetry; apply H, Hz).
  rewrite X, wr_map, Hw. reflexivity.
Qed.
Lemma eqb_N z i : 0 <= z -> 0 <= i -> (Z.to_N z =? Z.to_N i)%N = (z =? i).
Proof. intros. destruct (N.eqb_spec (Z.to_N z) (Z.to_N i)), (Z.eqb_spec z i); try reflexivity; lia. Qed.

Lemma estep_sim c st me call : Rel c st me -> epre M me call -> (c = false -> looks_above call = false) -> (c = true -> untidy n w (lower call) = false) ->
  exists st' o me', estep pl w same64 Size st call = Done st' o [] /\ espec M me call o me' /\ Rel c st' me'.
Proof.
  intros (mb & HR & ->) Hp Hs Hu. destruct HE as ((P1 & P2 & P3 & P4 & P5) & _).
  assert (Hlen : forall r, has_var (map conv mb) r -> has mb r) by (intros r H; unfold has_var, has, len in *; rewrite map_length in H; exact H).
  assert (Hbp : bpre n w same64 mb (lower call)).
  { assert (HI : forall x, in_range M x -> (to_size_t (value x) < n)%N) by (intros x Hx; unfold in_range in Hx; rewrite index_n by exact Hx; unfold n; lia).
    destruct call; cbn [lower bpre epre] in *; try (apply Hlen; exact Hp); try (destruct Hp as (A & B); auto; fail); try (destruct Hp as (A & B & C); auto; fail).
    destruct Hp as (A & B). split; [auto|]. clear - B HI. induction B; cbn; constructor; auto. }
  destruct (bstep_sim pl n w P1 P2 P3 P4 P5 same64 c st mb (lower call) H64 HR Hbp) as (st' & o & mb' & E & Sp & HR').
  { intros e. specialize (Hs e). destruct call; cbn in *; try reflexivity; discriminate. }
  { exact Hu. }
  exists st', (lift Size call o), (map conv mb'). unfold estep. rewrite size_n, E. split; [reflexivity|]. split; [|exists mb'; auto].
  clear E. pose proof (R_sized _ _ _ HR) as HS.
  assert (V1 : forall z r, 0 <= z < M -> mem z (var (map conv mb) r) = bit (reg mb r) (Z.to_N z)) by (intros z r Hz; rewrite var_conv; apply mem_conv, Hz).
  unfold bspec in Sp.
  destruct call; cbn [lower beffect] in Sp; destruct Sp as (-> & Sp); cbn [lift];
    try (eapply write_spec; [reflexivity|reflexivity|reflexivity|exact Sp|]; intros z Hz; cbn beta; rewrite ?V1 by exact Hz; try reflexivity);
    try (unfold espec; cbn [eeffect fst snd]; split; [|subst mb'; reflexivity]; rewrite ?var_conv).
  - (* place *) unfold mem. destruct Hp as (_ & B). clear - B Hz HE H64 M n. induction B as [|x xs Hx B IH]; cbn [map existsb]; [reflexivity|]. rewrite IH. f_equal.
    unfold in_range in Hx. rewrite index_n by exact Hx. apply eqb_N; lia.
  - destruct Hp as (_ & B). unfold in_range in B. rewrite index_n by exact B. rewrite eqb_N by lia. reflexivity.
  - destruct Hp as (_ & B). unfold in_range in B. rewrite index_n by exact B. rewrite eqb_N by lia. destruct (z =? value x); reflexivity.
  - destruct Hp as (_ & B). unfold in_range in B. rewrite index_n by exact B. rewrite eqb_N by lia. reflexivity.
  - destruct Hp as (_ & B). unfold in_range in B. rewrite index_n by exact B. rewrite mem_conv by exact B. reflexivity.
  - f_equal. apply eq_conv.
  - f_equal. apply len_indices.
  - destruct (reg_tab mb r HS (Hlen r Hp)) as (f & ->). f_equal. apply empty_conv.
  - destruct (reg_tab mb r HS (Hlen r Hp)) as (f & ->). f_equal. apply all_conv.
  - destruct (reg_tab mb r HS (Hlen r Hp)) as (f & ->). f_equal. apply any_conv.
  - destruct (reg_tab mb r HS (Hlen r Hp)) as (f & ->). f_equal. apply empty_conv.
  - f_equal. apply map_iter.
  - f_equal. rewrite map_iter. apply such_ext. intros z Hz. rewrite mem_conv by exact Hz. reflexivity.
  - f_equal. rewrite below_alt, !map_map. apply map_ext_in. intros k Hk. apply in_seq in Hk. cbn [fst snd].
    rewrite iter_id by lia. f_equal. rewrite mem_conv by (unfold n in *; lia). rewrite N2Z.id. reflexivity.
  - f_equal. assert (E : such_that M (fun z => negb (mem z (conv (reg mb r)))) = map (iter_arg Size) (indices_where n (fun i => negb (bit (reg mb r) i)))).
    { rewrite map_iter. apply such_ext. intros z Hz. rewrite mem_conv by exact Hz. reflexivity. }
    rewrite E. destruct (indices_where n (fun i => negb (bit (reg mb r) i))) as [|i l]; cbn [map]; [|reflexivity].
    rewrite iter_id by lia. pose proof M_pos. unfold n. lia.
  - f_equal. apply map_iter.
Qed.

Lemma initial_rel c k : Rel c (repeat (make n w) k) (repeat [] k).
Proof.
  destruct HE as ((P1 & P2 & P3 & P4 & P5) & _). exists (repeat (tab n (fun _ => false)) k). split; [apply (initial pl n w); assumption|].
  assert (E : conv (tab n (fun _ => false)) = []) by (rewrite conv_tab; unfold such_that; apply filter_none, forallb_forall; reflexivity).
  clear - E. induction k as [|k IH]; cbn [repeat map]; [reflexivity|]. rewrite E, <- IH. reflexivity.
Qed.
Lemma untidy_lower call : writes_above call = false -> untidy n w (lower call) = false.
Proof. unfold untidy. destruct (n mod w =? 0)%N; [reflexivity|]. destruct call; cbn; intros H; try reflexivity; discriminate. Qed.
Lemma make_size : make (size Size) w = make n w. Proof. rewrite size_n. reflexivity. Qed.

Lemma enum_programs k calls : Forall (fun c => looks_above c = false) calls ->
  conforms (estep pl w same64 Size) (epre M) (espec M) (repeat (make (size Size) w) k) (repeat [] k) calls.
Proof.
  intros H. rewrite make_size. apply (conforms_sim_on _ _ _ (Rel false) (fun c => looks_above c = false)); [|exact H|apply initial_rel].
  intros s m op HR Hp Hq. apply estep_sim; auto. discriminate.
Qed.
Lemma enum_tidy k calls : Forall (fun c => writes_above c = false) calls ->
  conforms (estep pl w same64 Size) (epre M) (espec M) (repeat (make (size Size) w) k) (repeat [] k) calls.
Proof.
  intros H. rewrite make_size. apply (conforms_sim_on _ _ _ (Rel true) (fun c => writes_above c = false)); [|exact H|apply initial_rel].
  intros s m op HR Hp Hq. apply estep_sim; auto; [discriminate|]. intros _. apply untidy_lower, Hq.
Qed.
Lemma enum_whole k calls : (n mod w = 0)%N ->
  conforms (estep pl w same64 Size) (epre M) (espec M) (repeat (make (size Size) w) k) (repeat [] k) calls.
Proof.
  intros Hm. rewrite make_size. apply (conforms_sim_on _ _ _ (Rel true) (fun _ => True)); [|apply Forall_forall; auto|apply initial_rel].
  intros s m op HR Hp _. apply estep_sim; auto; [discriminate|]. intros _. unfold untidy. rewrite Hm. reflexivity.
Qed.

(** set() and then lowest_unset() or transform_reduce. *)
Lemma enum_phantoms : (n mod w <> 0)%N ->
  run (estep pl w same64 Size) [make (size Size) w] [ESetAll 0; EEachUnset 0; ELowestUnset 0; EReduce 0]
  = Done [set_all w (make n w)] [EUnit; EValues []; EValue (iter_arg Size (capacity n w)); EValues (map (iter_arg Size) (map N.of_nat (seq 0 (N.to_nat (capacity n w)))))] [].
Proof.
  intros Hm. rewrite make_size. destruct HE as ((P1 & P2 & P3 & P4 & P5) & Hpos & T). 
  assert (HEa : enum_ok pl w Size) by exact HE.
  destruct (estep_sim false [make n w] [[]] (ESetAll 0) (initial_rel false 1)) as (s1 & o1 & m1 & E1 & S1 & R1); [reflexivity|reflexivity|discriminate|].
  assert (E1' : s1 = [set_all w (make n w)] /\ o1 = EUnit).
  { revert E1. unfold estep. rewrite size_n. cbn [lower bstep]. unfold upd, done. change (rd [make n w] 0) with (Some (make n w)).
    cbn iota beta. change (wr [make n w] 0 (set_all w (make n w))) with (Some [set_all w (make n w)]). cbn iota beta. cbn [lift]. intros E. injection E as <- <-. auto. }
  destruct E1' as (-> & ->).
  assert (Em : m1 = [below M]).
  { destruct S1 as (_ & S). cbn in S. injection S as <-. f_equal. unfold such_that. generalize (below M). intros l. induction l as [|x l IH]; cbn; [reflexivity|]. rewrite IH. reflexivity. }
  subst m1.
  destruct (estep_sim false [set_all w (make n w)] [below M] (EEachUnset 0) R1) as (s2 & o2 & m2 & E2 & S2 & R2); [reflexivity|reflexivity|discriminate|].
  assert (o2 = EValues []).
  { destruct S2 as (-> & _). cbn [eeffect snd]. change (var [below M] 0) with (below M). f_equal. unfold such_that. apply filter_none. apply forallb_forall.
    intros z Hz. rewrite negb_involutive. unfold mem. apply existsb_exists. exists z. split; [exact Hz|apply Z.eqb_refl]. }
  assert (s2 = [set_all w (make n w)]).
  { revert E2. unfold estep. rewrite size_n. cbn [lower bstep]. unfold ask, done. change (rd [set_all w (make n w)] 0) with (Some (set_all w (make n w))).
    cbn iota beta. destruct (for_each_unset pl n w (set_all w (make n w))); [|discriminate]. intros E. injection E as <-. reflexivity. }
  subst o2 s2. cbn [run]. rewrite E1, E2. cbn iota beta.
  destruct (equal_but_different pl n w P1 P2 P3 P4 P5 Hm) as (a & _ & _ & _ & L & _).
  pose proof (reduce_phantom pl n w P1 P2 P3 P4 P5 Hm) as Q.
  unfold estep. rewrite !size_n. cbn [lower bstep]. unfold ask, done. change (rd [set_all w (make n w)] 0) with (Some (set_all w (make n w))).
  cbn iota beta. rewrite L. change (rd [set_all w (make n w)] 0) with (Some (set_all w (make n w))). cbn iota beta. rewrite Q. cbn iota beta. cbn [lift app]. reflexivity.
Qed.
End E.

Lemma is_same_ok t u : is_same t u = true <-> t = u.
Proof.
  destruct t as [s b|e s b], u as [s' b'|e' s' b']; cbn; try (split; discriminate).
  - rewrite andb_true_iff, eqb_true_iff, N.eqb_eq. split; [intros (-> & ->); reflexivity|intros E; injection E; auto].
  - rewrite !andb_true_iff, eqb_true_iff, N.eqb_eq, Nat.eqb_eq. split; [intros ((-> & ->) & ->); reflexivity|intros E; injection E; auto].
Qed.
Lemma admissible_ok Size t : admissible_enum Size t = true <-> ~ other_enumeration Size t.
Proof.
  unfold admissible_enum, other_enumeration. rewrite orb_true_iff, is_same_ok, negb_true_iff. destruct (is_enum t).
  - split; [intros [H|H]; [discriminate|tauto]|]. intros H. right.
    destruct (is_same t (type_of Size)) eqn:E; [apply is_same_ok, E|]. exfalso. apply H. split; [reflexivity|]. intros F. apply is_same_ok in F. congruence.
  - split; [intros _ (H & _); discriminate|auto].
Qed.
Lemma full_capacity w b : (1 < w)%N -> (2 ^ b mod w = 0)%N -> (w <= 2 ^ b)%N -> capacity (2 ^ b - 1) w = (2 ^ b)%N /\ ((2 ^ b - 1) mod w <> 0)%N.
Proof.
  intros Hw Hm Hl. set (p := (2 ^ b)%N) in *. clearbody p. pose proof (N.div_mod p w ltac:(lia)) as E. rewrite Hm, N.add_0_r in E.
  assert (Q : (1 <= p / w)%N) by (destruct (N.eq_dec (p / w) 0) as [e|e]; [rewrite e in E; lia|lia]).
  assert (X : (w * (p / w) = w * (p / w - 1) + w)%N).
  { transitivity (w * (p / w - 1 + 1))%N; [f_equal; lia|]. rewrite N.mul_add_distr_l. lia. }
  unfold capacity, storage_size. split.
  - replace (p - 1 + w - 1)%N with (w * (p / w) + (w - 2))%N by lia. rewrite (N.mul_comm w (p / w)), N.div_add_l by lia. rewrite (N.div_small (w - 2) w) by lia.
    rewrite N.add_0_r. lia.
  - replace (p - 1)%N with ((w - 1) + (p / w - 1) * w)%N by lia. rewrite N.mod_add by lia. rewrite N.mod_small by lia. lia.
Qed.

Lemma size_mod_n Size (w : N) : 0 < value Size -> (Z.to_N (value Size) mod w = 0)%N -> value Size mod Z.of_N w = 0.
Proof. intros P H. rewrite <- (Z2N.id (value Size)) by lia. rewrite <- N2Z.inj_mod, H. reflexivity. Qed.
Lemma place_other pl w same64 Size x : enum_ok pl w Size -> (same64 = true -> w = 64%N) -> other_enumeration Size (type_of x) -> 0 <= value x < value Size ->
  compiles Size (EPlace 0 [x]) = true /\
  exists s, run (estep pl w same64 Size) [make (size Size) w] [EPlace 0 [x]; EEachSet 0] = Done s [EUnit; EValues [value x]] [].
Proof.
  intros H1 H2 _ Hx. split; [reflexivity|].
  pose proof (enum_programs pl w same64 Size H1 H2 1 [EPlace 0 [x]; EEachSet 0]) as C. cbn [conforms repeat] in C.
  destruct C as (s1 & o1 & m1 & E1 & S1 & C); [repeat constructor|split; [reflexivity|repeat constructor; apply Hx]|].
  destruct S1 as (-> & S1). cbn in S1. injection S1 as <-.
  destruct C as (s2 & o2 & m2 & E2 & S2 & _); [reflexivity|]. destruct S2 as (-> & _).
  exists s2. cbn [run]. rewrite E1, E2. cbn [app eeffect snd fst]. repeat f_equal. change (var [such_that (value Size) (fun z => mem z [value x])] 0) with (such_that (value Size) (fun z => mem z [value x])).
  unfold such_that, below, mem. cbn [existsb].
  assert (G : forall k a, Z.of_nat a <= value x < Z.of_nat (a + k) -> filter (fun z => (z =? value x) || false) (map Z.of_nat (seq a k)) = [value x]).
  { induction k as [|k IH]; intros a Ha; [lia|]. cbn [seq map filter]. rewrite orb_false_r. destruct (Z.eqb_spec (Z.of_nat a) (value x)) as [e|e].
    - rewrite e. f_equal. apply filter_none, forallb_forall. intros z Hz. apply in_map_iff in Hz. destruct Hz as (j & <- & Hj). apply in_seq in Hj. lia.
    - apply IH. lia. }
  apply G. lia.
Qed.
Lemma values_outside pl w same64 Size : enum_ok pl w Size -> (same64 = true -> w = 64%N) -> value Size mod Z.of_N w <> 0 ->
  exists s u l, run (estep pl w same64 Size) [make (size Size) w] [ESetAll 0; EEachUnset 0; ELowestUnset 0; EReduce 0]
    = Done s [EUnit; EValues []; EValue u; EValues l] [] /\ value Size < Z.of_N (len l).
Proof.
  intros H1 H2 Hm. assert (Hm' : (Z.to_N (value Size) mod w <> 0)%N) by (intros E; apply Hm, size_mod_n; [apply H1|exact E]).
  do 3 eexists. split; [exact (enum_phantoms pl w same64 Size H1 H2 Hm')|]. unfold len. rewrite !map_length, seq_length, N2Nat.id.
  destruct H1 as ((P1 & P2 & P3 & P4 & P5) & P & _). destruct (equal_but_different pl _ w P1 P2 P3 P4 P5 Hm') as (_ & _ & _ & _ & _ & L). lia.
Qed.
Lemma lowest_is_set pl w same64 e b : let Size := {| type_of := Enum e false b; value := 2 ^ Z.of_N b - 1 |} in
  enum_ok pl w Size -> (same64 = true -> w = 64%N) -> (1 < w)%N -> (w <= 2 ^ b)%N -> (2 ^ b mod w = 0)%N ->
  exists s, run (estep pl w same64 Size) [make (size Size) w] [ESetAll 0; EEachUnset 0; ELowestUnset 0; EGet 0 {| type_of := Enum e false b; value := 0 |}]
    = Done s [EUnit; EValues []; EValue 0; EBool true] [].
Proof.
  intros Size H1 H2 Hw Hl Hd. destruct (full_capacity w b Hw Hd Hl) as (Hc & Hm).
  assert (En : Z.to_N (value Size) = (2 ^ b - 1)%N).
  { cbn [Size value]. rewrite <- (N2Z.id (2 ^ b - 1)). f_equal. rewrite N2Z.inj_sub by lia. rewrite N2Z.inj_pow. reflexivity. }
  pose proof (enum_phantoms pl w same64 Size H1 H2) as P. rewrite En in P. specialize (P Hm). rewrite Hc in P.
  assert (Ei : iter_arg Size (2 ^ b) = 0).
  { unfold iter_arg. cbn [Size type_of is_enum cast andb]. rewrite N2Z.inj_pow. apply Z.mod_same. apply Z.pow_nonzero; lia. }
  rewrite Ei in P.
  pose proof (enum_programs pl w same64 Size H1 H2 1 [ESetAll 0; EGet 0 {| type_of := Enum e false b; value := 0 |}]) as C. cbn [conforms repeat] in C.
  destruct C as (s1 & o1 & m1 & E1 & S1 & C); [repeat constructor|reflexivity|].
  destruct S1 as (-> & S1). cbn in S1. injection S1 as <-.
  assert (Hpos : 0 < value Size) by apply H1.
  destruct C as (s2 & o2 & m2 & E2 & S2 & _); [split; [reflexivity|unfold in_range; cbn [value]; fold (value Size); cbn [Size value] in Hpos; lia]|]. destruct S2 as (-> & _).
  cbn [run] in P |- *. rewrite E1 in *. cbn [eeffect snd fst] in *.
  revert P. destruct (estep pl w same64 Size s1 (EEachUnset 0)) as [s3 o3 p3|s3 p3|] eqn:E3; [|discriminate..].
  assert (s3 = s1).
  { revert E3. unfold estep. cbn [lower bstep]. unfold ask, done. destruct (match rd s1 0 with Some s => _ | None => None end); [|discriminate]. intros E; injection E as <-; reflexivity. }
  subst s3. destruct (estep pl w same64 Size s1 (ELowestUnset 0)) as [s4 o4 p4|s4 p4|] eqn:E4; [|discriminate..].
  assert (s4 = s1).
  { revert E4. unfold estep. cbn [lower bstep]. unfold ask, done. destruct (match rd s1 0 with Some s => _ | None => None end); [|discriminate]. intros E; injection E as <-; reflexivity. }
  subst s4. destruct (estep pl w same64 Size s1 (EReduce 0)) as [s5 o5 p5|s5 p5|] eqn:E5; [|discriminate..].
  intros P. injection P as _ -> -> _ P. exists s2. rewrite E2.
  assert (p3 = [] /\ p4 = []) as (-> & ->).
  { cbn [app] in P. destruct p3, p4; try discriminate; auto. }
  cbn [app]. do 6 f_equal. cbn [value].
  change (var [such_that (2 ^ Z.of_N b - 1) (fun _ => true)] 0) with (such_that (value Size) (fun _ => true)).
  rewrite mem_such with (Size := Size) (w := w) (same64 := same64); [reflexivity|..]; eauto. cbn [value]. cbn [Size value] in Hpos |- *. lia.
Qed.
Lemma lowest_is_negative pl w same64 e b : let Size := {| type_of := Enum e true (b + 1); value := 2 ^ Z.of_N b - 1 |} in
  enum_ok pl w Size -> (same64 = true -> w = 64%N) -> (1 < w)%N -> (w <= 2 ^ b)%N -> (2 ^ b mod w = 0)%N ->
  exists s l, run (estep pl w same64 Size) [make (size Size) w] [ESetAll 0; EEachUnset 0; ELowestUnset 0; EReduce 0]
    = Done s [EUnit; EValues []; EValue (- 2 ^ Z.of_N b); EValues l] [].
Proof.
  intros Size H1 H2 Hw Hl Hd. destruct (full_capacity w b Hw Hd Hl) as (Hc & Hm).
  assert (En : Z.to_N (value Size) = (2 ^ b - 1)%N).
  { cbn [Size value]. rewrite <- (N2Z.id (2 ^ b - 1)). f_equal. rewrite N2Z.inj_sub by lia. rewrite N2Z.inj_pow. reflexivity. }
  pose proof (enum_phantoms pl w same64 Size H1 H2) as P. rewrite En in P. specialize (P Hm). rewrite Hc in P.
  assert (Ei : iter_arg Size (2 ^ b) = - 2 ^ Z.of_N b).
  { unfold iter_arg. cbn [Size type_of is_enum cast]. rewrite N2Z.inj_pow. change (Z.of_N 2) with 2.
    assert (Hp : 0 < 2 ^ Z.of_N b) by (apply Z.pow_pos_nonneg; lia).
    rewrite N2Z.inj_add. change (Z.of_N 1) with 1. rewrite Z.pow_add_r by lia. change (2 ^ 1) with 2.
    replace (Z.of_N b + 1 - 1) with (Z.of_N b) by lia. rewrite Z.mod_small by lia.
    rewrite Z.leb_refl. cbn [andb]. lia. }
  rewrite Ei in P. do 2 eexists. exact P.
Qed.
