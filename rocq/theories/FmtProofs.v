(** Proofs about the freestanding formatter. *)
From Verif Require Import Base BaseLemmas CtStringModel CtStringProofs UdlSpec FmtModel FmtSpec.
Open Scope N_scope.

Lemma puts_ok cs : forall a b, puts (a ++ repeat 0 (length cs) ++ b, len a) cs = Some (a ++ cs ++ b, len a + len cs).
Proof.
  induction cs as [|c cs IH]; intros a b; cbn [puts length repeat app].
  - change (len (@nil N)) with 0. rewrite N.add_0_r. reflexivity.
  - unfold put. cbn [fst snd]. rewrite wr_app_mid. cbv beta iota. specialize (IH (a ++ [c]) b). rewrite len_app in IH. change (len [c]) with 1 in IH.
    rewrite <- !app_assoc in IH. cbn [app] in IH. rewrite IH, len_cons. f_equal. f_equal. lia.
Qed.
Lemma put_ok c a b : put (a ++ 0 :: b, len a) c = Some (a ++ c :: b, len a + 1).
Proof. unfold put. cbn [fst snd]. rewrite wr_app_mid. reflexivity. Qed.
Lemma until_nul_ok s r : ~ In 0 s -> until_nul (s ++ 0 :: r) = Some s.
Proof.
  induction s as [|c s IH]; intros H; cbn [app until_nul]; [reflexivity|]. destruct (N.eqb_spec c 0) as [E|E]; [exfalso; apply H; left; exact E|].
  rewrite IH by (intros Hi; apply H; right; exact Hi). reflexivity.
Qed.
(** ** The digits of an integer, lowest first *)
Fixpoint low (fuel : nat) (base n : N) : list N :=
  if n =? 0 then [] else match fuel with O => [] | S f => n mod base :: low f base (n / base) end.
Lemma positional_app base a : forall b, positional base (a ++ b) = positional base a * base ^ len b + positional base b.
Proof.
  induction a as [|d a IH]; intros b; cbn [app positional]; [lia|]. rewrite IH, len_app, N.pow_add_r. lia.
Qed.
Lemma low_value base : 2 <= base -> forall fuel n, n < 2 ^ N.of_nat fuel -> positional base (rev (low fuel base n)) = n.
Proof.
  intros Hb. induction fuel as [|f IH]; intros n Hn; cbn [low].
  - change (2 ^ N.of_nat 0) with 1 in Hn. destruct (N.eqb_spec n 0); [cbn; lia|lia].
  - destruct (N.eqb_spec n 0) as [->|E]; [reflexivity|]. cbn [rev]. rewrite positional_app. cbn [positional]. change (len [n mod base]) with 1. rewrite N.pow_1_r.
    change (len (@nil N)) with 0. rewrite N.pow_0_r, N.mul_1_r, N.add_0_r. rewrite IH.
    + pose proof (N.div_mod n base ltac:(lia)). lia.
    + rewrite Nat2N.inj_succ, N.pow_succ_r' in Hn. apply N.div_lt_upper_bound; [lia|]. nia.
Qed.
Lemma low_lt base : 2 <= base -> forall fuel n, Forall (fun d => d < base) (low fuel base n).
Proof.
  intros Hb. induction fuel as [|f IH]; intros n; cbn [low]; destruct (N.eqb_spec n 0); try constructor; [apply N.mod_lt; lia|apply IH].
Qed.
Lemma low_last base : 2 <= base -> forall fuel n, n < 2 ^ N.of_nat fuel -> n <> 0 -> exists r d, low fuel base n = r ++ [d] /\ d <> 0.
Proof.
  intros Hb. induction fuel as [|f IH]; intros n Hn H0; cbn [low].
  - change (2 ^ N.of_nat 0) with 1 in Hn. lia.
  - destruct (N.eqb_spec n 0) as [E|E]; [contradiction|]. destruct (N.eq_dec (n / base) 0) as [Ed|Ed].
    + exists [], (n mod base). rewrite Ed. split; [destruct f; reflexivity|]. pose proof (N.div_mod n base ltac:(lia)). nia.
    + destruct (IH (n / base)) as (r & d & E1 & E2); [|exact Ed|].
      * rewrite Nat2N.inj_succ, N.pow_succ_r' in Hn. apply N.div_lt_upper_bound; [lia|]. nia.
      * exists (n mod base :: r), d. rewrite E1. auto.
Qed.
Lemma abs_quot i b : (0 < b)%Z -> Z.abs_N (Z.quot i b) = Z.abs_N i / Z.to_N b.
Proof.
  intros Hb. rewrite <- (Z2N.id b) at 1 by lia. rewrite <- (Zabs2N.id (Z.to_N b)) at 2.
  destruct (Z.eq_dec b 0); [lia|]. rewrite <- Zabs2N.inj_quot. reflexivity.
Qed.
Lemma abs_rem i b : (0 < b)%Z -> Z.to_N (Z.abs (Z.rem i b)) = Z.abs_N i mod Z.to_N b.
Proof.
  intros Hb. rewrite <- Zabs2N.abs_N_spec by apply Z.abs_nonneg || idtac.
  rewrite <- (Zabs2N.id (Z.to_N b)). rewrite Z2N.id by lia. rewrite <- Zabs2N.inj_rem. destruct (Z.rem i b); reflexivity.
Qed.
Lemma to_digit_ok d : d < 16 -> to_digit (Z.of_N d) = Some (item_char (Dig d false)).
Proof.
  intros H. assert (A : forallb (fun k => match to_digit (Z.of_N (N.of_nat k)) with Some c => c =? item_char (Dig (N.of_nat k) false) | None => false end) (seq 0 16) = true) by (vm_compute; reflexivity).
  rewrite forallb_forall in A. specialize (A (N.to_nat d) ltac:(apply in_seq; lia)). rewrite N2Nat.id in A. destruct (to_digit (Z.of_N d)); [|discriminate]. apply N.eqb_eq in A. congruence.
Qed.
Lemma low_same base fuel n : n = 0 -> low fuel base n = [].
Proof. intros ->. destruct fuel; reflexivity. Qed.
Lemma digit_loop_ok base : (2 <= base <= 16)%Z -> forall fuel i a b k, (Z.abs_N i < 2 ^ N.of_nat fuel) ->
  k = length (low fuel (Z.to_N base) (Z.abs_N i)) ->
  digit_loop fuel base i (a ++ repeat 0 k ++ b, len a)
  = Some (a ++ map (fun d => item_char (Dig d false)) (low fuel (Z.to_N base) (Z.abs_N i)) ++ b, len a + N.of_nat k).
Proof.
  intros Hb. induction fuel as [|f IH]; intros i a b k Hi ->.
  - change (2 ^ N.of_nat 0) with 1 in Hi. assert (i = 0%Z) by lia. subst i. cbn. rewrite N.add_0_r. reflexivity.
  - cbn [digit_loop]. destruct (Z.eqb_spec i 0) as [->|E].
    + cbn. rewrite N.add_0_r. reflexivity.
    + assert (Ez : Z.abs_N i <> 0) by lia. cbn [low]. apply N.eqb_neq in Ez. rewrite Ez. cbn [length repeat app map].
      assert (Hd : Z.abs_N i mod Z.to_N base < 16) by (pose proof (N.mod_lt (Z.abs_N i) (Z.to_N base) ltac:(lia)); lia).
      rewrite <- (Z2N.id (Z.abs (Z.rem i base))) by lia. rewrite abs_rem by lia. rewrite to_digit_ok by exact Hd. cbv beta iota.
      rewrite put_ok. cbv beta iota. rewrite <- abs_quot by lia.
      assert (Hq : Z.abs_N (Z.quot i base) < 2 ^ N.of_nat f).
      { rewrite abs_quot by lia. rewrite Nat2N.inj_succ, N.pow_succ_r' in Hi. apply N.div_lt_upper_bound; [lia|]. nia. }
      specialize (IH (Z.quot i base) (a ++ [item_char (Dig (Z.abs_N i mod Z.to_N base) false)]) b _ Hq eq_refl).
      rewrite len_app in IH. change (len [_]) with 1 in IH. rewrite <- !app_assoc in IH. cbn [app] in IH. rewrite IH. f_equal. f_equal. lia.
Qed.
Lemma count_loop_ok base : (2 <= base)%Z -> forall fuel i sz, (Z.abs_N i < 2 ^ N.of_nat fuel) ->
  count_loop fuel base i sz = Some (sz + len (low fuel (Z.to_N base) (Z.abs_N i))).
Proof.
  intros Hb. induction fuel as [|f IH]; intros i sz Hi.
  - change (2 ^ N.of_nat 0) with 1 in Hi. assert (i = 0%Z) by lia. subst i. cbn. rewrite N.add_0_r. reflexivity.
  - cbn [count_loop]. destruct (Z.eqb_spec i 0) as [->|E].
    + cbn. rewrite N.add_0_r. reflexivity.
    + assert (Ez : Z.abs_N i <> 0) by lia. cbn [low]. apply N.eqb_neq in Ez. rewrite Ez, len_cons.
      rewrite IH.
      * rewrite abs_quot by lia. f_equal. lia.
      * rewrite abs_quot by lia. rewrite Nat2N.inj_succ, N.pow_succ_r' in Hi. apply N.div_lt_upper_bound; [lia|]. nia.
Qed.
Lemma wr_mid (a : list N) x y b i : i = len a -> wr (a ++ x :: b) i y = Some (a ++ y :: b).
Proof. intros ->. apply wr_app_mid. Qed.
Lemma rd_mid {A} (a : list A) x b i : i = len a -> rd (a ++ x :: b) i = Some x.
Proof. intros ->. rewrite rd_app2 by lia. rewrite N.sub_diag. reflexivity. Qed.
Lemma reverse_loop_ok : forall n m fuel a b, (length m <= n)%nat -> (length m <= fuel)%nat -> m <> [] ->
  reverse_loop fuel (a ++ m ++ b) (len a) (len a + len m - 1) = Some (a ++ rev m ++ b).
Proof.
  induction n as [|n IH]; intros m fuel a b Hn Hf Hm; [destruct m; [contradiction|cbn in Hn; lia]|].
  destruct m as [|x m]; [contradiction|]. destruct (exists_last (l := x :: m)) as (m' & y & E'); [discriminate|].
  destruct m' as [|x' m'].
  - cbn [app] in E'. inversion E'; subst. cbn [rev app]. change (len [y]) with 1. replace (len a + 1 - 1) with (len a) by lia.
    unfold reverse_loop. destruct fuel; rewrite N.ltb_irrefl; reflexivity.
  - cbn [app] in E'. injection E' as Ex Em. subst x' m. clear Hm.
    assert (L : len (x :: m' ++ [y]) = len m' + 2) by (rewrite len_cons, len_app; change (len [y]) with 1; lia). rewrite L.
    destruct fuel as [|f]; [cbn in Hf; lia|]. cbn [reverse_loop]. destruct (N.ltb_spec (len a) (len a + (len m' + 2) - 1)); [|lia].
    cbn [app]. rewrite (rd_mid a x) by reflexivity. cbv beta iota.
    assert (R1 : forall z, a ++ z :: (m' ++ [y]) ++ b = (a ++ z :: m') ++ y :: b) by (intros z; repeat (rewrite <- app_assoc || cbn [app]); reflexivity).
    assert (L1 : forall z, len (a ++ z :: m') = len a + len m' + 1) by (intros z; rewrite len_app, len_cons; lia).
    rewrite (R1 x). rewrite (rd_mid (a ++ x :: m') y) by (rewrite L1; lia). cbv beta iota. rewrite <- R1. rewrite (wr_mid a x y) by reflexivity. cbv beta iota.
    rewrite (R1 y). rewrite wr_mid by (rewrite L1; lia). cbv beta iota.
    destruct m' as [|z m'].
    + destruct f; cbn [reverse_loop]; change (len (@nil N)) with 0; (destruct (N.ltb_spec (len a + 1) (len a + (0 + 2) - 1 - 1)); [lia|]); repeat (rewrite <- app_assoc || cbn [app rev]); reflexivity.
    + specialize (IH (z :: m') f (a ++ [y]) (x :: b)). rewrite len_app in IH. change (len [y]) with 1 in IH.
      replace ((a ++ y :: z :: m') ++ x :: b) with ((a ++ [y]) ++ (z :: m') ++ x :: b) by (repeat (rewrite <- app_assoc || cbn [app]); reflexivity).
      replace (len a + (len (z :: m') + 2) - 1 - 1) with (len a + 1 + len (z :: m') - 1) by lia. rewrite IH.
      * f_equal. cbn [rev]. rewrite rev_app_distr. cbn [rev]. repeat (rewrite <- app_assoc || cbn [app]). reflexivity.
      * cbn [length] in *. rewrite app_length in Hn. cbn in Hn. lia.
      * cbn [length] in *. rewrite app_length in Hf. cbn in Hf. lia.
      * discriminate.
Qed.
(** ** Integers *)
Lemma width_abs t z : has_width t z -> z <> 0%Z -> exists sg w, t = IInt sg w /\ Z.abs_N z < 2 ^ N.of_nat (N.to_nat w).
Proof.
  destruct t as [|sg w]; intros H Hz; [contradiction|]. exists sg, w. split; [reflexivity|]. rewrite N2Nat.id. apply N2Z.inj_lt. rewrite N2Z.inj_abs_N, N2Z.inj_pow. change (Z.of_N 2) with 2%Z.
  destruct sg; destruct H as (Hw & H).
  - assert (E : (2 ^ Z.of_N w = 2 * 2 ^ (Z.of_N w - 1))%Z) by (rewrite <- Z.pow_succ_r by lia; f_equal; lia). rewrite E. pose proof (Z.pow_pos_nonneg 2 (Z.of_N w - 1) ltac:(lia) ltac:(lia)). lia.
  - lia.
Qed.
(** The numeral the formatter writes. *)
Definition numeral_of (fuel : nat) (base : N) (z : Z) : list N :=
  if (z =? 0)%Z then [48]
  else (if (z <? 0)%Z then [45] else []) ++ map (fun d => item_char (Dig d false)) (rev (low fuel base (Z.abs_N z))).
Lemma numeral_of_ok fuel base z : 2 <= base -> Z.abs_N z < 2 ^ N.of_nat fuel -> numeral base z (numeral_of fuel base z).
Proof.
  intros Hb Hz. unfold numeral_of. destruct (Z.eqb_spec z 0) as [->|E].
  - exists [0]. repeat split; [constructor; [lia|constructor]|left; reflexivity].
  - exists (rev (low fuel base (Z.abs_N z))). split; [reflexivity|]. split; [apply Forall_rev, low_lt; exact Hb|]. split; [apply low_value; assumption|].
    right. destruct (low_last base Hb fuel (Z.abs_N z) Hz ltac:(lia)) as (r & d & E1 & E2). exists d, (rev r). rewrite E1, rev_app_distr. auto.
Qed.
Definition value_text (base : N) (v : value) : option (list N) :=
  match v with
  | VRange cs => Some cs
  | VPtr mem => until_nul mem
  | VChar c => Some [c]
  | VInt t z => Some (numeral_of (turns t) base z)
  end.
Lemma until_nul_inv mem : forall s, until_nul mem = Some s -> exists r, mem = s ++ 0 :: r /\ ~ In 0 s.
Proof.
  induction mem as [|c mem IH]; intros s H; cbn [until_nul] in H; [discriminate|]. destruct (N.eqb_spec c 0) as [E|E].
  - inversion H. subst. exists mem. split; [reflexivity|intros []].
  - destruct (until_nul mem) as [cs|]; [|discriminate]. assert (s = c :: cs) by congruence. subst s. destruct (IH cs eq_refl) as (r & -> & Hn). exists r. split; [reflexivity|]. intros [Hi|Hi]; [congruence|contradiction].
Qed.
Lemma positional_inj base : 2 <= base -> forall a b, length a = length b -> Forall (fun d => d < base) a -> Forall (fun d => d < base) b -> positional base a = positional base b -> a = b.
Proof.
  intros Hb. assert (B : forall l, Forall (fun d => d < base) l -> positional base l < base ^ len l).
  { induction l as [|d l IH]; intros Hl; cbn [positional]; [change (len (@nil N)) with 0; rewrite N.pow_0_r; lia|]. apply Forall_cons_iff in Hl as (Hd & Hl). specialize (IH Hl). rewrite len_cons, N.pow_add_r, N.pow_1_r. nia. }
  induction a as [|x a IH]; intros [|y b] Hl Ha Hb' E; try discriminate; [reflexivity|]. cbn [positional] in E. apply Forall_cons_iff in Ha as (Hx & Ha). apply Forall_cons_iff in Hb' as (Hy & Hbb).
  injection Hl as Hl. assert (EL : len a = len b) by (unfold len; rewrite Hl; reflexivity). rewrite EL in E. pose proof (B a Ha) as Ba. pose proof (B b Hbb) as Bb. rewrite EL in Ba.
  assert (x = y) by nia. subst y. f_equal. apply IH; [exact Hl|exact Ha|exact Hbb|lia].
Qed.
Lemma positional_bounds base ds : 2 <= base -> Forall (fun d => d < base) ds -> positional base ds < base ^ len ds.
Proof.
  intros Hb. induction ds as [|d l IH]; intros Hl; cbn [positional]; [change (len (@nil N)) with 0; rewrite N.pow_0_r; lia|]. apply Forall_cons_iff in Hl as (Hd & Hl). specialize (IH Hl). rewrite len_cons, N.pow_add_r, N.pow_1_r. nia.
Qed.
(** Numerals are unique. *)
Lemma numeral_unique base z s s' : 2 <= base -> numeral base z s -> numeral base z s' -> s = s'.
Proof.
  intros Hb (a & -> & Fa & Va & Ca) (b & -> & Fb & Vb & Cb). f_equal. f_equal.
  assert (N0 : forall ds, Forall (fun d => d < base) ds -> (ds = [0] \/ exists d r, ds = d :: r /\ d <> 0) -> positional base ds = Z.abs_N z -> Z.abs_N z <> 0 -> base ^ (len ds - 1) <= Z.abs_N z < base ^ len ds).
  { intros ds F C V Hz. split; [|rewrite <- V; apply positional_bounds; assumption]. destruct C as [->|(d & r & -> & Hd)]; [cbn in V; lia|].
    rewrite <- V. cbn [positional]. rewrite len_cons. replace (len r + 1 - 1) with (len r) by lia. nia. }
  destruct (N.eq_dec (Z.abs_N z) 0) as [E0|E0].
  - assert (Z0 : forall ds, (ds = [0] \/ exists d r, ds = d :: r /\ d <> 0) -> positional base ds = Z.abs_N z -> ds = [0]).
    { intros ds [->|(d & r & -> & Hd)] V; [reflexivity|]. cbn [positional] in V. pose proof (N.pow_nonzero base (len r) ltac:(lia)). nia. }
    rewrite (Z0 a Ca Va), (Z0 b Cb Vb). reflexivity.
  - pose proof (N0 a Fa Ca Va E0) as Ba. pose proof (N0 b Fb Cb Vb E0) as Bb.
    assert (ne : forall ds, (ds = [0] \/ exists d r, ds = d :: r /\ d <> 0) -> 1 <= len ds) by (intros ds [->|(d & r & -> & _)]; rewrite ?len_cons; cbn; lia).
    pose proof (ne a Ca). pose proof (ne b Cb).
    assert (EL : len a = len b).
    { destruct (N.lt_trichotomy (len a) (len b)) as [H1|[H1|H1]]; [|exact H1|]; exfalso.
      - pose proof (N.pow_le_mono_r base (len a) (len b - 1) ltac:(lia) ltac:(lia)). lia.
      - pose proof (N.pow_le_mono_r base (len b) (len a - 1) ltac:(lia) ltac:(lia)). lia. }
    apply (positional_inj base Hb); [unfold len in EL; lia|exact Fa|exact Fb|congruence].
Qed.
Lemma text_iff base v s : 2 <= base -> text base v s -> value_text base v = Some s /\ (forall t z, v = VInt t z -> has_width t z).
Proof.
  intros Hb H. destruct v as [cs|mem|c|t z]; cbn [text value_text] in *; try (subst s; split; [reflexivity|discriminate]).
  - destruct H as (r & -> & Hn). split; [apply until_nul_ok; exact Hn|discriminate].
  - destruct H as (Hw & Hn). split; [|intros t' z' E; inversion E; subst; exact Hw]. f_equal. destruct (Z.eq_dec z 0) as [->|Hz].
    + unfold numeral_of. cbn. apply (numeral_unique base 0 _ _ Hb); [|exact Hn]. exists [0]. repeat split; [constructor; [lia|constructor]|left; reflexivity].
    + destruct (width_abs t z Hw Hz) as (sg & w & -> & Hlt). apply (numeral_unique base z); [exact Hb| |exact Hn]. apply numeral_of_ok; assumption.
Qed.
Lemma parse_ok pre hex post : ~ In 123 pre ->
  parse_fmt_spec (pre ++ spec_text hex ++ post ++ [0]) = Some (Some (mk_spec (len (spec_text hex)) (Z.of_N (spec_base hex)))) /\
  find_in 123 (pre ++ spec_text hex ++ post ++ [0]) = len pre.
Proof.
  intros H. assert (F : find_in 123 (pre ++ spec_text hex ++ post ++ [0]) = len pre) by (destruct hex; cbn [spec_text app]; apply find_in_first; exact H).
  split; [|exact F]. unfold parse_fmt_spec. rewrite F. destruct (N.eqb_spec (len pre) (len (pre ++ spec_text hex ++ post ++ [0]))) as [E|E].
  { rewrite !len_app in E. change (len [0]) with 1 in E. lia. }
  rewrite !(rd_app2 pre) by lia. replace (len pre + 1 - len pre) with 1 by lia. replace (len pre + 2 - len pre) with 2 by lia. replace (len pre + 3 - len pre) with 3 by lia.
  rewrite !rd_nth_error. destruct hex; reflexivity.
Qed.
Lemma value_size_ok hex v s : text (spec_base hex) v s -> value_size (fuel_of v) (mk_spec (len (spec_text hex)) (Z.of_N (spec_base hex))) v = Some (len s).
Proof.
  intros H. assert (Hb : 2 <= spec_base hex) by (destruct hex; cbn; lia). destruct (text_iff _ _ _ Hb H) as (Et & Hw). destruct v as [cs|mem|c|t z]; cbn [value_size fuel_of value_text] in *.
  - assert (cs = s) by congruence. subst. reflexivity.
  - rewrite Et. reflexivity.
  - assert (s = [c]) by congruence. subst s. reflexivity.
  - assert (Es : s = numeral_of (turns t) (spec_base hex) z) by congruence. subst s. unfold numeral_of. destruct (Z.eqb_spec z 0) as [->|Hz]; [reflexivity|].
    destruct (width_abs t z (Hw t z eq_refl) Hz) as (sg & w & -> & Hlt). cbn [cast_base sp_base turns]. rewrite count_loop_ok; [|destruct hex; cbn; lia|exact Hlt].
    rewrite N2Z.id, len_app. unfold len at 3. rewrite map_length, rev_length. destruct (z <? 0)%Z; reflexivity.
Qed.
Lemma value_to_ok hex v s a b : text (spec_base hex) v s ->
  value_to (fuel_of v) (mk_spec (len (spec_text hex)) (Z.of_N (spec_base hex))) (a ++ repeat 0 (length s) ++ b, len a) v = Some (a ++ s ++ b, len a + len s).
Proof.
  intros H. assert (Hb : 2 <= spec_base hex) by (destruct hex; cbn; lia). destruct (text_iff _ _ _ Hb H) as (Et & Hw). destruct v as [cs|mem|c|t z]; cbn [value_to fuel_of value_text] in *.
  - assert (cs = s) by congruence. subst. apply puts_ok.
  - rewrite Et. apply puts_ok.
  - assert (s = [c]) by congruence. subst s. cbn [length repeat app]. rewrite put_ok. reflexivity.
  - assert (Es : s = numeral_of (turns t) (spec_base hex) z) by congruence. subst s. unfold numeral_of. destruct (Z.eqb_spec z 0) as [->|Hz].
    + cbn [length repeat app]. rewrite put_ok. reflexivity.
    + destruct (width_abs t z (Hw t z eq_refl) Hz) as (sg & w & -> & Hlt). cbn [cast_base sp_base turns].
      set (ds := low (N.to_nat w) (spec_base hex) (Z.abs_N z)). 
      assert (Hne : ds <> []).
      { destruct (low_last (spec_base hex) Hb _ _ Hlt ltac:(lia)) as (r & d & E1 & _). unfold ds. rewrite E1. destruct r; discriminate. }
      set (sign := if (z <? 0)%Z then [45] else []).
      rewrite app_length, map_length, rev_length, repeat_split.
      assert (P : (if (z <? 0)%Z then put (a ++ (repeat 0 (length sign) ++ repeat 0 (length ds)) ++ b, len a) 45 else Some (a ++ (repeat 0 (length sign) ++ repeat 0 (length ds)) ++ b, len a))
         = Some ((a ++ sign) ++ repeat 0 (length ds) ++ b, len (a ++ sign))).
      { unfold sign. destruct (z <? 0)%Z; cbn [length repeat app].
        - rewrite put_ok, <- app_assoc. rewrite len_app. reflexivity.
        - rewrite app_nil_r. reflexivity. }
      rewrite P. cbv beta iota. pose proof (digit_loop_ok (Z.of_N (spec_base hex)) ltac:(destruct hex; cbn; lia) (N.to_nat w) z (a ++ sign) b (length ds) Hlt) as D.
      rewrite N2Z.id in D. fold ds in D. rewrite (D eq_refl). cbv beta iota. cbn [fst snd].
      pose proof (reverse_loop_ok (length ds) (map (fun d => item_char (Dig d false)) ds) (length ((a ++ sign) ++ map (fun d => item_char (Dig d false)) ds ++ b)) (a ++ sign) b) as R.
      assert (Lm : len (map (fun d => item_char (Dig d false)) ds) = N.of_nat (length ds)) by (unfold len; rewrite map_length; reflexivity).
      rewrite Lm in R. rewrite R.
      * f_equal. f_equal; [rewrite <- map_rev, <- !app_assoc; reflexivity|]. rewrite !len_app. rewrite <- map_rev || idtac. unfold len. rewrite ?map_length, ?rev_length. lia.
      * rewrite map_length. lia.
      * rewrite !app_length. lia.
      * destruct ds; [contradiction|discriminate].
Qed.
Theorem fmt_ok pre hex post v s : ~ In 123 pre -> ~ In 0 post -> text (spec_base hex) v s ->
  formatted_size (pre ++ spec_text hex ++ post ++ [0]) v = Some (len (pre ++ s ++ post)) /\
  fmt_format (pre ++ spec_text hex ++ post ++ [0]) v = Some (pre ++ s ++ post ++ [0]).
Proof.
  intros Hp Hq Ht. destruct (parse_ok pre hex post Hp) as (P1 & P2).
  assert (S1 : formatted_size (pre ++ spec_text hex ++ post ++ [0]) v = Some (len (pre ++ s ++ post))).
  { unfold formatted_size. rewrite P1. cbv beta iota. rewrite (value_size_ok hex v s Ht). cbv beta iota. f_equal. unfold size. cbn [sp_len]. rewrite !len_app. change (len [0]) with 1. lia. }
  split; [exact S1|]. unfold fmt_format. rewrite S1. cbv beta iota. unfold perform_format, format_to. rewrite P1. cbv beta iota. rewrite P2. cbn [sp_len].
  replace (N.to_nat (len (pre ++ s ++ post) + 1)) with (length pre + (length s + (length post + 1)))%nat by (rewrite !len_app; unfold len; lia).
  rewrite !repeat_split. 
  replace (firstn (N.to_nat (len pre)) (pre ++ spec_text hex ++ post ++ [0])) with pre.
  2:{ unfold len. rewrite Nat2N.id, firstn_app, Nat.sub_diag, firstn_all. cbn [firstn]. rewrite app_nil_r. reflexivity. }
  replace (skipn (N.to_nat (len pre + len (spec_text hex))) (pre ++ spec_text hex ++ post ++ [0])) with (post ++ [0]).
  2:{ rewrite app_assoc. replace (N.to_nat (len pre + len (spec_text hex))) with (length (pre ++ spec_text hex)) by (rewrite app_length; unfold len; lia). rewrite skipn_app, skipn_all, Nat.sub_diag. reflexivity. }
  pose proof (puts_ok pre [] (repeat 0 (length s) ++ repeat 0 (length post) ++ repeat 0 1)) as Q1. cbn [app] in Q1. change (len (@nil N)) with 0 in Q1. rewrite N.add_0_l in Q1. rewrite Q1. cbv beta iota.
  rewrite (value_to_ok hex v s pre (repeat 0 (length post) ++ repeat 0 1) Ht). cbv beta iota. rewrite until_nul_ok by exact Hq. cbv beta iota.
  pose proof (puts_ok post (pre ++ s) (repeat 0 1)) as Q2. rewrite len_app, <- !app_assoc in Q2. rewrite Q2. cbn [fst]. reflexivity.
Qed.
(** bool: dividing by static_cast<bool>(10) never reaches 0. *)
Theorem bool_diverges fuel base sz : (base <> 0)%Z -> count_loop fuel (cast_base IBool base) 1 sz = None.
Proof.
  intros Hb. unfold cast_base. destruct (Z.eqb_spec base 0); [contradiction|]. revert sz. induction fuel as [|f IH]; intros sz; [reflexivity|]. cbn [count_loop]. change (1 =? 0)%Z with false. cbv iota. change (Z.quot 1 1) with 1%Z. apply IH.
Qed.
(** A NUL after the specifier ends the copy. *)
Theorem fmt_nul pre hex p q v s : ~ In 123 pre -> ~ In 0 p -> text (spec_base hex) v s ->
  fmt_format (pre ++ spec_text hex ++ (p ++ 0 :: q) ++ [0]) v = Some (pre ++ s ++ p ++ repeat 0 (length q + 2)).
Proof.
  intros Hp Hq Ht. destruct (parse_ok pre hex (p ++ 0 :: q) Hp) as (P1 & P2).
  assert (S1 : formatted_size (pre ++ spec_text hex ++ (p ++ 0 :: q) ++ [0]) v = Some (len (pre ++ s ++ p ++ 0 :: q))).
  { unfold formatted_size. rewrite P1. cbv beta iota. rewrite (value_size_ok hex v s Ht). cbv beta iota. f_equal. unfold size. cbn [sp_len]. rewrite !len_app, !len_cons. change (len (@nil N)) with 0. lia. }
  unfold fmt_format. rewrite S1. cbv beta iota. unfold perform_format, format_to. rewrite P1. cbv beta iota. rewrite P2. cbn [sp_len].
  replace (N.to_nat (len (pre ++ s ++ p ++ 0 :: q) + 1)) with (length pre + (length s + (length p + (length q + 2))))%nat by (rewrite !len_app, len_cons; unfold len; lia).
  rewrite !(repeat_split 0 (length pre)), !(repeat_split 0 (length s)), !(repeat_split 0 (length p)).
  replace (firstn (N.to_nat (len pre)) (pre ++ spec_text hex ++ (p ++ 0 :: q) ++ [0])) with pre.
  2:{ unfold len. rewrite Nat2N.id, firstn_app, Nat.sub_diag, firstn_all. cbn [firstn]. rewrite app_nil_r. reflexivity. }
  replace (skipn (N.to_nat (len pre + len (spec_text hex))) (pre ++ spec_text hex ++ (p ++ 0 :: q) ++ [0])) with (p ++ 0 :: q ++ [0]).
  2:{ rewrite app_assoc. replace (N.to_nat (len pre + len (spec_text hex))) with (length (pre ++ spec_text hex)) by (rewrite app_length; unfold len; lia). rewrite skipn_app, skipn_all, Nat.sub_diag. cbn [skipn app]. rewrite <- app_assoc. reflexivity. }
  pose proof (puts_ok pre [] (repeat 0 (length s) ++ repeat 0 (length p) ++ repeat 0 (length q + 2))) as Q1. cbn [app] in Q1. change (len (@nil N)) with 0 in Q1. rewrite N.add_0_l in Q1. rewrite Q1. cbv beta iota.
  rewrite (value_to_ok hex v s pre (repeat 0 (length p) ++ repeat 0 (length q + 2)) Ht). cbv beta iota. rewrite until_nul_ok by exact Hq. cbv beta iota.
  pose proof (puts_ok p (pre ++ s) (repeat 0 (length q + 2))) as Q2. rewrite len_app, <- !app_assoc in Q2. rewrite Q2. cbn [fst]. reflexivity.
Qed.
(** Other specifiers are refused. *)
Theorem fmt_refuses pre t v : ~ In 123 pre -> (forall r, t <> 125 :: r) -> (forall r, t <> 58 :: 120 :: 125 :: r) -> fmt_format (pre ++ 123 :: t) v = None.
Proof.
  intros Hp H1 H2. unfold fmt_format, formatted_size, parse_fmt_spec. rewrite find_in_first by exact Hp.
  destruct (N.eqb_spec (len pre) (len (pre ++ 123 :: t))); [reflexivity|]. rewrite !(rd_app2 pre) by lia. replace (len pre + 1 - len pre) with 1 by lia. replace (len pre + 2 - len pre) with 2 by lia. replace (len pre + 3 - len pre) with 3 by lia.
  rewrite !rd_nth_error. change (N.to_nat 1) with 1%nat. change (N.to_nat 2) with 2%nat. change (N.to_nat 3) with 3%nat.
  destruct t as [|c [|d [|e t]]]; cbn [nth_error]; try reflexivity; (destruct (N.eqb_spec c 125) as [Ec|Ec]; [subst; exfalso; eapply H1; reflexivity|]); (destruct (N.eqb_spec c 58) as [Ec2|Ec2]; [subst|reflexivity]); try reflexivity; (destruct (N.eqb_spec d 120) as [Ed|Ed]; [subst|reflexivity]); try reflexivity.
  destruct (N.eqb_spec e 125) as [Ee|Ee]; [subst; exfalso; eapply H2; reflexivity|reflexivity].
Qed.
