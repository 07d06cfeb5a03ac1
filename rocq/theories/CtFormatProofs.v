(** Proofs about splitting format strings. *)
From Verif Require Import Base BaseLemmas CtStringModel CtStringProofs CtFormatModel CtFormatSpec.
Open Scope N_scope.

(** ** Counting *)
Fixpoint cnt (s : list N) : N :=
  match s with
  | [] => 0
  | c :: r =>
      if c =? 123 then match r with [] => 0 | d :: r' => if d =? 123 then cnt r' else 1 + cnt r end
      else cnt r
  end.
Lemma list_ind2 {A} (P : list A -> Prop) : P [] -> (forall a, P [a]) -> (forall a b l, P l -> P (b :: l) -> P (a :: b :: l)) -> forall l, P l.
Proof.
  intros H0 H1 H2. fix IH 1. intros [|a [|b l]]; [exact H0|apply H1|]. apply H2; [apply IH|]. revert l b. fix IH' 1. intros [|c l] b; [apply H1|apply H2; [apply IH|apply IH']].
Qed.
Lemma find_spec_cnt s : find_spec s <= len s /\ (find_spec s = len s -> cnt s = 0) /\ (find_spec s <> len s -> cnt s = 1 + cnt (skipn (N.to_nat (find_spec s + 1)) s) /\ exists d, skipn (N.to_nat (find_spec s)) s = 123 :: d).
Proof.
  induction s as [|a|a b s IH1 IH2] using list_ind2.
  - cbn. repeat split; lia || (intros H; exfalso; apply H; reflexivity).
  - cbn [find_spec cnt]. change (len [a]) with 1. destruct (a =? 123); cbn; repeat split; lia || (intros H; exfalso; apply H; reflexivity).
  - cbn [find_spec cnt]. rewrite !len_cons in *. destruct (N.eqb_spec a 123) as [Ea|Ea].
    + destruct (N.eqb_spec b 123) as [Eb|Eb].
      * destruct IH1 as (H1 & H2 & H3). split; [lia|]. split; [intros H; apply H2; lia|]. intros H.
        destruct H3 as (H3 & H4); [lia|]. replace (N.to_nat (2 + find_spec s + 1)) with (S (S (N.to_nat (find_spec s + 1)))) by lia.
        replace (N.to_nat (2 + find_spec s)) with (S (S (N.to_nat (find_spec s)))) by lia. cbn [skipn]. auto.
      * split; [lia|]. split; [lia|]. intros _. change (N.to_nat (0 + 1)) with 1%nat. cbn [skipn]. rewrite Ea. split; [|eexists; reflexivity]. cbn [cnt]. apply N.eqb_neq in Eb. rewrite Eb. reflexivity.
    + change (if b =? 123 then match s with [] => 1 | d :: r' => if d =? 123 then 2 + find_spec r' else 0 end else 1 + find_spec s) with (find_spec (b :: s)).
      change (if b =? 123 then match s with [] => 0 | d :: r' => if d =? 123 then cnt r' else 1 + cnt s end else cnt s) with (cnt (b :: s)).
      destruct IH2 as (H1 & H2 & H3). split; [lia|]. split; [intros H; apply H2; lia|]. intros H. destruct H3 as (H3 & H4); [lia|].
      replace (N.to_nat (1 + find_spec (b :: s) + 1)) with (S (N.to_nat (find_spec (b :: s) + 1))) by lia.
      replace (N.to_nat (1 + find_spec (b :: s))) with (S (N.to_nat (find_spec (b :: s)))) by lia. cbn [skipn]. auto.
Qed.
Lemma count_ok fuel : forall s, (length s <= fuel)%nat -> count_from fuel s = Some (cnt s).
Proof.
  induction fuel as [|f IH]; intros s Hs; destruct (find_spec_cnt s) as (H1 & H2 & H3).
  - destruct s; [reflexivity|cbn in Hs; lia].
  - cbn [count_from]. destruct (N.eqb_spec (find_spec s) (len s)) as [E|E]; [rewrite H2 by exact E; reflexivity|]. destruct (H3 E) as (H4 & _). rewrite IH.
    + cbv beta iota. rewrite H4. f_equal. lia.
    + rewrite skipn_length. unfold len in *. lia.
Qed.
Lemma count_specifiers_ok s : count_specifiers s = Some (cnt s).
Proof. apply count_ok. lia. Qed.
Lemma cnt_cons c r : cnt (c :: r) = if c =? 123 then match r with [] => 0 | d :: r' => if d =? 123 then cnt r' else 1 + cnt r end else cnt r.
Proof. reflexivity. Qed.
Lemma cnt_past b : forall r, cnt r <= cnt (b ++ 125 :: r).
Proof.
  induction b as [|a|a b s IH1 IH2] using list_ind2; intros r; cbn [app].
  - rewrite cnt_cons. change (125 =? 123) with false. cbv iota. lia.
  - rewrite cnt_cons. change (125 =? 123) with false. cbv iota. rewrite (cnt_cons 125). change (125 =? 123) with false. cbv iota. destruct (a =? 123); lia.
  - rewrite cnt_cons. specialize (IH1 r). specialize (IH2 r). cbn [app] in IH2. destruct (a =? 123); [destruct (b =? 123)|]; lia.
Qed.
Lemma find_in_cases c s : (find_in c s = len s /\ ~ In c s) \/ exists a b, s = a ++ c :: b /\ find_in c s = len a /\ ~ In c a.
Proof.
  destruct (in_dec N.eq_dec c s) as [H|H].
  - right. destruct (in_split_first c s H) as (a & b & -> & Hn). exists a, b. split; [reflexivity|]. split; [apply find_in_first; exact Hn|exact Hn].
  - left. split; [apply find_in_absent; exact H|exact H].
Qed.
(** ** Splitting any string *)
Lemma split_any fuel : forall room s, (length s <= fuel)%nat -> (N.to_nat (cnt s) < room)%nat ->
  exists ps, split_from fuel room s = Some ps /\ length ps = room /\ flat_map sp_view ps = s.
Proof.
  induction fuel as [|f IH]; intros room s Hf Hr; (destruct room as [|room]; [lia|]).
  - destruct s; [|cbn in Hf; lia]. cbn. eexists. split; [reflexivity|]. cbn [length flat_map sp_view app]. rewrite repeat_length. split; [reflexivity|]. clear. induction room; [reflexivity|exact IHroom].
  - cbn [split_from]. destruct (find_spec_cnt s) as (H1 & H2 & H3). destruct (N.eqb_spec (find_spec s) (len s)) as [E|E].
    + eexists. split; [reflexivity|]. cbn [length flat_map sp_view app]. rewrite repeat_length. split; [reflexivity|]. rewrite <- (app_nil_r s) at 2. f_equal. clear. induction room; [reflexivity|exact IHroom].
    + destruct (H3 E) as (H4 & d & H5). clear H3. set (k := find_spec s) in *.
      assert (Es : s = firstn (N.to_nat k) s ++ 123 :: d) by (rewrite <- H5; symmetry; apply firstn_skipn).
      assert (Lk : length (firstn (N.to_nat k) s) = N.to_nat k) by (rewrite firstn_length; unfold len in *; lia).
      set (pre := firstn (N.to_nat k) s) in *. rewrite H5. 
      assert (H4' : cnt s = 1 + cnt d).
      { rewrite H4. f_equal. f_equal. rewrite Es. replace (N.to_nat (k + 1)) with (length (pre ++ [123])) by (rewrite app_length; cbn [length]; lia).
        change (123 :: d) with ([123] ++ d). rewrite app_assoc, skipn_app, skipn_all, Nat.sub_diag. reflexivity. }
      cbn [find_in]. change (123 =? 125) with false. cbv iota. assert (Ls : len s = k + 1 + len d) by (rewrite Es; rewrite len_app, len_cons; unfold len in *; lia).
      destruct (find_in_cases 125 d) as [(F & Fn)|(a & b & Ed & F & Fn)]; rewrite F.
      * destruct (N.eqb_spec (k + (1 + len d)) (len s)) as [E2|E2]; [|lia]. rewrite E2. unfold len at 1 2. rewrite Nat2N.id, skipn_all, firstn_all.
        destruct (IH room [] ltac:(cbn; lia)) as (ps & P1 & P2 & P3); [cbn; lia|]. rewrite P1. eexists. split; [reflexivity|]. cbn [length flat_map sp_view]. rewrite P2, P3, app_nil_r. auto.
      * destruct (N.eqb_spec (k + (1 + len a)) (len s)) as [E2|E2]; [rewrite Ls, Ed, len_app, len_cons in E2; lia|].
        assert (Es2 : s = (pre ++ 123 :: a ++ [125]) ++ b) by (rewrite Es, Ed; repeat (rewrite <- app_assoc || cbn [app]); reflexivity).
        replace (N.to_nat (k + (1 + len a) + 1)) with (length (pre ++ 123 :: a ++ [125])) by (rewrite app_length; cbn [length]; rewrite app_length; cbn [length]; unfold len; lia).
        assert (Sk : skipn (length (pre ++ 123 :: a ++ [125])) s = b) by (rewrite Es2 at 1; rewrite skipn_app, skipn_all, Nat.sub_diag; reflexivity).
        assert (Fk : firstn (length (pre ++ 123 :: a ++ [125])) s = pre ++ 123 :: a ++ [125]) by (rewrite Es2 at 1; rewrite firstn_app, firstn_all, Nat.sub_diag; cbn [firstn]; apply app_nil_r).
        rewrite Sk, Fk. destruct (IH room b) as (ps & P1 & P2 & P3).
        -- apply (f_equal (@length _)) in Es2. rewrite !app_length in Es2. cbn [length] in Es2. lia.
        -- pose proof (cnt_past a b). rewrite Ed in H4'. lia.
        -- rewrite P1. eexists. split; [reflexivity|]. cbn [length flat_map sp_view]. rewrite P2, P3. split; [reflexivity|]. symmetry. exact Es2.
Qed.
Theorem split_lossless s : exists n ps, count_specifiers s = Some n /\ split_specifiers (n + 1) s = Some ps /\ len ps = n + 1 /\ flat_map sp_view ps = s.
Proof.
  destruct (split_any (length s) (N.to_nat (cnt s + 1)) s) as (ps & P1 & P2 & P3); [lia|lia|]. exists (cnt s), ps. split; [apply count_specifiers_ok|]. split; [exact P1|]. split; [unfold len; lia|exact P3].
Qed.
(** ** Splitting well-formed format strings *)
Lemma cnt_plain b : ~ In 123 b -> forall r, cnt (b ++ r) = cnt r.
Proof.
  induction b as [|c b IH]; intros H r; cbn [app]; [reflexivity|]. cbn [cnt]. destruct (N.eqb_spec c 123) as [E|E]; [exfalso; apply H; left; exact E|]. apply IH. intros Hi; apply H; right; exact Hi.
Qed.
Definition body (name : list N) (opts : option (list N)) : list N := name ++ opts_text opts ++ [125].
Lemma plain_no123 s : plain s -> ~ In 123 s.
Proof. intros H Hi. unfold plain in H. rewrite Forall_forall in H. destruct (H _ Hi). contradiction. Qed.
Lemma plain_no125 s : plain s -> ~ In 125 s.
Proof. intros H Hi. unfold plain in H. rewrite Forall_forall in H. destruct (H _ Hi). contradiction. Qed.
Lemma body_no123 name opts : item_ok (Spec name opts) -> ~ In 123 (body name opts).
Proof.
  intros (H1 & _ & H2) Hi. unfold body in Hi. apply in_app_or in Hi as [Hi|Hi]; [exact (plain_no123 _ H1 Hi)|]. apply in_app_or in Hi as [Hi|[Hi|[]]]; [|discriminate].
  destruct opts as [o|]; cbn [opts_text] in Hi; [|destruct Hi]. destruct Hi as [Hi|Hi]; [discriminate|exact (plain_no123 _ H2 Hi)].
Qed.
Lemma spec_head name opts r : item_ok (Spec name opts) -> exists d t, body name opts ++ r = d :: t /\ d <> 123.
Proof.
  intros H. pose proof (body_no123 _ _ H) as Hb. destruct (body name opts) as [|d t] eqn:E.
  - unfold body in E. apply app_eq_nil in E as (_ & E). apply app_eq_nil in E as (_ & E). discriminate.
  - exists d, (t ++ r). split; [reflexivity|]. intros ->. apply Hb. left. reflexivity.
Qed.
Lemma fmt_text_spec name opts l : fmt_text (Spec name opts :: l) = 123 :: body name opts ++ fmt_text l.
Proof. reflexivity. Qed.
Lemma cnt_items l : Forall item_ok l -> cnt (fmt_text l) = specs l.
Proof.
  unfold specs. induction l as [|i l IH]; intros H; [reflexivity|]. apply Forall_cons_iff in H as (Hi & H). specialize (IH H). destruct i as [c| |name opts].
  - cbn [item_ok] in Hi. cbn [fmt_text flat_map item_text app filter is_spec cnt]. apply N.eqb_neq in Hi. rewrite Hi. exact IH.
  - cbn [fmt_text flat_map item_text app filter is_spec cnt]. exact IH.
  - rewrite fmt_text_spec. cbn [filter is_spec]. rewrite len_cons. destruct (spec_head name opts (fmt_text l) Hi) as (d & t & E & Hd).
    cbn [cnt]. change (123 =? 123) with true. cbv iota. rewrite E. apply N.eqb_neq in Hd. rewrite Hd, <- E. rewrite (cnt_plain _ (body_no123 _ _ Hi)), IH. lia.
Qed.
Definition lits (l : list item) : Prop := Forall (fun i => is_spec i = false) l.
Lemma find_spec_lits p r : Forall item_ok p -> lits p -> find_spec (fmt_text p ++ r) = len (fmt_text p) + find_spec r.
Proof.
  induction p as [|i p IH]; intros Hok Hl; [reflexivity|]. apply Forall_cons_iff in Hok as (Hi & Hok). apply Forall_cons_iff in Hl as (Hs & Hl). specialize (IH Hok Hl). destruct i as [c| |name opts]; [| |discriminate].
  - cbn [fmt_text flat_map item_text app find_spec]. apply N.eqb_neq in Hi. rewrite Hi. change (flat_map item_text p) with (fmt_text p). rewrite IH, len_cons. lia.
  - cbn [fmt_text flat_map item_text app find_spec]. change (123 =? 123) with true. cbv iota. change (flat_map item_text p) with (fmt_text p). rewrite IH, !len_cons. lia.
Qed.
Lemma cut_lits p r : lits p -> forall q s ps t, cut r = ((q, s) :: ps, t) -> cut (p ++ r) = ((p ++ q, s) :: ps, t).
Proof.
  induction p as [|i p IH]; intros Hl q s ps t E; [exact E|]. apply Forall_cons_iff in Hl as (Hs & Hl). cbn [app cut]. destruct i; [| |discriminate]; rewrite (IH Hl _ _ _ _ E); reflexivity.
Qed.
Lemma cut_all_lits p : lits p -> cut p = ([], p).
Proof. induction p as [|i p IH]; intros Hl; [reflexivity|]. apply Forall_cons_iff in Hl as (Hs & Hl). cbn [cut]. destruct i; [| |discriminate]; rewrite (IH Hl); reflexivity. Qed.
Lemma items_cases l : lits l \/ exists p name opts r, l = p ++ Spec name opts :: r /\ lits p.
Proof.
  induction l as [|i l [IH|(p & n & o & r & -> & Hp)]]; [left; constructor| |].
  - destruct i as [c| |n o]; [left; constructor; auto|left; constructor; auto|right; exists [], n, o, l; split; [reflexivity|constructor]].
  - destruct i as [c| |n' o']; [right; exists (Ch c :: p), n, o, r; split; [reflexivity|constructor; auto]|right; exists (Esc :: p), n, o, r; split; [reflexivity|constructor; auto]|right; exists [], n', o', (p ++ Spec n o :: r); split; [reflexivity|constructor]].
Qed.
Definition piece_of (x : list item * (list N * option (list N))) : split_spec :=
  mk_split (fmt_text (fst x) ++ 123 :: body (fst (snd x)) (snd (snd x))) (len (fmt_text (fst x))).
Definition pieces_of (l : list item) : list split_spec :=
  map piece_of (fst (cut l)) ++ [mk_split (fmt_text (snd (cut l))) (len (fmt_text (snd (cut l))))].
Lemma fmt_text_app a b : fmt_text (a ++ b) = fmt_text a ++ fmt_text b.
Proof. apply flat_map_app. Qed.
Lemma specs_app a b : specs (a ++ b) = specs a + specs b.
Proof. unfold specs. rewrite filter_app, len_app. reflexivity. Qed.
Lemma specs_lits a : lits a -> specs a = 0.
Proof. unfold specs. induction a as [|i a IH]; intros H; [reflexivity|]. apply Forall_cons_iff in H as (Hi & H). cbn [filter]. rewrite Hi. exact (IH H). Qed.
Lemma body_125 name opts : item_ok (Spec name opts) -> exists b0, body name opts = b0 ++ [125] /\ ~ In 125 b0.
Proof.
  intros (H1 & _ & H2). exists (name ++ opts_text opts). split; [unfold body; rewrite app_assoc; reflexivity|]. intros Hi. apply in_app_or in Hi as [Hi|Hi]; [exact (plain_no125 _ H1 Hi)|].
  destruct opts as [o|]; cbn [opts_text] in Hi; [|destruct Hi]. destruct Hi as [Hi|Hi]; [discriminate|exact (plain_no125 _ H2 Hi)].
Qed.
Lemma split_items n : forall l fuel room, (length l <= n)%nat -> Forall item_ok l -> (length (fmt_text l) <= fuel)%nat -> N.of_nat room = specs l + 1 ->
  split_from fuel room (fmt_text l) = Some (pieces_of l).
Proof.
  induction n as [|n IH]; intros l fuel room Hn Hok Hf Hr.
  - destruct l; [|cbn in Hn; lia]. cbn in Hr. assert (room = 1%nat) by lia. subst room. destruct fuel; reflexivity.
  - destruct (items_cases l) as [Hl|(p & name & opts & r & -> & Hp)].
    + rewrite (specs_lits l Hl) in Hr. assert (room = 1%nat) by lia. subst room.
      pose proof (find_spec_lits l [] Hok Hl) as F. rewrite app_nil_r in F. change (find_spec []) with 0 in F. rewrite N.add_0_r in F.
      unfold pieces_of. rewrite (cut_all_lits l Hl). cbn [fst snd map app]. destruct fuel; cbn [split_from]; rewrite F, N.eqb_refl; reflexivity.
    + apply Forall_app in Hok as (Hokp & Hok). apply Forall_cons_iff in Hok as (Hs & Hokr).
      rewrite specs_app, (specs_lits p Hp) in Hr. change (specs (Spec name opts :: r)) with (N.of_nat (S (length (filter is_spec r)))) in Hr.
      assert (Hr2 : N.of_nat room = specs r + 2) by (unfold specs, len; lia). destruct room as [|room]; [lia|].
      assert (T : fmt_text (p ++ Spec name opts :: r) = fmt_text p ++ 123 :: body name opts ++ fmt_text r) by (rewrite fmt_text_app, fmt_text_spec; reflexivity).
      rewrite T in *. assert (F : find_spec (fmt_text p ++ 123 :: body name opts ++ fmt_text r) = len (fmt_text p)).
      { rewrite find_spec_lits by assumption. destruct (spec_head name opts (fmt_text r) Hs) as (d & t & E & Hd). rewrite E. cbn [find_spec]. change (123 =? 123) with true. cbv iota. apply N.eqb_neq in Hd. rewrite Hd. lia. }
      rewrite app_length in Hf. cbn [length] in Hf. rewrite app_length in Hf. destruct fuel as [|f]; [lia|]. cbn [split_from]. rewrite F.
      destruct (N.eqb_spec (len (fmt_text p)) (len (fmt_text p ++ 123 :: body name opts ++ fmt_text r))) as [E|E]; [rewrite len_app, len_cons in E; lia|].
      destruct (body_125 name opts Hs) as (b0 & Eb & Hb0).
      assert (S1 : skipn (N.to_nat (len (fmt_text p))) (fmt_text p ++ 123 :: body name opts ++ fmt_text r) = 123 :: body name opts ++ fmt_text r).
      { unfold len. rewrite Nat2N.id, skipn_app, skipn_all, Nat.sub_diag. reflexivity. }
      rewrite S1. assert (F2 : find_in 125 (123 :: body name opts ++ fmt_text r) = 1 + len b0).
      { cbn [find_in]. change (123 =? 125) with false. cbv iota. rewrite Eb, <- app_assoc. cbn [app]. rewrite find_in_first by exact Hb0. reflexivity. }
      rewrite F2. assert (Lb : len (body name opts) = len b0 + 1) by (rewrite Eb, len_app; reflexivity).
      destruct (N.eqb_spec (len (fmt_text p) + (1 + len b0)) (len (fmt_text p ++ 123 :: body name opts ++ fmt_text r))) as [E2|E2]; [rewrite len_app, len_cons, len_app in E2; lia|].
      replace (N.to_nat (len (fmt_text p) + (1 + len b0) + 1)) with (length (fmt_text p ++ 123 :: body name opts)) by (rewrite app_length; cbn [length]; unfold len in *; lia).
      assert (S2 : forall x, skipn (length (fmt_text p ++ 123 :: body name opts)) ((fmt_text p ++ 123 :: body name opts) ++ x) = x) by (intros x; rewrite skipn_app, skipn_all, Nat.sub_diag; reflexivity).
      assert (S3 : forall x, firstn (length (fmt_text p ++ 123 :: body name opts)) ((fmt_text p ++ 123 :: body name opts) ++ x) = fmt_text p ++ 123 :: body name opts) by (intros x; rewrite firstn_app, firstn_all, Nat.sub_diag; cbn [firstn]; apply app_nil_r).
      specialize (S2 (fmt_text r)). specialize (S3 (fmt_text r)). rewrite <- app_assoc in S2, S3. cbn [app] in S2, S3. rewrite S2, S3.
      rewrite (IH r f room); [|rewrite app_length in Hn; cbn in Hn; lia|exact Hokr|lia|lia].
      cbv beta iota. unfold pieces_of. assert (C : cut (Spec name opts :: r) = (([], (name, opts)) :: fst (cut r), snd (cut r))) by reflexivity.
      rewrite (cut_lits p _ Hp _ _ _ _ C). cbn [fst snd map app]. unfold piece_of at 2. cbn [fst snd]. rewrite app_nil_r. reflexivity.
Qed.
Theorem split_ok l : Forall item_ok l -> count_specifiers (fmt_text l) = Some (specs l) /\ split_specifiers (specs l + 1) (fmt_text l) = Some (pieces_of l).
Proof.
  intros H. split; [rewrite count_specifiers_ok, cnt_items by exact H; reflexivity|]. unfold split_specifiers. apply (split_items (length l)); [lia|exact H|lia|lia].
Qed.
