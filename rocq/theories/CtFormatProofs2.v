(** Proofs about ct_format and its named arguments. *)
From Verif Require Import Base BaseLemmas CtStringModel CtStringProofs CtFormatModel CtFormatSpec CtFormatProofs FmtModel FmtSpec FmtProofs.
Open Scope N_scope.

Lemma slice_ok a m b st sz : st = Z.of_N (len a) -> sz = Z.of_N (len m) -> slice (a ++ m ++ b) st sz = Some m.
Proof.
  intros -> ->. unfold slice. rewrite !len_app. destruct (Z.leb_spec 0 (Z.of_N (len a))); [|lia]. destruct (Z.leb_spec 0 (Z.of_N (len m))); [|lia].
  destruct (Z.leb_spec (Z.of_N (len a) + Z.of_N (len m)) (Z.of_N (len a + (len m + len b)))); [|lia]. cbn [andb]. f_equal.
  replace (Z.to_nat (Z.of_N (len a))) with (length a) by (unfold len; lia). replace (Z.to_nat (Z.of_N (len m))) with (length m) by (unfold len; lia).
  rewrite skipn_app, skipn_all, Nat.sub_diag. cbn [app skipn]. rewrite firstn_app, firstn_all, Nat.sub_diag. apply app_nil_r.
Qed.
Lemma slice_eq s a m b st sz : s = a ++ m ++ b -> st = Z.of_N (len a) -> sz = Z.of_N (len m) -> slice s st sz = Some m.
Proof. intros ->. apply slice_ok. Qed.
Ltac norm := repeat (rewrite <- app_assoc || cbn [app]).
Theorem extract_ok pre name opts : ~ In 58 name ->
  extract_format1_str (pre ++ 123 :: body name opts) (len pre) = Some (pre ++ bare opts, name).
Proof.
  intros Hn. unfold extract_format1_str, body, bare.
  set (s := pre ++ 123 :: name ++ opts_text opts ++ [125]).
  assert (Ls : len s = len pre + 1 + len name + len (opts_text opts) + 1) by (unfold s; rewrite len_app, len_cons, !len_app; change (len [125]) with 1; lia).
  destruct (N.ltb_spec (len s + 1) (len pre + 1)); [lia|].
  assert (Sk : skipn (N.to_nat (len pre + 1)) s = name ++ opts_text opts ++ [125]).
  { unfold s. replace (N.to_nat (len pre + 1)) with (length (pre ++ [123])) by (rewrite app_length; cbn [length]; unfold len; lia).
    change (123 :: name ++ opts_text opts ++ [125]) with ([123] ++ name ++ opts_text opts ++ [125]). rewrite app_assoc, skipn_app, skipn_all, Nat.sub_diag. reflexivity. }
  rewrite Sk. destruct opts as [o|]; cbn [opts_text] in *.
  - cbn [app]. rewrite find_in_first by exact Hn. rewrite len_cons in Ls. destruct (N.eqb_spec (len pre + 1 + len name) (N.max (len pre + 1) (len s))); [lia|].
    rewrite (slice_eq s (pre ++ [123]) name (58 :: o ++ [125])); [|unfold s; norm; reflexivity|rewrite len_app; change (len [123]) with 1; lia|reflexivity].
    cbv beta iota. rewrite (slice_eq s [] (pre ++ [123]) (name ++ 58 :: o ++ [125])); [|unfold s; norm; reflexivity|reflexivity|rewrite len_app; change (len [123]) with 1; lia].
    cbv beta iota. rewrite (slice_eq s (pre ++ 123 :: name) (58 :: o ++ [125]) []); [|unfold s; rewrite app_nil_r; norm; reflexivity|rewrite len_app, len_cons; lia|rewrite Ls, len_cons, len_app; change (len [125]) with 1; lia].
    cbv beta iota. norm. reflexivity.
  - change (len (@nil N)) with 0 in Ls. cbn [app].
    assert (A : ~ In 58 (name ++ [125])) by (intros Hi; apply in_app_or in Hi as [Hi|[Hi|[]]]; [contradiction|discriminate]).
    rewrite find_in_absent by exact A. rewrite len_app. change (len [125]) with 1. destruct (N.eqb_spec (len pre + 1 + (len name + 1)) (N.max (len pre + 1) (len s))); [|lia].
    destruct (Z.eqb_spec (Z.of_N (len pre)) (Z.of_N (len s) - 2)) as [E|E].
    + assert (name = []) by (destruct name as [|c name]; [reflexivity|rewrite len_cons in Ls; lia]). subst name. unfold s. reflexivity.
    + rewrite (slice_eq s (pre ++ [123]) name [125]); [|unfold s; norm; reflexivity|rewrite len_app; change (len [123]) with 1; lia|lia].
      cbv beta iota. rewrite (slice_eq s [] (pre ++ [123]) (name ++ [125])); [|unfold s; norm; reflexivity|reflexivity|rewrite len_app; change (len [123]) with 1; lia].
      cbv beta iota. rewrite (slice_eq s (pre ++ 123 :: name) [125] []); [|unfold s; norm; reflexivity|rewrite len_app, len_cons; lia|reflexivity].
      cbv beta iota. norm. reflexivity.
Qed.
(** ** Named arguments *)
Section Named.
Context {X : Type}.
Lemma text_of_app (a b : list (seg X)) : text_of (a ++ b) = text_of a ++ text_of b.
Proof. apply flat_map_app. Qed.
Lemma args_of_app (a b : list (seg X)) : args_of (a ++ b) = args_of a ++ args_of b.
Proof. apply flat_map_app. Qed.
Lemma named_of_app (a : list (seg X)) : forall b so ao, named_of so ao (a ++ b) = named_of so ao a ++ named_of (so + len (text_of a)) (ao + len (args_of a)) b.
Proof.
  induction a as [|s a IH]; intros b so ao; cbn [app named_of].
  - change (len (text_of (@nil (seg X)))) with 0. change (len (args_of (@nil (seg X)))) with 0. rewrite !N.add_0_r. reflexivity.
  - rewrite IH, <- app_assoc. f_equal. f_equal. unfold text_of, args_of. cbn [flat_map]. rewrite !len_app. f_equal; lia.
Qed.
Lemma named_of_shift (l : list (seg X)) : forall so ao so' ao', map (apply_offset so' ao') (named_of so ao l) = named_of (so + so') (ao + ao') l.
Proof.
  induction l as [|s l IH]; intros so ao so' ao'; cbn [named_of map]; [reflexivity|]. rewrite map_app, IH. f_equal; [|f_equal; lia].
  destruct s as [t|n t|n t x]; cbn [map]; [reflexivity| |].
  - unfold apply_offset, is_runtime. cbn [na_begin na_end na_name]. destruct (Z.ltb_spec (Z.of_N (so + len t)) (Z.of_N so)); [lia|]. f_equal. f_equal; lia.
  - destruct (len n =? 0); [reflexivity|]. cbn [map]. unfold apply_offset, is_runtime. cbn [na_begin na_end na_name]. destruct (Z.ltb_spec (Z.of_N ao - 1) (Z.of_N ao)); [|lia]. f_equal. f_equal; lia.
Qed.
Lemma made_of_plus (r1 r2 : result X) l1 l2 : made_of r1 l1 -> made_of r2 l2 -> made_of (plus r1 r2) (l1 ++ l2).
Proof.
  intros (S1 & A1 & N1) (S2 & A2 & N2). unfold made_of, plus. cbn [r_str r_args r_named]. rewrite S1, S2, A1, A2, N1, N2, text_of_app, args_of_app, named_of_app, named_of_shift. auto.
Qed.
Lemma made_of_concatenation (r1 r2 : result X) s l1 l2 : made_of r1 l1 -> made_of r2 l2 ->
  made_of (plus r1 r2) (l1 ++ l2) /\ made_of (plus_str r1 s) (l1 ++ [Plain s]) /\ made_of (str_plus s r1) (Plain s :: l1).
Proof.
  intros M1 M2. split; [now apply made_of_plus|]. destruct M1 as (S1 & A1 & N1). split.
  - unfold made_of, plus_str. cbn [r_str r_args r_named]. rewrite S1, A1, N1, text_of_app, args_of_app, named_of_app. cbn. rewrite !app_nil_r. auto.
  - unfold made_of, str_plus. cbn [r_str r_args r_named]. rewrite S1, A1, N1, named_of_shift. cbn [named_of seg_text seg_args app]. auto.
Qed.
(** What an entry of the named arguments says. *)
Lemma named_of_in (l : list (seg X)) : forall so ao a, In a (named_of so ao l) ->
  exists l1 s l2, l = l1 ++ s :: l2 /\
    ((exists n t, s = NamedText n t /\ a = mk_named n (Z.of_N (so + len (text_of l1))) (Z.of_N (so + len (text_of l1) + len t))) \/
     (exists n t x, s = Runtime n t x /\ n <> [] /\ a = mk_named n (Z.of_N (ao + len (args_of l1))) (Z.of_N (ao + len (args_of l1)) - 1))).
Proof.
  induction l as [|s l IH]; intros so ao a H; [destruct H|]. cbn [named_of] in H. apply in_app_or in H as [H|H].
  - exists [], s, l. split; [reflexivity|]. change (len (text_of (@nil (seg X)))) with 0. change (len (args_of (@nil (seg X)))) with 0. rewrite !N.add_0_r.
    destruct s as [t|n t|n t x]; [destruct H| |].
    + left. destruct H as [H|[]]. exists n, t. auto.
    + right. destruct (N.eqb_spec (len n) 0) as [E|E]; [destruct H|]. destruct H as [H|[]]. exists n, t, x. split; [reflexivity|]. split; [intros ->; apply E; reflexivity|auto].
  - destruct (IH _ _ _ H) as (l1 & s' & l2 & -> & C). exists (s :: l1), s', l2. split; [reflexivity|].
    assert (E1 : so + len (text_of (s :: l1)) = so + len (seg_text s) + len (text_of l1)) by (unfold text_of; cbn [flat_map]; rewrite len_app; lia).
    assert (E2 : ao + len (args_of (s :: l1)) = ao + len (seg_args s) + len (args_of l1)) by (unfold args_of; cbn [flat_map]; rewrite len_app; lia).
    rewrite E1, E2. exact C.
Qed.
Theorem named_meaning (r : result X) l a : made_of r l -> In a (r_named r) ->
  (is_runtime a = false /\ exists l1 t l2, l = l1 ++ NamedText (na_name a) t :: l2 /\ na_begin a = Z.of_N (len (text_of l1)) /\ part (r_str r) (na_begin a) (na_end a) = t) \/
  (is_runtime a = true /\ exists l1 t x l2, l = l1 ++ Runtime (na_name a) t x :: l2 /\ rd (r_args r) (Z.to_N (na_begin a)) = Some x /\ (0 <= na_begin a)%Z).
Proof.
  intros (Hs & Ha & Hn) Hi. rewrite Hn in Hi. destruct (named_of_in l 0 0 a Hi) as (l1 & s & l2 & -> & [(n & t & -> & ->)|(n & t & x & -> & _ & ->)]); unfold is_runtime; cbn [na_begin na_end na_name].
  - left. split; [apply Z.ltb_ge; lia|]. exists l1, t, l2. split; [reflexivity|]. split; [f_equal; lia|]. rewrite Hs. unfold part. rewrite text_of_app. cbn [text_of flat_map seg_text].
    replace (Z.to_nat (Z.of_N (0 + len (text_of l1)))) with (length (text_of l1)) by (unfold len; lia).
    replace (Z.to_nat (Z.of_N (0 + len (text_of l1) + len t) - Z.of_N (0 + len (text_of l1)))) with (length t) by (unfold len; lia).
    rewrite skipn_app, skipn_all, Nat.sub_diag. cbn [app skipn]. rewrite firstn_app, firstn_all, Nat.sub_diag. apply app_nil_r.
  - right. split; [apply Z.ltb_lt; lia|]. exists l1, t, x, l2. split; [reflexivity|]. split; [|lia]. rewrite Ha, args_of_app. cbn [args_of flat_map seg_args app].
    rewrite N2Z.id. apply rd_mid. unfold args_of. lia.
Qed.
Theorem named_complete (r : result X) l l1 s l2 : made_of r l -> l = l1 ++ s :: l2 ->
  match s with
  | NamedText n t => exists a, In a (r_named r) /\ na_name a = n /\ part (r_str r) (na_begin a) (na_end a) = t /\ is_runtime a = false
  | Runtime n _ x => n <> [] -> exists a, In a (r_named r) /\ na_name a = n /\ is_runtime a = true /\ na_begin a = Z.of_N (len (args_of l1))
  | Plain _ => True
  end.
Proof.
  intros (Hs & Ha & Hn) ->. destruct s as [t|n t|n t x]; [exact I| |].
  - eexists. split; [rewrite Hn, named_of_app; apply in_or_app; right; left; reflexivity|]. cbn [na_name na_begin na_end]. split; [reflexivity|]. split; [|unfold is_runtime; cbn [na_begin na_end]; apply Z.ltb_ge; lia].
    rewrite Hs. unfold part. rewrite text_of_app. cbn [text_of flat_map seg_text].
    replace (Z.to_nat (Z.of_N (0 + len (text_of l1)))) with (length (text_of l1)) by (unfold len; lia).
    replace (Z.to_nat (Z.of_N (0 + len (text_of l1) + len t) - Z.of_N (0 + len (text_of l1)))) with (length t) by (unfold len; lia).
    rewrite skipn_app, skipn_all, Nat.sub_diag. cbn [app skipn]. rewrite firstn_app, firstn_all, Nat.sub_diag. apply app_nil_r.
  - intros Hne. assert (El : len n =? 0 = false) by (apply N.eqb_neq; destruct n; [contradiction|rewrite len_cons; lia]).
    eexists. split; [rewrite Hn, named_of_app; apply in_or_app; right; cbn [named_of]; rewrite El; left; reflexivity|]. cbn [na_name na_begin na_end]. split; [reflexivity|]. split; [unfold is_runtime; cbn [na_begin na_end]; apply Z.ltb_lt; lia|]. reflexivity.
Qed.
End Named.
(** ** ct_format *)
Section Format.
Context {V X : Type}.
Variable text : option (list N) -> V -> list N -> Prop.
Variable of_str : list N -> V.
Variable fmt1 : list N -> V -> option (list N).
Variable P : list N -> Prop.

Lemma piece_ok lit name opts (a : arg V X) l : verbatim text fmt1 P -> P (fmt_text lit) -> ~ In 58 name -> arg_segs text of_str name opts a l ->
  exists r, format_piece fmt1 of_str (piece_of (lit, (name, opts))) a = Some r /\ made_of r (Plain (fmt_text lit) :: l).
Proof.
  intros Hv HP Hn Ha. unfold format_piece, piece_of. cbn [fst snd sp_view sp_start]. rewrite extract_ok by exact Hn. cbn [fst snd]. destruct a as [v|r|x]; cbn [arg_segs format1] in *.
  - destruct Ha as (t & Ht & ->). rewrite (Hv _ _ _ _ HP Ht). eexists. split; [reflexivity|]. unfold made_of. cbn [r_str r_args r_named].
    destruct (len name =? 0); cbn [text_of args_of flat_map seg_text seg_args app named_of]; rewrite ?app_nil_r; (split; [reflexivity|]); (split; [reflexivity|]); [reflexivity|]. rewrite len_app. change (0 + len (fmt_text lit)) with (len (fmt_text lit)). reflexivity.
  - destruct Ha as ((S1 & A1 & N1) & Ht). rewrite (Hv _ _ _ _ HP Ht). eexists. split; [reflexivity|]. unfold made_of. cbn [r_str r_args r_named text_of args_of flat_map seg_text seg_args app named_of].
    repeat split; [rewrite S1; reflexivity|exact A1|]. rewrite N1, named_of_shift. reflexivity.
  - subst l. eexists. split; [reflexivity|]. unfold made_of. cbn [r_str r_args r_named text_of args_of flat_map seg_text seg_args app named_of]. rewrite app_nil_r. repeat split.
    change (len (@nil X)) with 0. destruct (len name =? 0); reflexivity.
Qed.
Lemma all_ok ps tail : forall args rest, verbatim text fmt1 P -> Forall (fun x => P (fmt_text (fst x)) /\ ~ In 58 (fst (snd x))) ps -> formats text of_str ps args rest ->
  exists r, format_all fmt1 of_str (map piece_of ps ++ [mk_split (fmt_text tail) (len (fmt_text tail))]) args = Some r /\ made_of r (rest ++ [@Plain X (fmt_text tail)]).
Proof.
  induction ps as [|(lit & name & opts) ps IH]; intros args rest Hv HP F; inversion F as [|lit' name' opts' a l ps' args0 rest0 Hseg Hrest]; subst.
  - cbn [map app format_all sp_view]. eexists. split; [reflexivity|]. unfold made_of. cbn [r_str r_args r_named app text_of args_of flat_map seg_text seg_args named_of]. rewrite app_nil_r. auto.
  - apply Forall_cons_iff in HP as ((HP1 & HP2) & HP). cbn [fst snd] in *. destruct (piece_ok lit name opts a l Hv HP1 HP2 Hseg) as (r & E1 & M1).
    destruct (IH args0 rest0 Hv HP Hrest) as (r' & E2 & M2). cbn [map app].
    assert (G : format_all fmt1 of_str (piece_of (lit, (name, opts)) :: map piece_of ps ++ [mk_split (fmt_text tail) (len (fmt_text tail))]) (a :: args0)
      = match format_piece fmt1 of_str (piece_of (lit, (name, opts))) a with Some r => match format_all fmt1 of_str (map piece_of ps ++ [mk_split (fmt_text tail) (len (fmt_text tail))]) args0 with Some rest => Some (plus r rest) | None => None end | None => None end).
    { destruct (map piece_of ps ++ [mk_split (fmt_text tail) (len (fmt_text tail))]) eqn:Em; [destruct ps; discriminate|reflexivity]. }
    rewrite G, E1, E2. eexists. split; [reflexivity|]. pose proof (made_of_plus _ _ _ _ M1 M2) as M. cbn [app] in M. rewrite <- app_assoc. exact M.
Qed.
Lemma cut_names l : Forall item_ok l -> Forall (fun x => ~ In 58 (fst (snd x))) (fst (cut l)).
Proof.
  induction l as [|i l IH]; intros H; [constructor|]. apply Forall_cons_iff in H as (Hi & H). specialize (IH H). cbn [cut]. destruct i as [c| |n o].
  - destruct (cut l) as ([|(p & s) ps] & t); cbn [fst] in *; [constructor|]. apply Forall_cons_iff in IH as (A & B). constructor; assumption.
  - destruct (cut l) as ([|(p & s) ps] & t); cbn [fst] in *; [constructor|]. apply Forall_cons_iff in IH as (A & B). constructor; assumption.
  - cbn [fst]. constructor; [exact (proj1 (proj2 Hi))|exact IH].
Qed.
Lemma cut_count l : N.of_nat (length (fst (cut l))) = specs l.
Proof.
  induction l as [|i l IH]; [reflexivity|]. cbn [cut]. destruct i as [c| |n o]; unfold specs in *; cbn [filter is_spec].
  - rewrite <- IH. destruct (cut l) as ([|(p & s) ps] & t); reflexivity.
  - rewrite <- IH. destruct (cut l) as ([|(p & s) ps] & t); reflexivity.
  - cbn [fst length]. rewrite len_cons. lia.
Qed.
Lemma formats_length ps (args : list (arg V X)) rest : formats text of_str ps args rest -> length args = length ps.
Proof. induction 1; cbn [length]; congruence. Qed.
Theorem ct_format_ok l args segs : verbatim text fmt1 P -> Forall item_ok l -> Forall (fun x => P (fmt_text (fst x))) (fst (cut l)) -> formats text of_str (fst (cut l)) args segs ->
  exists r, ct_format fmt1 of_str (fmt_text l) args = Some r /\ made_of r (segs ++ [@Plain X (fmt_text (snd (cut l)))]).
Proof.
  intros Hv Hok HP F. unfold ct_format. destruct (split_ok l Hok) as (-> & ->). cbv beta iota.
  pose proof (formats_length _ _ _ F) as L. pose proof (cut_count l) as C. unfold len at 1. rewrite L, C, N.eqb_refl. unfold pieces_of.
  apply all_ok; [exact Hv| |exact F]. pose proof (cut_names l Hok) as Hn. rewrite Forall_forall in *. intros x Hx. split; [apply HP|apply Hn]; exact Hx.
Qed.
Theorem ct_format_arity l (args : list (arg V X)) : Forall item_ok l -> len args <> specs l -> ct_format fmt1 of_str (fmt_text l) args = None.
Proof.
  intros Hok Hne. unfold ct_format. destruct (split_ok l Hok) as (-> & ->). cbv beta iota. destruct (N.eqb_spec (specs l) (len args)); [congruence|reflexivity].
Qed.
(** Braces nested in a specifier. *)
Lemma find_spec_no r : ~ In 123 r -> find_spec r = len r.
Proof. induction r as [|c r IH]; intros H; [reflexivity|]. cbn [find_spec]. destruct (N.eqb_spec c 123) as [E|E]; [exfalso; apply H; left; exact E|]. rewrite IH by (intros Hi; apply H; right; exact Hi). rewrite len_cons. lia. Qed.
Theorem nested_refused a b tail (args : list (arg V X)) : a <> [] -> plain a -> plain b -> ~ In 123 tail ->
  ct_format fmt1 of_str (123 :: a ++ 123 :: b ++ 125 :: tail) args = None.
Proof.
  intros Hne Ha Hb Ht. unfold ct_format. rewrite count_specifiers_ok.
  assert (C : cnt (123 :: a ++ 123 :: b ++ 125 :: tail) = 2).
  { rewrite cnt_cons. change (123 =? 123) with true. cbv iota. destruct a as [|c a]; [contradiction|]. cbn [app]. assert (Hc : c <> 123) by (intros ->; apply (plain_no123 _ Ha); left; reflexivity).
    apply N.eqb_neq in Hc. rewrite Hc. change (c :: a ++ 123 :: b ++ 125 :: tail) with ((c :: a) ++ 123 :: b ++ 125 :: tail). rewrite (cnt_plain _ (plain_no123 _ Ha)), cnt_cons. change (123 =? 123) with true. cbv iota.
    assert (B : cnt (b ++ 125 :: tail) = 0).
    { rewrite (cnt_plain _ (plain_no123 _ Hb)). replace (125 :: tail) with ((125 :: tail) ++ []) by apply app_nil_r. rewrite cnt_plain; [reflexivity|]. intros [Hi|Hi]; [discriminate|contradiction]. }
    destruct (b ++ 125 :: tail) as [|d r] eqn:E; [destruct b; discriminate|]. assert (Hd : d <> 123).
    { intros ->. destruct b as [|x b]; cbn in E; [discriminate|]. injection E as -> _. apply (plain_no123 _ Hb). left. reflexivity. }
    apply N.eqb_neq in Hd. rewrite Hd, B. reflexivity. }
  rewrite C. cbv beta iota. unfold split_specifiers. change (N.to_nat (2 + 1)) with 3%nat.
  set (s := 123 :: a ++ 123 :: b ++ 125 :: tail). destruct (length s) as [|f] eqn:El; [discriminate|]. cbn [split_from].
  assert (F : find_spec s = 0). { unfold s. cbn [find_spec]. change (123 =? 123) with true. cbv iota. destruct a as [|c a]; [contradiction|]. cbn [app]. assert (Hc : c <> 123) by (intros ->; apply (plain_no123 _ Ha); left; reflexivity). apply N.eqb_neq in Hc. rewrite Hc. reflexivity. }
  rewrite F. destruct (N.eqb_spec 0 (len s)) as [E|E]; [unfold s in E; rewrite len_cons in E; lia|]. change (skipn (N.to_nat 0) s) with s.
  assert (F2 : find_in 125 s = len (123 :: a ++ 123 :: b)).
  { replace s with ((123 :: a ++ 123 :: b) ++ 125 :: tail) by (unfold s; norm; reflexivity). apply find_in_first. intros [Hi|Hi]; [discriminate|]. apply in_app_or in Hi as [Hi|[Hi|Hi]]; [exact (plain_no125 _ Ha Hi)|discriminate|exact (plain_no125 _ Hb Hi)]. }
  rewrite F2, N.add_0_l. assert (Es : s = (123 :: a ++ 123 :: b ++ [125]) ++ tail) by (unfold s; norm; reflexivity).
  assert (L2 : len (123 :: a ++ 123 :: b ++ [125]) = len (123 :: a ++ 123 :: b) + 1) by (rewrite !len_cons, !len_app, !len_cons, !len_app; change (len [125]) with 1; lia).
  destruct (N.eqb_spec (len (123 :: a ++ 123 :: b)) (len s)) as [E2|E2]; [rewrite Es, len_app, L2 in E2; lia|].
  rewrite <- L2. assert (Sk : skipn (N.to_nat (len (123 :: a ++ 123 :: b ++ [125]))) s = tail) by (rewrite Es; unfold len; rewrite Nat2N.id, skipn_app, skipn_all, Nat.sub_diag; reflexivity).
  rewrite Sk.
  destruct f as [|f]; cbn [split_from]; rewrite (find_spec_no tail Ht), N.eqb_refl; cbv beta iota; cbn [repeat].
  - unfold s in El. cbn [length] in El. rewrite app_length in El. cbn [length] in El. lia.
  - destruct (N.eqb_spec 2 (len args)) as [Ea|Ea]; [|reflexivity]. destruct args as [|x1 [|x2 [|x3 args]]]; try (rewrite ?len_cons in Ea; change (len (@nil (arg V X))) with 0 in Ea; lia).
    cbn [format_all]. destruct (format_piece fmt1 of_str _ x1); [|reflexivity].
    assert (X0 : format_piece fmt1 of_str (mk_split tail (len tail)) x2 = None).
    { unfold format_piece. cbn [sp_view sp_start]. unfold extract_format1_str. destruct (N.ltb_spec (len tail + 1) (len tail + 1)); [reflexivity|].
      replace (skipn (N.to_nat (len tail + 1)) tail) with (@nil N) by (symmetry; apply skipn_all2; unfold len; lia). change (find_in 58 []) with 0.
      destruct (N.eqb_spec (len tail + 1 + 0) (N.max (len tail + 1) (len tail))); [|lia]. destruct (Z.eqb_spec (Z.of_N (len tail)) (Z.of_N (len tail) - 2)); [lia|].
      unfold slice at 1. destruct (Z.leb_spec 0 (Z.of_N (len tail) - 1 - Z.of_N (len tail + 1))); [lia|]. rewrite andb_false_r. cbn [andb]. reflexivity. }
    rewrite X0. reflexivity.
Qed.
(** Escapes: a formatter that undoes them makes the recorded span begin too late. *)
Theorem escape_span lit name opts v t : (forall l o v t, text o v t -> fmt1 (l ++ bare o) v = Some (unescaped l ++ t)) ->
  Forall item_ok (lit ++ [Spec name opts]) -> lits lit -> name <> [] -> text opts v t ->
  @ct_format V X fmt1 of_str (fmt_text (lit ++ [Spec name opts])) [ACt v] =
    Some (mk_result (unescaped (fmt_text lit) ++ t) [] [mk_named name (Z.of_N (len (fmt_text lit))) (Z.of_N (len (unescaped (fmt_text lit)) + len t))]).
Proof.
  intros Hf Hok Hl Hne Ht. unfold ct_format. destruct (split_ok _ Hok) as (-> & ->). cbv beta iota.
  assert (Sp : specs (lit ++ [Spec name opts]) = 1) by (rewrite specs_app, (specs_lits _ Hl); reflexivity). rewrite Sp. change (1 =? len [@ACt V X v]) with true. cbv iota.
  unfold pieces_of. rewrite (cut_lits lit [Spec name opts] Hl [] (name, opts) [] [] eq_refl). cbn [fst snd map app]. rewrite app_nil_r. unfold piece_of. cbn [fst snd]. cbn [format_all].
  apply Forall_app in Hok as (_ & Hok). apply Forall_cons_iff in Hok as ((_ & Hn & _) & _).
  unfold format_piece. cbn [sp_view sp_start]. rewrite extract_ok by exact Hn. cbn [fst snd format1]. rewrite (Hf _ _ _ _ Ht). assert (El : len name =? 0 = false) by (apply N.eqb_neq; destruct name; [contradiction|rewrite len_cons; lia]). rewrite El.
  unfold plus. cbn [r_str r_args r_named app map fmt_text flat_map]. rewrite !app_nil_r, len_app. reflexivity.
Qed.
End Format.
(** Undoing the escapes shortens the text by one character for each. *)
Lemma unescaped_len lit : Forall (fun i => match i with Ch c => c <> 123 /\ c <> 125 | Esc => True | Spec _ _ => False end) lit ->
  len (fmt_text lit) = len (unescaped (fmt_text lit)) + len (filter (fun i => match i with Esc => true | _ => false end) lit).
Proof.
  induction lit as [|i lit IH]; intros H; [reflexivity|]. apply Forall_cons_iff in H as (Hi & H). specialize (IH H). destruct i as [c| |n o]; [| |destruct Hi].
  - cbn [fmt_text flat_map item_text app filter]. change (flat_map item_text lit) with (fmt_text lit). destruct Hi as (H1 & H2).
    assert (U : unescaped (c :: fmt_text lit) = c :: unescaped (fmt_text lit)).
    { clear - H1 H2. destruct c as [|p]; [reflexivity|]. repeat (destruct p as [p|p|]; try reflexivity); contradiction. }
    rewrite U, !len_cons. lia.
  - cbn [fmt_text flat_map item_text app filter]. change (flat_map item_text lit) with (fmt_text lit). change (unescaped (123 :: 123 :: fmt_text lit)) with (123 :: unescaped (fmt_text lit)). rewrite !len_cons. lia.
Qed.
