From Verif Require Import Base BaseLemmas CtStringModel CtStringProofs CtFormatModel CtFormatSpec CtFormatProofs CtFormatProofs2 TwoStageSpec.
Open Scope N_scope.

Section TwoStage.
Context {V : Type}.
Variable text : option (list N) -> V -> option (list N).
Notation read := (TwoStageSpec.read text).
Notation format := (TwoStageSpec.format text).

Lemma emit_some t o r : emit t o = Some r -> exists x, o = Some x /\ r = t ++ x.
Proof. destruct o as [x|]; cbn; [|discriminate]. intros H. injection H as <-. eauto. Qed.
Lemma read_app s1 : forall st a1 t1 s2 a2, read st s1 a1 = Some t1 -> read st (s1 ++ s2) (a1 ++ a2) = emit t1 (format s2 a2).
Proof.
  induction s1 as [|c s1 IH]; intros st a1 t1 s2 a2 H; cbn [TwoStageSpec.read app] in *.
  - destruct st; try discriminate. destruct a1; [|discriminate]. injection H as <-. cbn [app]. unfold TwoStageSpec.format, emit. destruct (read Outside s2 a2); reflexivity.
  - assert (E : forall u st' args' , emit u (read st' s1 args') = Some t1 -> emit u (read st' (s1 ++ s2) (args' ++ a2)) = emit t1 (format s2 a2)).
    { intros u st' args' Hu. apply emit_some in Hu as (x & Hx & ->). rewrite (IH _ _ _ _ _ Hx). unfold emit. destruct (format s2 a2); cbn; [rewrite app_assoc|]; reflexivity. }
    destruct st.
    + destruct (c =? 123); [apply IH; exact H|]. destruct (c =? 125); [apply IH; exact H|apply E; exact H].
    + destruct (c =? 123); [apply E; exact H|]. destruct (c =? 125); [|apply IH; exact H]. destruct a1 as [|v a1]; [discriminate|]. cbn [app]. destruct (field_text text [] v); [apply E; exact H|discriminate].
    + destruct (c =? 125); [apply E; exact H|discriminate].
    + destruct (c =? 123); [discriminate|]. destruct (c =? 125); [|apply IH; exact H]. destruct a1 as [|v a1]; [discriminate|]. cbn [app]. destruct (field_text text _ v); [apply E; exact H|discriminate].
Qed.
Lemma format_app s1 a1 t1 s2 a2 t2 : format s1 a1 = Some t1 -> format s2 a2 = Some t2 -> format (s1 ++ s2) (a1 ++ a2) = Some (t1 ++ t2).
Proof. intros H1 H2. unfold TwoStageSpec.format. rewrite (read_app _ _ _ _ _ _ H1), H2. reflexivity. Qed.

Lemma read_lit l : literal l -> forall s a, read Outside (written l ++ s) a = emit (meant l) (read Outside s a).
Proof.
  induction l as [|x l IH]; intros H s a.
  - cbn. destruct (read Outside s a); reflexivity.
  - assert (Hl : literal l) by (intros c Hc; apply H; right; exact Hc). specialize (IH Hl s a). destruct x as [c| |]; cbn [written meant flat_map app] in *.
    + destruct (H c (or_introl eq_refl)) as (H1 & H2). apply N.eqb_neq in H1, H2. cbn [TwoStageSpec.read]. rewrite H1, H2. unfold written in IH. rewrite IH. unfold emit. fold (meant l). destruct (read Outside s a); reflexivity.
    + cbn [TwoStageSpec.read]. change (123 =? 123) with true. cbv iota. unfold written in IH. rewrite IH. unfold emit. fold (meant l). destruct (read Outside s a); reflexivity.
    + cbn [TwoStageSpec.read]. change (125 =? 123) with false. change (125 =? 125) with true. cbv iota. unfold written in IH. rewrite IH. unfold emit. fold (meant l). destruct (read Outside s a); reflexivity.
Qed.
Lemma format_lit l : literal l -> format (written l) [] = Some (meant l).
Proof. intros H. unfold TwoStageSpec.format. rewrite <- (app_nil_r (written l)), (read_lit l H). cbn. rewrite app_nil_r. reflexivity. Qed.
Lemma format_plain s : no_braces s -> format s [] = Some s.
Proof.
  induction s as [|c s IH]; intros H; [reflexivity|]. destruct (H c (or_introl eq_refl)) as (H1 & H2). apply N.eqb_neq in H1, H2. unfold TwoStageSpec.format in *. cbn [TwoStageSpec.read]. rewrite H1, H2, IH; [reflexivity|]. intros d Hd. apply H. right. exact Hd.
Qed.
Lemma read_inside o : forall r s v a, no_braces o -> read (Inside r) (o ++ 125 :: s) (v :: a) = match field_text text (r ++ o) v with Some t => emit t (read Outside s a) | None => None end.
Proof.
  induction o as [|c o IH]; intros r s v a H; cbn [app TwoStageSpec.read].
  - change (125 =? 123) with false. change (125 =? 125) with true. cbv iota. rewrite app_nil_r. reflexivity.
  - destruct (H c (or_introl eq_refl)) as (H1 & H2). apply N.eqb_neq in H1, H2. rewrite H1, H2, IH by (intros d Hd; apply H; right; exact Hd). rewrite <- app_assoc. reflexivity.
Qed.
Lemma read_bare opts : match opts with Some o => no_braces o | None => True end -> forall s v a, read Outside (bare opts ++ s) (v :: a) = match text opts v with Some t => emit t (read Outside s a) | None => None end.
Proof.
  intros H s v a. unfold bare. cbn [app TwoStageSpec.read]. change (123 =? 123) with true. cbv iota. destruct opts as [o|]; cbn [opts_text app TwoStageSpec.read].
  - change (58 =? 123) with false. change (58 =? 125) with false. cbv iota. rewrite <- app_assoc. cbn [app]. rewrite read_inside by exact H. cbn [app field_text]. change (58 =? 58) with true. reflexivity.
  - change (125 =? 123) with false. change (125 =? 125) with true. reflexivity.
Qed.
Definition one (s : list N) (v : V) : option (list N) := format s [v].
Lemma one_piece lit opts v : literal lit -> match opts with Some o => no_braces o | None => True end -> one (written lit ++ bare opts) v = option_map (app (meant lit)) (text opts v).
Proof.
  intros H1 H2. unfold one, TwoStageSpec.format. rewrite (read_lit lit H1), <- (app_nil_r (bare opts)), (read_bare opts H2). destruct (text opts v) as [t|]; [|reflexivity]. cbn. rewrite app_nil_r. reflexivity.
Qed.

(** ** The format strings of CtFormatSpec *)
Definition item_of (x : ch) : list item := match x with Lit c => [Ch c] | OpenBrace => [Esc] | CloseBrace => [Ch 125; Ch 125] end.
Definition items_of (fs : list (list ch * field)) (tail : list ch) : list item :=
  flat_map (fun x => flat_map item_of (fst x) ++ [Spec (fst (snd x)) (snd (snd x))]) fs ++ flat_map item_of tail.
Lemma written_items l : fmt_text (flat_map item_of l) = written l.
Proof. induction l as [|x l IH]; [reflexivity|]. unfold fmt_text, written in *. cbn [flat_map]. rewrite flat_map_app, IH. destruct x; reflexivity. Qed.
Lemma source_items fs tail : fmt_text (items_of fs tail) = source fs tail.
Proof.
  unfold items_of, source. unfold fmt_text. rewrite flat_map_app. fold (fmt_text (flat_map item_of tail)). rewrite written_items. f_equal.
  induction fs as [|x fs IH]; [reflexivity|]. cbn [flat_map]. rewrite !flat_map_app, IH. f_equal. fold (fmt_text (flat_map item_of (fst x))). rewrite written_items. f_equal. cbn. rewrite app_nil_r. unfold opts_text. destruct (snd (snd x)); reflexivity.
Qed.
Lemma no_braces_plain s : no_braces s -> plain s.
Proof. intros H. apply Forall_forall. exact H. Qed.
Lemma items_ok fs tail : well_formed fs tail -> Forall item_ok (items_of fs tail).
Proof.
  assert (L : forall l, literal l -> Forall item_ok (flat_map item_of l)).
  { intros l H. apply Forall_forall. intros i Hi. apply in_flat_map in Hi as (x & Hx & Hi). destruct x as [c| |]; cbn [item_of] in Hi.
    - destruct Hi as [<-|[]]. exact (proj1 (H c Hx)).
    - destruct Hi as [<-|[]]. exact I.
    - destruct Hi as [<-|[<-|[]]]; cbn; discriminate. }
  intros (H1 & H2). apply Forall_app. split; [|apply L; exact H2]. apply Forall_forall. intros i Hi. apply in_flat_map in Hi as ((li & n & o) & Hx & Hi). destruct (H1 _ Hx) as (Hl & P1 & P2 & P3). cbn [fst snd] in *.
  apply in_app_or in Hi as [Hi|[<-|[]]]; [specialize (L _ Hl); rewrite Forall_forall in L; apply L; exact Hi|].
  cbn. split; [apply no_braces_plain; exact P1|]. split; [exact P2|]. destruct o; [apply no_braces_plain; exact P3|exact I].
Qed.
Lemma cut_lits l r : forallb (fun i => negb (is_spec i)) l = true -> cut (l ++ r) = match cut r with ((p, s) :: ps, t) => ((l ++ p, s) :: ps, t) | ([], t) => ([], l ++ t) end.
Proof.
  induction l as [|i l IH]; intros H; cbn [app].
  - destruct (cut r) as ([|(p & s) ps] & t); reflexivity.
  - cbn [forallb] in H. apply andb_prop in H as (H1 & H2). destruct i; try discriminate; cbn [cut]; rewrite (IH H2); destruct (cut r) as ([|(p & s) ps] & t); reflexivity.
Qed.
Lemma lits_of l : forallb (fun i => negb (is_spec i)) (flat_map item_of l) = true.
Proof. induction l as [|x l IH]; [reflexivity|]. cbn [flat_map]. rewrite forallb_app, IH. destruct x; reflexivity. Qed.
Lemma cut_items fs tail : cut (items_of fs tail) = (map (fun x => (flat_map item_of (fst x), snd x)) fs, flat_map item_of tail).
Proof.
  induction fs as [|x fs IH].
  - unfold items_of. cbn [flat_map app map]. rewrite <- (app_nil_r (flat_map item_of tail)), cut_lits by apply lits_of. cbn [cut]. reflexivity.
  - unfold items_of in *. cbn [flat_map]. rewrite <- !app_assoc. rewrite cut_lits by apply lits_of. cbn [app cut]. rewrite IH. cbn [fst snd map app]. rewrite app_nil_r. destruct x as (l & n & o). reflexivity.
Qed.

(** ** ct_format, piece by piece *)
Variable of_str : list N -> V.
Notation finally := (TwoStageSpec.finally text of_str).
Lemma piece_eq lit name opts (a : arg V V) : ~ In 58 name ->
  format_piece one of_str (piece_of (flat_map item_of lit, (name, opts))) a = format1 one of_str (written lit ++ bare opts) name (len (written lit)) a.
Proof.
  intros H. unfold format_piece, piece_of. cbn [fst snd sp_view sp_start]. rewrite written_items, extract_ok by exact H. reflexivity.
Qed.
Fixpoint pieces (fs : list (list ch * field)) (tail : list ch) (args : list (arg V V)) : option (result V) :=
  match fs, args with
  | [], [] => Some (mk_result (written tail) [] [])
  | x :: fs, a :: args =>
      match format1 one of_str (written (fst x) ++ bare (snd (snd x))) (fst (snd x)) (len (written (fst x))) a, pieces fs tail args with
      | Some r, Some rest => Some (plus r rest)
      | _, _ => None
      end
  | _, _ => None
  end.
Lemma all_eq fs tail : forall args, (forall x, In x fs -> ~ In 58 (fst (snd x))) ->
  format_all one of_str (map (fun x => piece_of (flat_map item_of (fst x), snd x)) fs ++ [mk_split (written tail) (len (written tail))]) args = pieces fs tail args.
Proof.
  induction fs as [|x fs IH]; intros args H; cbn [map app pieces].
  - destruct args; [reflexivity|]. cbn [format_all]. destruct (format_piece _ _ _ _); [destruct args|]; reflexivity.
  - assert (G : forall p ps a args, ps <> [] -> format_all one of_str (p :: ps) (a :: args) = match @format_piece V V one of_str p a with Some r => match format_all one of_str ps args with Some rest => Some (plus r rest) | None => None end | None => None end)
      by (intros p [|q ps] a args' Hp; [contradiction|reflexivity]).
    destruct args as [|a args].
    + destruct (map (fun x0 => piece_of (flat_map item_of (fst x0), snd x0)) fs ++ [mk_split (written tail) (len (written tail))]) eqn:E; [destruct fs; discriminate|reflexivity].
    + rewrite G by (destruct fs; discriminate). destruct x as (l & n & o). cbn [fst snd]. rewrite piece_eq by exact (H _ (or_introl eq_refl)). rewrite IH by (intros y Hy; apply H; right; exact Hy). reflexivity.
Qed.
Lemma pieces_length fs tail : forall args, length args <> length fs -> pieces fs tail args = None.
Proof.
  induction fs as [|x fs IH]; intros [|a args] H; cbn [pieces length] in *; try reflexivity; [contradiction|]. rewrite IH by lia. destruct (format1 _ _ _ _ _ a); reflexivity.
Qed.
Lemma ct_format_pieces fs tail args : well_formed fs tail -> @ct_format V V one of_str (source fs tail) args = pieces fs tail args.
Proof.
  intros W. pose proof (items_ok fs tail W) as Hok. destruct (split_ok _ Hok) as (E1 & E2). unfold ct_format. rewrite <- source_items, E1, E2.
  assert (Hs : specs (items_of fs tail) = len fs).
  { unfold specs, items_of, len. f_equal. rewrite filter_app, app_length.
    assert (Z : forall l, filter is_spec (flat_map item_of l) = []) by (intros l; induction l as [|[c| |] l IHl]; [reflexivity| | |]; cbn; exact IHl).
    rewrite Z. cbn [length]. rewrite Nat.add_0_r. clear. induction fs as [|x fs IH]; [reflexivity|]. cbn [flat_map]. rewrite !filter_app, !app_length, IH.
    assert (Z : forall l, filter is_spec (flat_map item_of l) = []) by (intros l; induction l as [|[c| |] l IHl]; [reflexivity| | |]; cbn; exact IHl).
    rewrite Z. reflexivity. }
  rewrite Hs. destruct (N.eqb_spec (len fs) (len args)) as [El|El].
  - unfold pieces_of. rewrite cut_items. cbn [fst snd]. rewrite written_items. rewrite map_map. apply all_eq. intros x Hx. exact (proj1 (proj2 (proj2 (proj1 W x Hx)))).
  - symmetry. apply pieces_length. unfold len in El. lia.
Qed.

(** ** Two stages *)
Lemma unescaped_meant l : unescaped l -> meant l = written l.
Proof.
  intros (H1 & H2). induction l as [|[c| |] l IH]; [reflexivity| | |].
  - unfold meant, written in *. cbn [flat_map]. rewrite IH; [reflexivity| |]; intros Hi; [apply H1|apply H2]; right; exact Hi.
  - destruct H1. left. reflexivity.
  - destruct H2. left. reflexivity.
Qed.
Lemma written_no_braces l : literal l -> unescaped l -> no_braces (written l).
Proof.
  intros H (H1 & H2) c Hc. apply in_flat_map in Hc as (x & Hx & Hc). destruct x as [d| |]; [|contradiction|contradiction]. destruct Hc as [<-|[]]. apply H. exact Hx.
Qed.
Lemma two_stage_piece lit f a t : literal lit -> proper f -> finally (snd f) a t -> safe lit a t ->
  exists r, format1 one of_str (written lit ++ bare (snd f)) (fst f) (len (written lit)) a = Some r /\ format (r_str r) (r_args r) = Some (meant lit ++ t).
Proof.
  intros Hl (_ & _ & Ho) Hf Hs. destruct a as [v|r|x]; cbn [format1 TwoStageSpec.finally safe] in *.
  - rewrite one_piece by assumption. rewrite Hf. cbn [option_map]. eexists. split; [reflexivity|]. cbn [r_str r_args]. apply format_plain. destruct Hs as (Hu & Ht). rewrite unescaped_meant by exact Hu.
    intros c Hc. apply in_app_or in Hc as [Hc|Hc]; [exact (written_no_braces _ Hl Hu _ Hc)|exact (Ht _ Hc)].
  - destruct Hf as (H1 & H2). rewrite one_piece by assumption. rewrite H2. cbn [option_map]. eexists. split; [reflexivity|]. cbn [r_str r_args]. rewrite unescaped_meant by exact Hs. change (r_args r) with ([] ++ r_args r). apply format_app; [|exact H1]. apply format_plain. apply written_no_braces; assumption.
  - eexists. split; [reflexivity|]. cbn [r_str r_args]. unfold TwoStageSpec.format. rewrite (read_lit lit Hl), <- (app_nil_r (bare (snd f))), (read_bare _ Ho), Hf. cbn. rewrite app_nil_r. reflexivity.
Qed.
Lemma two_stage fs tail : forall args ts, well_formed fs tail -> all3 (fun x a t => finally (snd (snd x)) a t /\ safe (fst x) a t) fs args ts ->
  exists r, pieces fs tail args = Some r /\ format (r_str r) (r_args r) = Some (at_once fs ts tail).
Proof.
  induction fs as [|x fs IH]; intros args ts (W1 & W2) H; inversion H as [|xx b c la lb lc HR HT]; subst.
  - exists (mk_result (written tail) [] []). split; [reflexivity|]. cbn [at_once r_str r_args]. apply format_lit. exact W2.
  - destruct HR as (Hf & Hs). destruct (W1 x (or_introl eq_refl)) as (Hl & Hp). destruct (two_stage_piece (fst x) (snd x) b c Hl Hp Hf Hs) as (r & E1 & F1).
    destruct (IH lb lc (conj (fun y Hy => W1 y (or_intror Hy)) W2) HT) as (r' & E2 & F2). cbn [pieces]. rewrite E1, E2. eexists. split; [reflexivity|].
    cbn [plus r_str r_args at_once]. rewrite app_assoc. apply format_app; assumption.
Qed.

(** Only compile-time arguments. *)
Lemma compile_time_text fs tail : forall vs ts, well_formed fs tail -> all3 (fun x v t => text (snd (snd x)) v = Some t) fs vs ts ->
  exists r, pieces fs tail (map (@ACt V V) vs) = Some r /\ r_args r = [] /\ exists pre, r_str r = pre ++ written tail /\ at_once fs ts tail = pre ++ meant tail.
Proof.
  induction fs as [|x fs IH]; intros vs ts (W1 & W2) H; inversion H as [|xx b c la lb lc HR HT]; subst.
  - eexists. split; [reflexivity|]. split; [reflexivity|]. exists []. split; reflexivity.
  - destruct (W1 x (or_introl eq_refl)) as (Hl & _ & _ & Ho). destruct (IH lb lc (conj (fun y Hy => W1 y (or_intror Hy)) W2) HT) as (r' & E2 & A2 & pre & P1 & P2).
    cbn [map pieces format1]. rewrite one_piece by assumption. rewrite HR. cbn [option_map]. rewrite E2. eexists. split; [reflexivity|]. cbn [plus r_str r_args at_once]. rewrite A2. split; [reflexivity|].
    exists (meant (fst x) ++ c ++ pre). rewrite P1, P2, <- !app_assoc. split; reflexivity.
Qed.
Lemma meant_shorter l : (length (meant l) <= length (written l))%nat /\ (~ unescaped l -> (length (meant l) < length (written l))%nat).
Proof.
  induction l as [|x l (IH1 & IH2)]; unfold meant, written in *; cbn [flat_map].
  - split; [lia|]. intros H. exfalso. apply H. split; intros [].
  - rewrite !app_length. split; [destruct x; cbn; lia|]. intros H. destruct x as [c| |]; cbn [length]; try lia.
    assert (~ unescaped l) by (intros (H1 & H2); apply H; split; intros [?|?]; try discriminate; [exact (H1 H0)|exact (H2 H0)]). specialize (IH2 H0). lia.
Qed.

Lemma read_plain x : no_braces x -> forall s a, read Outside (x ++ s) a = emit x (read Outside s a).
Proof.
  induction x as [|c x IH]; intros H s a; cbn [app]; [destruct (read Outside s a); reflexivity|]. destruct (H c (or_introl eq_refl)) as (H1 & H2). apply N.eqb_neq in H1, H2. cbn [TwoStageSpec.read]. rewrite H1, H2, IH by (intros d Hd; apply H; right; exact Hd). destruct (read Outside s a); reflexivity.
Qed.
Lemma inside_bad y : forall r a, (exists c q, r = c :: q /\ c <> 58) -> read (Inside r) y a = None.
Proof.
  induction y as [|d y IH]; intros r a (c & q & -> & Hc); cbn [TwoStageSpec.read]; [reflexivity|]. destruct (d =? 123); [reflexivity|]. destruct (d =? 125).
  - destruct a as [|v a]; [reflexivity|]. cbn [field_text]. apply N.eqb_neq in Hc. rewrite Hc. reflexivity.
  - apply IH. exists c, (q ++ [d]). split; [reflexivity|exact Hc].
Qed.
Lemma stuck_fails s rest a : stray_brace s -> format (s ++ rest) a = None.
Proof.
  intros [(x & c & y & -> & Hx & H1 & H2 & H3)|(x & c & y & -> & Hx & H1)]; unfold TwoStageSpec.format; rewrite <- app_assoc; rewrite read_plain by exact Hx; cbn [app TwoStageSpec.read].
  - change (123 =? 123) with true. cbv iota. apply N.eqb_neq in H1, H2. rewrite H1, H2, inside_bad by (exists c, []; split; [reflexivity|exact H3]). reflexivity.
  - change (125 =? 123) with false. change (125 =? 125) with true. cbv iota. apply N.eqb_neq in H1. rewrite H1. reflexivity.
Qed.
Lemma braces_stick lit f fs tail v t args r : well_formed ((lit, f) :: fs) tail -> text (snd f) v = Some t -> stray_brace (meant lit ++ t) ->
  pieces ((lit, f) :: fs) tail (ACt v :: args) = Some r -> format (r_str r) (r_args r) = None.
Proof.
  intros (W1 & W2) Ht Hs E. destruct (W1 (lit, f) (or_introl eq_refl)) as (Hl & _ & _ & Ho). cbn [fst snd] in *. cbn [pieces format1 fst snd] in E. rewrite one_piece in E by assumption. rewrite Ht in E. cbn [option_map] in E.
  destruct (pieces fs tail args) as [rest|]; [|discriminate]. injection E as <-. cbn [plus r_str r_args]. apply stuck_fails. exact Hs.
Qed.
End TwoStage.
