(** ct_format with the freestanding formatter: the instance, and the last proofs about formatting. *)
From Verif Require Import Base BaseLemmas CtStringModel CtStringProofs FmtModel FmtSpec FmtProofs UdlSpec CtFormatModel CtFormatSpec CtFormatProofs CtFormatProofs2.
Open Scope N_scope.

(** ct_format.hpp:336, 355-356 with STDX_FREESTANDING (detail/fmt.hpp:24): one piece formatted. *)
Definition free_fmt1 (piece : list N) (v : value) : option (list N) := option_map view (fmt_format (piece ++ [0]) v).
(** What it writes for a value: {} is decimal, {:x} hexadecimal, nothing else is supported. *)
Definition free_text (opts : option (list N)) (v : value) (t : list N) : Prop :=
  match opts with
  | None => FmtSpec.text 10 v t
  | Some [120] => FmtSpec.text 16 v t
  | _ => False
  end.
Lemma free_verbatim : verbatim free_text free_fmt1 (fun lit => ~ In 123 lit).
Proof.
  intros lit opts v t Hl Ht. unfold free_fmt1.
  assert (G : exists hex, bare opts = spec_text hex /\ FmtSpec.text (spec_base hex) v t).
  { destruct opts as [o|]; cbn [free_text] in Ht; [|exists false; split; [reflexivity|exact Ht]]. destruct o as [|c [|? ?]]; try contradiction.
    - destruct c as [|p]; try contradiction; repeat (destruct p as [p|p|]; try contradiction). exists true. split; [reflexivity|exact Ht].
    - exfalso. destruct c as [|p]; try exact Ht; repeat (destruct p as [p|p|]; try exact Ht). }
  destruct G as (hex & -> & Ht'). rewrite <- app_assoc. pose proof (fmt_ok lit hex [] v t Hl (fun H => H) Ht') as (_ & F). cbn [app] in F. rewrite F. cbn [option_map]. rewrite app_assoc, view_app. reflexivity.
Qed.
Lemma cut_sound l : flat_map (fun '(lit, (name, opts)) => lit ++ [Spec name opts]) (fst (cut l)) ++ snd (cut l) = l /\
  Forall (fun x => forallb (fun i => negb (is_spec i)) (fst x) = true) (fst (cut l)) /\ forallb (fun i => negb (is_spec i)) (snd (cut l)) = true.
Proof.
  induction l as [|i l (I1 & I2 & I3)]; [repeat split; constructor|]. cbn [cut]. destruct i as [c| |n o].
  - destruct (cut l) as ([|(p & (n & o)) ps] & t); cbn [fst snd flat_map app forallb is_spec negb andb] in *; [subst t; auto|]. split; [rewrite <- I1; reflexivity|]. apply Forall_cons_iff in I2 as (A & B). split; [constructor; [exact A|exact B]|exact I3].
  - destruct (cut l) as ([|(p & (n & o)) ps] & t); cbn [fst snd flat_map app forallb is_spec negb andb] in *; [subst t; auto|]. split; [rewrite <- I1; reflexivity|]. apply Forall_cons_iff in I2 as (A & B). split; [constructor; [exact A|exact B]|exact I3].
  - cbn [fst snd flat_map app]. split; [rewrite I1; reflexivity|]. split; [constructor; [reflexivity|exact I2]|exact I3].
Qed.
Lemma in_app_plain {X} (s : seg X) segs p : In s (segs ++ [Plain p]) -> (forall t, s <> Plain t) -> In s segs.
Proof. intros H Hn. apply in_app_or in H as [H|[H|[]]]; [exact H|]. exfalso. apply (Hn p). congruence. Qed.
Lemma named_all {X} (r : result X) segs p : made_of r (segs ++ [Plain p]) ->
    (forall a, In a (r_named r) ->
      (is_runtime a = false /\ exists t, In (NamedText (na_name a) t) segs /\ part (r_str r) (na_begin a) (na_end a) = t) \/
      (is_runtime a = true /\ exists t x, In (Runtime (na_name a) t x) segs /\ rd (r_args r) (Z.to_N (na_begin a)) = Some x)) /\
    (forall n t, In (NamedText n t) segs -> exists a, In a (r_named r) /\ is_runtime a = false /\ na_name a = n /\ part (r_str r) (na_begin a) (na_end a) = t) /\
    (forall n t x, In (Runtime n t x) segs -> n <> [] -> exists a, In a (r_named r) /\ is_runtime a = true /\ na_name a = n /\ rd (r_args r) (Z.to_N (na_begin a)) = Some x).
Proof.
  intros M. repeat split.
  - intros a Ha. destruct (named_meaning r _ a M Ha) as [(R & l1 & t & l2 & E & _ & Hp)|(R & l1 & t & x & l2 & E & Hr & _)].
    + left. split; [exact R|]. exists t. split; [|exact Hp]. apply (in_app_plain _ _ p); [rewrite E; apply in_or_app; right; left; reflexivity|discriminate].
    + right. split; [exact R|]. exists t, x. split; [|exact Hr]. apply (in_app_plain _ _ p); [rewrite E; apply in_or_app; right; left; reflexivity|discriminate].
  - intros n t Hi. apply in_split in Hi as (l1 & l2 & ->). destruct (named_complete r _ l1 (NamedText n t) (l2 ++ [Plain p]) M) as (a & A1 & A2 & A3 & A4); [rewrite <- app_assoc; reflexivity|]. exists a. auto.
  - intros n t x Hi Hne. apply in_split in Hi as (l1 & l2 & ->). destruct (named_complete r _ l1 (Runtime n t x) (l2 ++ [Plain p]) M) as (a & A1 & A2 & A3 & A4); [rewrite <- app_assoc; reflexivity|exact Hne|]. exists a. repeat split; auto.
    rewrite A4, N2Z.id. destruct M as (_ & Ma & _). rewrite Ma, <- app_assoc, args_of_app. cbn [app args_of flat_map seg_args]. apply rd_mid. reflexivity.
Qed.
Lemma escape_refuted V X (text : option (list N) -> V -> list N -> Prop) of_str fmt1 lit name opts (v : V) t :
  (forall l o v t, text o v t -> fmt1 (l ++ bare o) v = Some (unescaped l ++ t)) ->
  Forall item_ok (lit ++ [Spec name opts]) -> Forall (fun i => match i with Ch c => c <> 125 | Esc => True | Spec _ _ => False end) lit -> In Esc lit ->
  name <> [] -> text opts v t -> t <> [] ->
  exists r a, @ct_format V X fmt1 of_str (fmt_text (lit ++ [Spec name opts])) [ACt v] = Some r /\ r_str r = unescaped (fmt_text lit) ++ t /\ r_named r = [a] /\
    na_begin a = (Z.of_N (len (unescaped (fmt_text lit))) + Z.of_N (len (filter (fun i => match i with Esc => true | _ => false end) lit)))%Z /\
    part (r_str r) (na_begin a) (na_end a) <> t.
Proof.
  intros Hf Hok Hl He Hn Ht Hne. assert (Hlits : lits lit) by (eapply Forall_impl; [|exact Hl]; intros [c| |n o] H; [reflexivity|reflexivity|destruct H]).
  pose proof (@escape_span V X text of_str fmt1 (fun _ => True) lit name opts v t Hf Hok Hlits Hn Ht) as E. eexists _, _. split; [apply E|]. cbn [r_str r_named na_begin na_end]. split; [reflexivity|]. split; [reflexivity|].
  assert (U : len (fmt_text lit) = len (unescaped (fmt_text lit)) + len (filter (fun i => match i with Esc => true | _ => false end) lit)).
  { apply unescaped_len. apply Forall_app in Hok as (Hok & _). rewrite Forall_forall in *. intros i Hi. specialize (Hok i Hi). specialize (Hl i Hi). destruct i; cbn in *; auto. }
  split; [rewrite U, N2Z.inj_add; reflexivity|]. unfold part. rewrite U. revert U. generalize (len (unescaped (fmt_text lit))) as u. intros u _ P. apply (f_equal (@length _)) in P. rewrite firstn_length in P.
  assert (K : 1 <= len (filter (fun i => match i with Esc => true | _ => false end) lit)).
  { assert (In Esc (filter (fun i => match i with Esc => true | _ => false end) lit)) by (apply filter_In; auto). destruct (filter _ lit); [contradiction|rewrite len_cons; lia]. }
  assert (T : (1 <= length t)%nat) by (destruct t; [contradiction|cbn; lia]). revert K P. generalize (len (filter (fun i => match i with Esc => true | _ => false end) lit)) as k. intros k K P. unfold len in P. cbn [na_begin na_end] in P. lia.
Qed.
Lemma numerals hex t z : has_width t z -> exists s, FmtSpec.text (spec_base hex) (VInt t z) s /\ forall s', FmtSpec.text (spec_base hex) (VInt t z) s' -> s' = s.
Proof.
  intros H. assert (Hb : 2 <= spec_base hex) by (destruct hex; cbn; lia). exists (numeral_of (turns t) (spec_base hex) z).
  assert (Nm : numeral (spec_base hex) z (numeral_of (turns t) (spec_base hex) z)).
  { apply numeral_of_ok; [exact Hb|]. destruct (Z.eq_dec z 0) as [->|Hz]; [change (Z.abs_N 0) with 0; apply N.neq_0_lt_0, N.pow_nonzero; lia|]. destruct (width_abs t z H Hz) as (sg & w & -> & Hlt). exact Hlt. }
  split; [split; assumption|]. intros s' (_ & Hs'). exact (numeral_unique _ _ _ _ Hb Hs' Nm).
Qed.
