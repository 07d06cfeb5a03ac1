From Verif Require Import Base BaseLemmas TupleModel TupleProofs CallByNeedModel CallByNeedSpec.

Section Proofs.
Context {F A W : Type}.
Variable ok : F -> list A -> bool.
Variable run : W -> F -> list A -> W * option A.
Variable args : list A.
Let n := length args.

Lemma window_nth base l i : i < l -> nth_error (window args base l) i = nth_error args (base + i).
Proof.
  unfold window. intros H. revert base i H. induction l as [|l IH]; intros base i H; [lia|].
  destruct (nth_error args (base + i)) as [x|] eqn:Ex.
  - assert (Hs : nth_error (skipn base args) i = Some x). { rewrite <- Ex. clear. revert base. induction args as [|y r IHr]; intros [|base]; try reflexivity; cbn [skipn]; [destruct i; reflexivity|apply IHr]. }
    rewrite <- Hs. clear -H. revert i H. generalize (skipn base args). generalize (S l). clear. intros m. induction m as [|m IH]; intros [|y r] i H; try lia; [destruct i; reflexivity|]. destruct i as [|i]; [reflexivity|]. cbn [firstn nth_error]. apply IH. lia.
  - apply nth_error_None in Ex. apply nth_error_None. rewrite firstn_length, skipn_length. lia.
Qed.
Lemma window_length base l : base + l <= n -> length (window args base l) = l.
Proof. intros H. unfold window. rewrite firstn_length, skipn_length. fold n. lia. Qed.
Lemma arg_slice_ok base l : base + l <= n -> arg_slice args base l = Some (window args base l).
Proof. intros H. apply pack_ok; [apply window_length; exact H|]. intros i Hi. rewrite window_nth by exact Hi. reflexivity. Qed.

(** The search, without the array. *)
Fixpoint first_some {X Y} (h : X -> option Y) (xs : list X) : option Y :=
  match xs with [] => None | x :: r => match h x with Some y => Some y | None => first_some h r end end.
Definition cand (f : F) (b l : nat) : option (nat * nat) := if ok f (window args b l) then Some (b, l) else None.
Definition at_base (f : F) (b : nat) : option (nat * nat) := first_some (fun k => cand f b (n - b - k)) (seq 0 (n - b + 1)).
Definition pick (f : F) : option (nat * nat) := if n =? 0 then cand f 0 0 else first_some (at_base f) (seq 0 n).

Lemma first_some_Some {X Y} (h : X -> option Y) pre x post y : (forall z, In z pre -> h z = None) -> h x = Some y -> first_some h (pre ++ x :: post) = Some y.
Proof. induction pre as [|z pre IH]; intros H1 H2; cbn; [rewrite H2; reflexivity|]. rewrite H1 by (left; reflexivity). apply IH; [intros; apply H1; right; assumption|exact H2]. Qed.
Lemma first_some_inv {X Y} (h : X -> option Y) xs y : first_some h xs = Some y -> exists pre x post, xs = pre ++ x :: post /\ (forall z, In z pre -> h z = None) /\ h x = Some y.
Proof.
  induction xs as [|x xs IH]; cbn; [discriminate|]. destruct (h x) as [v|] eqn:Ex.
  - intros H. injection H as <-. exists [], x, xs. split; [reflexivity|]. split; [intros z []|exact Ex].
  - intros H. destruct (IH H) as [pre [z [post [-> [H1 H2]]]]]. exists (x :: pre), z, post. split; [reflexivity|]. split; [intros u [<-|Hu]; auto|exact H2].
Qed.
Lemma first_some_None {X Y} (h : X -> option Y) xs : first_some h xs = None <-> forall x, In x xs -> h x = None.
Proof.
  induction xs as [|x xs IH]; cbn; [tauto|]. destruct (h x) eqn:Ex.
  - split; [discriminate|]. intros H. specialize (H x (or_introl eq_refl)). congruence.
  - rewrite IH. split; [intros H z [<-|Hz]; auto|auto].
Qed.
Lemma seq_split s m pre x post : seq s m = pre ++ x :: post -> x = s + length pre /\ length pre < m /\ (forall z, In z pre <-> s <= z < x).
Proof.
  intros H. pose proof (f_equal (fun l => nth_error l (length pre)) H) as H1. cbn beta in H1. rewrite nth_mid, nth_seq_from in H1.
  destruct (Nat.ltb_spec (length pre) m); [|discriminate]. injection H1 as H1. split; [lia|]. split; [assumption|]. intros z. split.
  - intros Hz. apply In_nth_error in Hz. destruct Hz as [k Hk]. assert (k < length pre) by (apply nth_error_Some; congruence).
    pose proof (f_equal (fun l => nth_error l k) H) as K2. cbn beta in K2. rewrite nth_error_app1, nth_seq_from in K2 by assumption. destruct (Nat.ltb_spec k m); [|lia]. rewrite Hk in K2. injection K2 as K2. lia.
  - intros Hz. pose proof (f_equal (fun l => nth_error l (z - s)) H) as K2. cbn beta in K2. rewrite nth_error_app1, nth_seq_from in K2 by lia.
    destruct (Nat.ltb_spec (z - s) m); [|lia]. apply nth_error_In with (n := z - s). rewrite <- K2. f_equal. lia.
Qed.
Lemma window_zero b : window args b 0 = [].
Proof. reflexivity. Qed.
Lemma at_base_Some f b bl : b <= n -> at_base f b = Some bl ->
  fst bl = b /\ b + snd bl <= n /\ ok f (window args b (snd bl)) = true /\ (forall l', b + l' <= n -> ok f (window args b l') = true -> l' <= snd bl).
Proof.
  intros Hb H. unfold at_base in H. apply first_some_inv in H. destruct H as [pre [k [post [Hs [H1 H2]]]]]. apply seq_split in Hs. destruct Hs as [Hk [Hl Hz]].
  unfold cand in H2. destruct (ok f (window args b (n - b - k))) eqn:Eo; [|discriminate]. injection H2 as <-. cbn [fst snd]. repeat split; [lia|exact Eo|].
  intros l' Hl' Ho. destruct (le_lt_dec l' (n - b - k)) as [|Hgt]; [assumption|exfalso]. specialize (H1 (n - b - l')). unfold cand in H1.
  replace (n - b - (n - b - l')) with l' in H1 by lia. rewrite Ho in H1. discriminate H1. apply Hz. lia.
Qed.
Lemma at_base_None f b : b <= n -> at_base f b = None -> forall l', b + l' <= n -> ok f (window args b l') = false.
Proof.
  intros Hb H l' Hl'. unfold at_base in H. rewrite first_some_None in H. specialize (H (n - b - l')). unfold cand in H. replace (n - b - (n - b - l')) with l' in H by lia.
  destruct (ok f (window args b l')); [|reflexivity]. discriminate H. apply in_seq. lia.
Qed.
Lemma pick_Some f bl : pick f = Some bl -> chosen ok args f bl.
Proof.
  unfold pick. destruct (Nat.eqb_spec n 0) as [En|En].
  - unfold cand. destruct (ok f (window args 0 0)) eqn:Eo; [|discriminate]. intros H. injection H as <-. unfold chosen. fold n. cbn [fst snd]. split; [lia|]. split; [exact Eo|]. intros b' l' Hb' _. right. lia.
  - intros H. apply first_some_inv in H. destruct H as [pre [b [post [Hs [H1 H2]]]]]. apply seq_split in Hs. destruct Hs as [Hb [Hl Hz]].
    destruct (at_base_Some f b bl) as [E1 [E2 [E3 E4]]]; [lia|exact H2|]. unfold chosen. fold n. rewrite E1. split; [lia|]. split; [exact E3|]. intros b' l' Hb' Ho.
    destruct (lt_eq_lt_dec b b') as [[Hlt|<-]|Hgt]; [left; exact Hlt|right; split; [reflexivity|apply E4; assumption]|exfalso].
    pose proof (at_base_None f b' ltac:(lia) (H1 b' ltac:(apply Hz; lia)) l' Hb'). congruence.
Qed.
Lemma pick_None f : pick f = None -> forall b l, b + l <= n -> ok f (window args b l) = false.
Proof.
  unfold pick. destruct (Nat.eqb_spec n 0) as [En|En]; intros H b l Hbl.
  - unfold cand in H. replace b with 0 by lia. replace l with 0 by lia. destruct (ok f (window args 0 0)); [discriminate|reflexivity].
  - rewrite first_some_None in H. destruct (Nat.eq_dec b n) as [->|Hne].
    + replace l with 0 by lia. rewrite window_zero. rewrite <- (window_zero 0). apply (at_base_None f 0); [lia|apply H; apply in_seq; lia|lia].
    + apply (at_base_None f b); [lia|apply H; apply in_seq; lia|exact Hbl].
Qed.
Lemma chosen_fun f bl bl' : chosen ok args f bl -> chosen ok args f bl' -> bl = bl'.
Proof.
  destruct bl as [b l], bl' as [b' l']. unfold chosen. cbn [fst snd]. intros [H1 [H2 H3]] [G1 [G2 G3]].
  specialize (H3 b' l' G1 G2). specialize (G3 b l H1 H2). f_equal; lia.
Qed.
Lemma pick_chosen f bl : chosen ok args f bl -> pick f = Some bl.
Proof.
  intros H. destruct (pick f) as [c|] eqn:E.
  - f_equal. apply (chosen_fun f); [apply pick_Some; exact E|exact H].
  - destruct H as [H1 [H2 _]]. rewrite (pick_None f E _ _ H1) in H2. discriminate.
Qed.

(** ** With the array *)
Variable fs : list F.
Definition record (i : nat) (p : option (nat * nat)) (s : state) : option (bool * state) :=
  match p with
  | Some (b, l) => match arr_put (fst s) (snd s) (Call i b l) with Some r => Some (true, (r, S (snd s))) | None => None end
  | None => Some (false, s)
  end.
Lemma test_ok i f b l s : get fs i = Some f -> b + l <= n -> test ok fs args i b l s = record i (cand f b l) s.
Proof. intros Hf H. unfold test. rewrite Hf, arg_slice_ok by exact H. unfold cand, record. destruct (ok f (window args b l)); reflexivity. Qed.
Lemma or_search_ok i g h xs s : (forall x, In x xs -> g x s = record i (h x) s) -> or_search g xs s = record i (first_some h xs) s.
Proof.
  induction xs as [|x xs IH]; intros H; [reflexivity|]. cbn [or_search first_some]. rewrite H by (left; reflexivity).
  destruct (h x) as [[b l]|] eqn:Ex; cbn [record].
  - destruct (arr_put (fst s) (snd s) (Call i b l)); reflexivity.
  - cbn [fst snd]. apply IH. intros z Hz. apply H. right. exact Hz.
Qed.
Lemma inner_ok i f b s : get fs i = Some f -> b <= n -> inner_loop ok fs args i b s = record i (at_base f b) s.
Proof. intros Hf Hb. unfold inner_loop, at_base. fold n. apply or_search_ok. intros k Hk. apply in_seq in Hk. apply test_ok; [exact Hf|lia]. Qed.
Lemma outer_ok i f s : get fs i = Some f -> outer_loop ok fs args i s = record i (pick f) s.
Proof.
  intros Hf. unfold outer_loop, pick. fold n. destruct (Nat.eqb_spec n 0) as [En|En].
  - apply test_ok; [exact Hf|lia].
  - apply or_search_ok. intros b Hb. apply in_seq in Hb. apply inner_ok; [exact Hf|lia].
Qed.
Fixpoint infos (i : nat) (l : list F) : list call_info :=
  match l with [] => [] | f :: r => match pick f with Some (b, l) => Call i b l :: infos (S i) r | None => infos (S i) r end end.
Lemma infos_length l : forall i, length (infos i l) <= length l.
Proof. induction l as [|f l IH]; intros i; [cbn; lia|]. cbn [infos length]. specialize (IH (S i)). destruct (pick f) as [[b k]|]; cbn [length]; lia. Qed.
Lemma all_functions_ok : forall r pre done k, fs = pre ++ r -> length r <= k ->
  all_functions ok fs args (seq (length pre) (length r)) (done ++ repeat (Call 0 0 0) k, length done)
  = Some ((done ++ infos (length pre) r) ++ repeat (Call 0 0 0) (k - length (infos (length pre) r)), length (done ++ infos (length pre) r)).
Proof.
  induction r as [|f r IH]; intros pre done k Hfs Hk.
  - cbn. rewrite app_nil_r, Nat.sub_0_r. reflexivity.
  - cbn [length seq all_functions]. rewrite (outer_ok _ f) by (unfold get; rewrite Hfs; apply nth_mid). cbn [infos].
    assert (Hfs' : fs = (pre ++ [f]) ++ r) by (rewrite <- app_assoc; exact Hfs). specialize (IH (pre ++ [f])). rewrite app_length in IH. cbn [length] in IH, Hk. rewrite Nat.add_1_r in IH.
    destruct (pick f) as [[b l]|]; cbn [record fst snd].
    + destruct k as [|k]; [lia|]. cbn [repeat]. rewrite put_mid. cbn [snd]. specialize (IH (done ++ [Call (length pre) b l]) k Hfs'). rewrite app_length in IH. cbn [length] in IH. rewrite Nat.add_1_r in IH.
      rewrite <- !app_assoc in IH. cbn [app] in IH. rewrite IH by lia. cbn [length]. rewrite <- !app_assoc. cbn [app]. reflexivity.
    + rewrite (IH done k Hfs') by lia. reflexivity.
Qed.
Lemma truncate_ok {X} (a b : list X) : truncate_array (length a) (a ++ b) = Some a.
Proof. apply pack_ok; [reflexivity|]. intros i Hi. apply nth_error_app1. exact Hi. Qed.
Definition free (given : list call_info) (i : nat) : bool := forallb (fun c => negb (uses_arg c i)) given.
Lemma find_unused_ok given is : forall done k, length is <= k ->
  find_unused fs given is (done ++ repeat (Call 0 0 0) k, length done)
  = Some ((done ++ map (fun i => Call (length fs) i 1) (List.filter (free given) is)) ++ repeat (Call 0 0 0) (k - length (List.filter (free given) is)),
          length (done ++ map (fun i => Call (length fs) i 1) (List.filter (free given) is))).
Proof.
  induction is as [|i is IH]; intros done k Hk.
  - cbn. rewrite app_nil_r, Nat.sub_0_r. reflexivity.
  - cbn [find_unused List.filter fst snd]. fold (free given i). cbn [length] in Hk. destruct (free given i).
    + destruct k as [|k]; [lia|]. cbn [repeat]. rewrite put_mid. specialize (IH (done ++ [Call (length fs) i 1]) k). rewrite app_length in IH. cbn [length] in IH. rewrite Nat.add_1_r in IH.
      rewrite <- !app_assoc in IH. cbn [app] in IH. rewrite IH by lia. cbn [map length]. rewrite <- !app_assoc. cbn [app]. reflexivity.
    + apply IH. lia.
Qed.
Lemma compute_ok : compute_call_info ok fs args
  = if length (infos 0 fs) =? length fs
    then Some (infos 0 fs ++ map (fun i => Call (length fs) i 1) (List.filter (free (infos 0 fs)) (seq 0 n))) else None.
Proof.
  unfold compute_call_info, compute_call_info_impl. pose proof (all_functions_ok fs [] [] (length fs + length args) eq_refl ltac:(lia)) as H. cbn [app length] in H. rewrite H.
  cbn [fst snd]. rewrite truncate_ok. destruct (length (infos 0 fs) =? length fs); [|reflexivity].
  pose proof (find_unused_ok (infos 0 fs) (seq 0 (length args)) [] (length args) ltac:(rewrite seq_length; lia)) as U. cbn [app length] in U. rewrite U. cbn [fst snd]. rewrite truncate_ok. reflexivity.
Qed.

(** ** The calls *)
Definition somes (l : list (option A)) : list A := flat_map (fun o => match o with Some x => [x] | None => [] end) l.
Lemma filter_nonvoid l : filter (fun x : option A => match x with None => true | Some _ => false end) is_nonvoid l = Some (map Some (somes l)).
Proof. rewrite filter_ok. f_equal. induction l as [|[x|] l IH]; cbn; [reflexivity|rewrite IH; reflexivity|exact IH]. Qed.
Fixpoint zip_infos (i : nat) (cs : list (nat * nat)) : list call_info := match cs with [] => [] | (b, l) :: r => Call i b l :: zip_infos (S i) r end.
Lemma infos_zip l cs : Forall2 (chosen ok args) l cs -> forall i, infos i l = zip_infos i cs /\ length cs = length l.
Proof.
  induction 1 as [|f [b k] l cs Hf _ IH]; intros i; [split; reflexivity|]. cbn [infos zip_infos length]. rewrite (pick_chosen f _ Hf). destruct (IH (S i)) as [-> ->]. split; reflexivity.
Qed.
Lemma zip_infos_length cs : forall i, length (zip_infos i cs) = length cs.
Proof. induction cs as [|[b l] cs IH]; intros i; [reflexivity|]. cbn. rewrite IH. reflexivity. Qed.
Lemma invoke_app new_fs l1 : forall w l2, invoke_all run args new_fs w (l1 ++ l2)
  = match invoke_all run args new_fs w l1 with Some (w1, r1) => match invoke_all run args new_fs w1 l2 with Some (w2, r2) => Some (w2, r1 ++ r2) | None => None end | None => None end.
Proof.
  induction l1 as [|c l1 IH]; intros w l2; cbn [invoke_all app].
  - destruct (invoke_all run args new_fs w l2) as [[? ?]|]; reflexivity.
  - destruct (get new_fs (fn_idx c)); [|reflexivity]. destruct (arg_slice args (arg_base c) (arg_len c)); [|reflexivity]. destruct (invoke_callee run w c0 l) as [[w1 v]|]; [|reflexivity]. cbn [fst snd].
    rewrite IH. destruct (invoke_all run args new_fs w1 l1) as [[w2 r2]|]; [|reflexivity]. cbn [fst snd]. destruct (invoke_all run args new_fs w2 l2) as [[w3 r3]|]; reflexivity.
Qed.
Lemma invoke_users tail : forall r pre cs w, fs = pre ++ r -> Forall2 (chosen ok args) r cs -> exists w' rs,
  invoke_all run args (map User fs ++ tail) w (zip_infos (length pre) cs) = Some (w', rs) /\ called run args w r cs w' (somes rs).
Proof.
  induction r as [|f r IH]; intros pre cs w Hfs HF; destruct cs as [|[b l] cs']; try solve [inversion HF]; [|assert (Hf : chosen ok args f (b, l)) by (inversion HF; assumption); assert (HF' : Forall2 (chosen ok args) r cs') by (inversion HF; assumption)].
  - exists w, []. split; [reflexivity|constructor].
  - cbn [zip_infos invoke_all fn_idx arg_base arg_len].
    assert (Hg : get (map User fs ++ tail) (length pre) = Some (User f)).
    { unfold get. rewrite nth_error_app1 by (rewrite map_length, Hfs, app_length; cbn; lia). rewrite nth_error_map, Hfs, nth_mid. reflexivity. }
    rewrite Hg. destruct Hf as [Hb Hf]. cbn [fst snd] in Hb. rewrite arg_slice_ok by exact Hb. cbn [invoke_callee]. destruct (run w f (window args b l)) as [w1 v] eqn:Er. cbn [fst snd].
    destruct (IH (pre ++ [f]) cs' w1) as [w2 [rs [H1 H2]]]; [rewrite <- app_assoc; exact Hfs|exact HF'|]. rewrite app_length in H1. cbn [length] in H1. rewrite Nat.add_1_r in H1. rewrite H1. cbn [fst snd].
    exists w2, (v :: rs). split; [reflexivity|]. destruct v as [v|]; cbn [somes flat_map app]; [eapply called_value|eapply called_void]; try exact Er; exact H2.
Qed.
Lemma invoke_extra is w : (forall i, In i is -> i < n) -> exists us,
  invoke_all run args (map User fs ++ [SafeForward]) w (map (fun i => Call (length fs) i 1) is) = Some (w, map Some us) /\ map Some us = map (nth_error args) is.
Proof.
  induction is as [|i is IH]; intros H; [exists []; split; reflexivity|]. destruct IH as [us [H1 H2]]; [intros; apply H; right; assumption|].
  assert (Hi : i < n) by (apply H; left; reflexivity). destruct (nth_error args i) as [x|] eqn:Ex; [|apply nth_error_None in Ex; fold n in Ex; lia].
  exists (x :: us). split; [|cbn [map]; rewrite H2, Ex; reflexivity]. cbn [map invoke_all fn_idx arg_base arg_len].
  assert (Hg : get (map User fs ++ [SafeForward]) (length fs) = Some SafeForward). { unfold get. rewrite nth_error_app2 by (rewrite map_length; lia). rewrite map_length, Nat.sub_diag. reflexivity. }
  rewrite Hg, arg_slice_ok by lia.
  assert (Hw : window args i 1 = [x]). { apply nth_error_eq. intros [|[|k]]; [rewrite window_nth by lia; rewrite Nat.add_0_r; exact Ex| |]; (transitivity (@None A); [apply nth_error_None; rewrite window_length by lia; lia|]); [reflexivity|destruct k; reflexivity]. }
  rewrite Hw. cbn [invoke_callee fst snd]. rewrite H1. reflexivity.
Qed.
Lemma somes_app a b : somes (a ++ b) = somes a ++ somes b.
Proof. apply flat_map_app. Qed.
Lemma somes_map l : somes (map Some l) = l.
Proof. induction l as [|x l IH]; [reflexivity|]. cbn. unfold somes in IH. rewrite IH. reflexivity. Qed.
Lemma free_ok cs : forall i k, free (zip_infos i cs) k = true <-> unused cs k.
Proof.
  unfold free, unused. induction cs as [|[b l] cs IH]; intros i k; cbn [zip_infos forallb]; [split; [constructor|reflexivity]|]. rewrite andb_true_iff, IH. unfold uses_arg at 1. cbn [arg_base arg_len].
  split.
  - intros [H1 H2]. constructor; [cbn [fst snd]; destruct (Nat.leb_spec b k), (Nat.ltb_spec k (b + l)); cbn in H1; try discriminate; lia|exact H2].
  - intros H. inversion H as [|x y H1 H2]; subst. cbn [fst snd] in H1. split; [destruct (Nat.leb_spec b k), (Nat.ltb_spec k (b + l)); cbn; try reflexivity; lia|exact H2].
Qed.
Lemma filter_seq_sorted p m : forall s a b x y, a < b -> nth_error (List.filter p (seq s m)) a = Some x -> nth_error (List.filter p (seq s m)) b = Some y -> x < y.
Proof.
  induction m as [|m IH]; intros s a b x y Hab Ha Hb; cbn [seq List.filter] in *; [destruct a; discriminate|]. destruct (p s); [|eapply IH; eassumption].
  destruct b as [|b]; [lia|]. cbn [nth_error] in Hb. destruct a as [|a]; cbn [nth_error] in Ha.
  - injection Ha as <-. apply nth_error_In, filter_In in Hb. destruct Hb as [Hb _]. apply in_seq in Hb. lia.
  - apply (IH (S s) a b); [lia|assumption|assumption].
Qed.
Lemma call_ok w cs : Forall2 (chosen ok args) fs cs -> exists w' rs us,
  call_by_need ok run fs args false w = Some (w', map Some (rs ++ us)) /\ called run args w fs cs w' rs /\ passed_on args cs us.
Proof.
  intros HF. destruct (infos_zip fs cs HF 0) as [Hi Hl]. unfold call_by_need. rewrite compute_ok, Hi, zip_infos_length, Hl, Nat.eqb_refl.
  change (pack (length fs) (get fs)) with (pack (tuple_size fs) (get fs)). rewrite pack_get. rewrite invoke_app.
  destruct (invoke_users [SafeForward] fs [] cs w eq_refl HF) as [w' [rs [H1 H2]]]. cbn [length] in H1. rewrite H1.
  destruct (invoke_extra (List.filter (free (zip_infos 0 cs)) (seq 0 n)) w') as [us [H3 H4]]. { intros i Hin. apply filter_In in Hin. destruct Hin as [Hin _]. apply in_seq in Hin. lia. }
  rewrite H3. cbn [fst snd]. rewrite filter_nonvoid. rewrite somes_app, somes_map. exists w', (somes rs), us. split; [reflexivity|]. split; [exact H2|].
  exists (List.filter (free (zip_infos 0 cs)) (seq 0 n)). split; [|split; [|exact H4]].
  - intros i. rewrite filter_In, in_seq, free_ok. fold n. split; intros [? ?]; (split; [lia|assumption]).
  - intros a b x y. apply filter_seq_sorted.
Qed.
Lemma infos_short f l : In f l -> pick f = None -> forall i, length (infos i l) < length l.
Proof.
  induction l as [|g l IH]; intros Hin Hp i; [destruct Hin|]. cbn [infos length]. destruct Hin as [->|Hin].
  - rewrite Hp. pose proof (infos_length l (S i)). lia.
  - specialize (IH Hin Hp (S i)). destruct (pick g) as [[b k]|]; cbn [length]; lia.
Qed.
Lemma call_fails lv w f : In f fs -> (forall b l, b + l <= n -> ok f (window args b l) = false) -> call_by_need ok run fs args lv w = None.
Proof.
  intros Hin H. assert (Hp : pick f = None). { destruct (pick f) as [bl|] eqn:Ep; [|reflexivity]. apply pick_Some in Ep. destruct Ep as [H1 [H2 _]]. rewrite H in H2 by exact H1. discriminate. }
  unfold call_by_need. rewrite compute_ok. pose proof (infos_short f fs Hin Hp 0). destruct (Nat.eqb_spec (length (infos 0 fs)) (length fs)); [lia|reflexivity].
Qed.
Lemma chosen_exists f b l : b + l <= n -> ok f (window args b l) = true -> exists bl, chosen ok args f bl.
Proof.
  intros H1 H2. destruct (pick f) as [bl|] eqn:Ep; [exists bl; apply pick_Some; exact Ep|]. rewrite (pick_None f Ep b l H1) in H2. discriminate.
Qed.
(** Functions passed as an lvalue. *)
Lemma call_lvalue w w' r : fs <> [] -> call_by_need ok run fs args true w = Some (w', r) -> exists f a, fs = [f] /\ args = [a] /\ w' = w /\ r = [Some a].
Proof.
  intros Hne. unfold call_by_need. rewrite compute_ok. destruct (Nat.eqb_spec (length (infos 0 fs)) (length fs)) as [El|]; [|discriminate]. cbn [pack seq mapo map app].
  set (extra := map _ _). intros H.
  assert (Hidx : forall new_fs w l x, invoke_all run args new_fs w l = Some x -> forall c, In c l -> fn_idx c < length new_fs).
  { clear. intros new_fs w l. revert w. induction l as [|c l IH]; intros w x H d Hd; [destruct Hd|]. cbn [invoke_all] in H. destruct (get new_fs (fn_idx c)) eqn:Eg; [|discriminate].
    destruct (arg_slice args (arg_base c) (arg_len c)); [|discriminate]. destruct (invoke_callee run w c0 l0) as [[w1 v]|]; [|discriminate]. cbn [fst] in H.
    destruct (invoke_all run args new_fs w1 l) as [z|] eqn:Ez; [|discriminate]. destruct Hd as [<-|Hd]; [unfold get in Eg; apply nth_error_Some; congruence|exact (IH w1 z Ez d Hd)]. }
  destruct (invoke_all run args [SafeForward] w (infos 0 fs ++ extra)) as [[w1 vs]|] eqn:Ei; [|discriminate]. pose proof (Hidx _ _ _ _ Ei) as Hall. cbn [length] in Hall.
  destruct fs as [|f [|g gs]] eqn:Efs; [congruence| |].
  - (* one function *)
    cbn [infos] in *. destruct (pick f) as [[b l]|] eqn:Ep; [|discriminate El]. apply pick_Some in Ep. destruct Ep as [Hbl _]. cbn [fst snd] in Hbl.
    destruct extra as [|e extra'] eqn:Ee.
    2: { exfalso. assert (Hin : In e (e :: extra')) by (left; reflexivity). rewrite <- Ee in Hin. unfold extra in Hin. apply in_map_iff in Hin. destruct Hin as [i [<- _]].
         specialize (Hall (Call 1 i 1)). cbn [fn_idx] in Hall. specialize (Hall ltac:(apply in_or_app; right; left; reflexivity)). lia. }
    cbn [app invoke_all fn_idx arg_base arg_len get nth_error] in Ei. rewrite arg_slice_ok in Ei by exact Hbl. cbn [invoke_callee] in Ei.
    destruct (window args b l) as [|a [|? ?]] eqn:Ew; try discriminate Ei. cbn [fst snd] in Ei. injection Ei as <- <-. cbn [fst snd] in H. rewrite filter_nonvoid in H. cbn in H. injection H as <- <-.
    assert (Hl1 : l = 1) by (pose proof (window_length b l Hbl) as L; rewrite Ew in L; cbn in L; lia). subst l.
    exists f, a. split; [reflexivity|]. split; [|split; reflexivity].
    assert (Hn : forall i, i < n -> i = b).
    { intros i Hi. destruct (Nat.eq_dec i b) as [|Hne']; [assumption|exfalso].
      assert (In (Call 1 i 1) extra). { unfold extra. apply in_map_iff. exists i. split; [reflexivity|]. apply filter_In. split; [apply in_seq; lia|]. unfold free. cbn [forallb]. unfold uses_arg. cbn [arg_base arg_len].
        destruct (Nat.leb_spec b i), (Nat.ltb_spec i (b + 1)); cbn; try reflexivity. lia. }
      rewrite Ee in H. destruct H. }
    assert (Hn1 : n = 1). { destruct n as [|[|m]] eqn:En; [lia|reflexivity|]. pose proof (Hn 0 ltac:(lia)). pose proof (Hn 1 ltac:(lia)). lia. }
    assert (b = 0) by lia. subst b. destruct args as [|x [|? ?]] eqn:Ea; unfold n in Hn1; try discriminate Hn1. cbn in Ew. injection Ew as ->. reflexivity.
  - exfalso. cbn [infos] in *. destruct (pick f) as [[b l]|]; [|cbn [length] in El; pose proof (infos_length gs 2); destruct (pick g) as [[? ?]|]; cbn [length] in El; lia].
    destruct (pick g) as [[b2 l2]|]; [|cbn [length] in El; pose proof (infos_length gs 2); lia]. specialize (Hall (Call 1 b2 l2) ltac:(right; left; reflexivity)). cbn [fn_idx] in Hall. lia.
Qed.
End Proofs.
