(** The results of STDX_MAP for the macros and names it is used with. *)
From Verif Require Import Base PpMapModel PpMapSpec PpMapProofs PpMapProofs2 PpMapProofs3.
Open Scope nat_scope.

Lemma expands_fun user dis s o1 o2 : expands user dis s o1 -> expands user dis s o2 -> o1 = o2.
Proof. intros [n1 H1] [n2 H2]. specialize (H1 (n1 + n2) ltac:(lia)). specialize (H2 (n1 + n2) ltac:(lia)). congruence. Qed.
Lemma outs_join g xs : xs <> [] -> tl (outs g xs) = join (map g xs).
Proof.
  induction xs as [|x l IH]; [congruence|]. intros _. destruct l as [|y l].
  - cbn. apply app_nil_r.
  - change (tl (outs g (x :: y :: l))) with (g x ++ outs g (y :: l)).
    rewrite (map_cons g x), join_cons by discriminate. f_equal. cbn [outs flat_map app]. f_equal.
    specialize (IH ltac:(discriminate)). cbn [outs flat_map app tl] in IH. exact IH.
Qed.
Definition END : list tok := [LP; RP; LP; RP; LP; RP].
Lemma END_argument : argument END.
Proof. split; [repeat constructor|reflexivity]. Qed.
Lemma END_three : three_groups END.
Proof. exists [], []. repeat split; try constructor. Qed.
Lemma zero_argument : argument [zero].
Proof. split; [repeat constructor|reflexivity]. Qed.
Lemma one_of user f g xs : Forall argument xs -> (forall x, In x xs -> maps_to user f x (g x)) -> Forall (one user f g) xs.
Proof. intros A H. rewrite Forall_forall in *. intros x I. destruct (H x I) as (E & Q & D). repeat split; auto; apply A, I. Qed.

Theorem map_ok user f g xs : applicable user f -> join xs <> [] -> length xs <= 367 ->
  Forall argument xs -> Forall ordinary (tl xs) -> (forall x, In x xs -> maps_to user f x (g x)) ->
  preprocesses user (map_call f xs) (join (map g xs)).
Proof.
  intros Hf Hj Hn Ha Ho Hg. assert (Nx : xs <> []) by (intros ->; now apply Hj).
  rewrite <- outs_join by exact Nx.
  rewrite <- (map_all f g END [END; END; [zero]] xs) by exact Hn.
  rewrite <- (app_nil_r xs) at 1. apply map_result; auto.
  - apply END_three.
  - apply END_argument.
  - repeat constructor; try apply END_argument; apply zero_argument.
  - discriminate.
  - now apply one_of.
  - now rewrite app_nil_r.
Qed.
Theorem map_none user f : applicable user f -> preprocesses user (map_call f []) [].
Proof.
  intros Hf. unfold preprocesses, map_call. rewrite <- (app_nil_r (map T _)).
  eapply (Ex_call1 user [] MAP 1 true true _ [f] [[f]] [] [[f]] []).
  { intros []. }
  { reflexivity. }
  { constructor; [|constructor]. apply (f_clean user f Hf (fun x => x) []). intros m []. }
  { rewrite (f_depth user f Hf). reflexivity. }
  { cbn [bind_args split_args]. replace (cut 0 [f]) with ([f], @None (list tok)); [reflexivity|]. symmetry. apply cut_last. rewrite (f_depth user f Hf). reflexivity. }
  { constructor; [|constructor]. cbn [map]. apply (f_alone user f Hf); [intros u []|reflexivity|apply Ex_nil]. }
  { apply Ex_nil. }
  cbn [subst andb map app]. apply Ex_popped; [intros []|apply Ex_nil].
Qed.
Theorem map_cut user f g xs e ys : applicable user f -> join (xs ++ e :: ys) <> [] -> xs <> [] -> length xs <= 367 ->
  Forall argument (xs ++ e :: ys) -> Forall ordinary (tl xs) -> three_groups e -> (forall x, In x xs -> maps_to user f x (g x)) ->
  preprocesses user (map_call f (xs ++ e :: ys)) (join (map g xs)).
Proof.
  intros Hf Hj Nx Hn Ha Ho He Hg. apply Forall_app in Ha as [Ha Hb].
  rewrite <- outs_join by exact Nx.
  rewrite <- (map_all f g e (ys ++ [END; END; END; [zero]]) xs) by exact Hn.
  apply map_result; auto.
  - now inversion Hb.
  - apply Forall_app. split; [now inversion Hb|]. repeat constructor; try apply END_argument; apply zero_argument.
  - destruct ys; discriminate.
  - now apply one_of.
Qed.
Theorem map_left user f g xs : applicable user f -> 367 < length xs ->
  Forall argument xs -> Forall ordinary (tl xs) -> (forall x, In x xs -> maps_to user f x (g x)) ->
  exists o m, preprocesses user (map_call f xs) o /\ In (nm m) o.
Proof.
  intros Hf Hn Ha Ho Hg. assert (Nx : xs <> []) by (intros ->; cbn in Hn; lia).
  assert (Hj : join xs <> []).
  { destruct xs as [|x [|y l]]; [congruence|cbn in Hn; lia|]. rewrite join_cons by discriminate. now destruct x. }
  exists (tl (state f g END [END; END; [zero]] xs 368)), (head (Nat.even 368) (skipn 368 xs)). split.
  - rewrite <- (app_nil_r xs) at 1. apply map_result; auto.
    + apply END_three.
    + apply END_argument.
    + repeat constructor; try apply END_argument; apply zero_argument.
    + discriminate.
    + now apply one_of.
    + now rewrite app_nil_r.
  - unfold state. destruct (Nat.leb_spec 368 (length xs)); [|lia]. destruct xs as [|x l]; [congruence|].
    rewrite firstn_cons. cbn [outs flat_map]. rewrite <- !app_comm_cons. cbn [tl].
    apply in_or_app. right. left. reflexivity.
Qed.

(** ** A name that is not a macro *)
Lemma no_name_finished l : no_names l -> Forall (fun t => match t with Name _ false => False | _ => True end) l.
Proof. apply Forall_impl. now intros []. Qed.
Lemma plain_maps user n x : argument x -> maps_to user (Plain n) x (applied (Plain n) x).
Proof.
  intros [N D]. assert (Q : no_names (applied (Plain n) x)).
  { constructor; [exact I|]. constructor; [exact I|]. apply no_names_app. split; [exact N|repeat constructor]. }
  split; [|split].
  - intros dis s o _ E. apply Ex_quiets; [now apply no_names_quiet|exact E].
  - now apply no_name_finished.
  - unfold applied. change (depth_after true 1 (x ++ [RP]) = Some 0). rewrite depth_app.
    pose proof (depth_inside false true x 0 0 0 D) as K. cbn [Nat.add] in K. now rewrite K.
Qed.
(** ** A macro with one parameter *)
Lemma instance_no_names v b x : simple_body v b -> no_names x -> no_names (instance b x).
Proof.
  intros [H _] N. induction H as [|t b Ht _ IH]; [constructor|]. cbn [instance flat_map]. apply no_names_app. split; [|exact IH].
  destruct t as [t|i|]; [|exact N|exact N]. constructor; [|constructor]. now destruct t.
Qed.
Lemma instance_depth b x c d : depth_after true 0 x = Some 0 ->
  depth_after true d (instance b x) = Some c <-> depth_after true d (instance b []) = Some c.
Proof.
  intros D. revert d. induction b as [|t b IH]; intros d; [reflexivity|]. cbn [instance flat_map].
  assert (K : depth_after true d x = Some d).
  { destruct d as [|d]; [exact D|]. exact (depth_inside true true x 0 0 d D). }
  destruct t as [t|i|].
  - cbn [app]. destruct t as [| | |n|m p]; cbn [depth_after]; try apply IH; destruct d; try apply IH; reflexivity.
  - cbn [app]. rewrite depth_app, K. apply IH.
  - cbn [app]. rewrite depth_app, K. apply IH.
Qed.
Lemma instance_subst v b x : simple_body v b ->
  subst false b (if v then [] else [x]) (if v then x else []) = instance b x.
Proof.
  intros [H _]. unfold subst. cbn [andb]. induction H as [|t b Ht _ IH]; [reflexivity|]. cbn [instance flat_map].
  fold (instance b x). rewrite IH. f_equal. destruct t as [t|i|]; [reflexivity| |now subst]. destruct Ht as [-> ->]. reflexivity.
Qed.
Lemma macro_maps user u v b x : user u = one_parameter v b -> simple_body v b -> argument x ->
  maps_to user (nm (User u)) x (instance b x).
Proof.
  intros Hu Hb [N D]. assert (D1 : depth_after true 0 x = Some 0) by now apply depth_weaken. split; [|split].
  - intros dis s o Hd E. unfold applied.
    eapply (Ex_call1 user dis (User u) (if v then 0 else 1) v false b x (if v then [] else [x]) (if v then x else []) (if v then [] else [x]) (if v then x else [])); auto.
    + cbn [def]. rewrite Hu. now destruct v.
    + now apply no_names_clean.
    + destruct v; [reflexivity|]. cbn [bind_args split_args]. now rewrite cut_last.
    + destruct v; constructor; [now apply Ex_same|constructor].
    + destruct v; [now apply Ex_same|apply Ex_nil].
    + rewrite instance_subst by exact Hb. apply Ex_quiets; [apply no_names_quiet; now apply (instance_no_names v)|].
      apply Ex_popped; [apply Hd|exact E].
  - apply no_name_finished. now apply (instance_no_names v).
  - apply instance_depth; [exact D1|]. apply Hb.
Qed.
