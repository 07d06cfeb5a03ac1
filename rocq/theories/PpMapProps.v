(** Property C60: STDX_MAP. *)
From Verif Require Import Base PpMapModel PpMapSpec PpMapProofs PpMapProofs4.
Open Scope nat_scope.

(** C60. For every set of the program's own macros, STDX_MAP(f, x1, ..., xn) with at most 367
    arguments preprocesses to y1, ..., yn, where yi is what f(xi) expands to.  The arguments after
    the first do not begin with three groups in parentheses. *)
Theorem C60_map user f g xs :
  applicable user f -> join xs <> [] -> length xs <= 367 ->
  Forall argument xs -> Forall ordinary (tl xs) ->
  (forall x, In x xs -> maps_to user f x (g x)) ->
  preprocesses user (map_call f xs) (join (map g xs)).
Proof. exact (map_ok user f g xs). Qed.
Print Assumptions C60_map.
(** ... without arguments it is empty. *)
Theorem C60_map_none user f : applicable user f -> preprocesses user (map_call f []) [].
Proof. exact (map_none user f). Qed.
Print Assumptions C60_map_none.
(** ... for [f] not a macro, the result is f(x1), ..., f(xn). *)
Theorem C60_map_name user n xs :
  join xs <> [] -> length xs <= 367 -> Forall argument xs -> Forall ordinary (tl xs) ->
  preprocesses user (map_call (Plain n) xs) (join (map (applied (Plain n)) xs)).
Proof.
  intros Hj Hn Ha Ho. apply map_ok; auto; [exact I|]. intros x Hx. apply plain_maps. rewrite Forall_forall in Ha. auto.
Qed.
Print Assumptions C60_map_name.
(** ... for a macro #define U(p) b or #define U(...) b, it is b with each argument in turn. *)
Theorem C60_map_macro user u v b xs :
  user u = one_parameter v b -> simple_body v b ->
  join xs <> [] -> length xs <= 367 -> Forall argument xs -> Forall ordinary (tl xs) ->
  preprocesses user (map_call (nm (User u)) xs) (join (map (instance b) xs)).
Proof.
  intros Hu Hb Hj Hn Ha Ho. apply map_ok; auto.
  - cbn. rewrite Hu. now destruct v.
  - intros x Hx. apply (macro_maps user u v); auto. rewrite Forall_forall in Ha. auto.
Qed.
Print Assumptions C60_map_macro.
(** The result of preprocessing is unique. *)
Theorem C60_unique user l o1 o2 : preprocesses user l o1 -> preprocesses user l o2 -> o1 = o2.
Proof. exact (expands_fun user [] (map T l) o1 o2). Qed.
Print Assumptions C60_unique.

(** Not so for 368 arguments or more: macro calls of the header are left in the result. *)
Theorem C60_map_refuted user f g xs :
  applicable user f -> 367 < length xs ->
  Forall argument xs -> Forall ordinary (tl xs) -> (forall x, In x xs -> maps_to user f x (g x)) ->
  ~ preprocesses user (map_call f xs) (join (map g xs)) /\
  exists o m, preprocesses user (map_call f xs) o /\ In (nm m) o.
Proof.
  intros Hf Hn Ha Ho Hg. pose proof (map_left user f g xs Hf Hn Ha Ho Hg) as L. split; [|exact L].
  destruct L as (o & m & P & I). intros P'. pose proof (expands_fun _ _ _ _ _ P P') as ->.
  assert (Q : Forall (fun t => match t with Name _ false => False | _ => True end) (join (map g xs))).
  { clear - Hg. induction xs as [|x l IH]; [constructor|]. cbn [map].
    assert (Qx : Forall (fun t => match t with Name _ false => False | _ => True end) (g x)) by (apply Hg; now left).
    destruct l as [|y l]; [exact Qx|]. specialize (IH (fun z Hz => Hg z (or_intror Hz))). cbn [map join] in *.
    apply Forall_app. split; [exact Qx|]. constructor; [exact Logic.I|exact IH]. }
  rewrite Forall_forall in Q. exact (Q _ I).
Qed.
Print Assumptions C60_map_refuted.
(** ... nor when an argument after the first is (a)(b)(): it and all the arguments after it are
    dropped without an error. *)
Theorem C60_map_cut_refuted user f g xs e ys :
  applicable user f -> join (xs ++ e :: ys) <> [] -> xs <> [] -> length xs <= 367 ->
  Forall argument (xs ++ e :: ys) -> Forall ordinary (tl xs) -> three_groups e ->
  (forall x, In x xs -> maps_to user f x (g x)) ->
  preprocesses user (map_call f (xs ++ e :: ys)) (join (map g xs)).
Proof. exact (map_cut user f g xs e ys). Qed.
Print Assumptions C60_map_cut_refuted.

(** ** The hypotheses can be met *)
Definition wrap : list btok := [B (Plain 20); B LP; Par 0; B RP; B (Plain 21); Par 0].
Definition user0 (u : nat) : mdef := match u with 0 => Fun 1 false false wrap | _ => Obj [] end.
Definition some_args : list (list tok) := [[Plain 1]; [LP; Plain 2; CM; Plain 3; RP; LP; RP]; []; [Plain 4; LP; RP]].
Lemma args_arguments : Forall argument some_args.
Proof. repeat (constructor; [split; [repeat constructor|reflexivity]|]). constructor. Qed.
Lemma args_ordinary : Forall ordinary (tl some_args).
Proof.
  constructor; [|constructor; [|constructor; [|constructor]]].
  - split; [split; [repeat constructor|reflexivity]|]. exists 2, []. split; [lia|].
    apply (g_more 1 [Plain 2; CM; Plain 3] [LP; RP] []); [split; [repeat constructor|reflexivity]|].
    apply (g_more 0 [] [] []); [split; [constructor|reflexivity]|]. constructor. discriminate.
  - split; [split; [constructor|reflexivity]|]. exists 0, []. split; [lia|]. constructor. discriminate.
  - split; [split; [repeat constructor|reflexivity]|]. exists 0, [Plain 4; LP; RP]. split; [lia|]. constructor. discriminate.
Qed.
Example C60_nonvacuous : preprocesses user0 (map_call (nm (User 0)) some_args)
  [Plain 20; LP; Plain 1; RP; Plain 21; Plain 1; CM;
   Plain 20; LP; LP; Plain 2; CM; Plain 3; RP; LP; RP; RP; Plain 21; LP; Plain 2; CM; Plain 3; RP; LP; RP; CM;
   Plain 20; LP; RP; Plain 21; CM;
   Plain 20; LP; Plain 4; LP; RP; RP; Plain 21; Plain 4; LP; RP].
Proof.
  apply (C60_map_macro user0 0 false wrap some_args);
    [reflexivity| |discriminate|cbn; lia|exact args_arguments|exact args_ordinary].
  split; [repeat constructor|reflexivity].
Qed.
(** The definition runs, too. *)
Example C60_runs : expand user0 1000 [] (map T (map_call (Plain 7) [[Plain 1]; [Plain 2]])) =
  Some [Plain 7; LP; Plain 1; RP; CM; Plain 7; LP; Plain 2; RP].
Proof. reflexivity. Qed.
Example C60_cut_nonvacuous : preprocesses user0 (map_call (Plain 7) ([[Plain 1]] ++ [LP; Plain 2; RP; LP; RP; LP; RP] :: [[Plain 3]]))
  [Plain 7; LP; Plain 1; RP].
Proof.
  apply (C60_map_cut_refuted user0 (Plain 7) (applied (Plain 7))).
  - exact I.
  - discriminate.
  - discriminate.
  - cbn. lia.
  - repeat (constructor; [split; [repeat constructor|reflexivity]|]). constructor.
  - constructor.
  - exists [Plain 2], []. repeat split; try constructor; exact I || constructor.
  - intros x [<-|[]]. apply plain_maps. split; [repeat constructor|reflexivity].
Qed.
Example C60_left_nonvacuous : exists xs, 367 < length xs /\ Forall argument xs /\ Forall ordinary (tl xs).
Proof.
  exists (repeat [Plain 1] 368).
  assert (A : argument [Plain 1]) by (split; [repeat constructor|reflexivity]).
  assert (O : ordinary [Plain 1]) by (split; [exact A|exists 0, [Plain 1]; split; [lia|constructor; discriminate]]).
  split; [rewrite repeat_length; lia|]. split.
  - apply Forall_forall. intros x H. apply repeat_spec in H as ->. exact A.
  - apply (Forall_forall ordinary (repeat [Plain 1] 367)). intros x H. apply repeat_spec in H as ->. exact O.
Qed.
