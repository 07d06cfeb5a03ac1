(** C99 is_structural_v has no false positives, and finds the types that are easy to make. *)
From Verif Require Import Base StructuralModel StructuralSpec StructuralProofs.

Theorem C99_no_false_positives : forall classes depth t, is_structural classes depth t = true -> structural classes t.
Proof.
  intros classes depth t H. apply template_parameter_structural. unfold is_structural in H. destruct t; try exact H; cbn;
    try reflexivity; destruct (try_construct classes depth _); try discriminate H; exact H.
Qed.
Print Assumptions C99_no_false_positives.
Theorem C99_finds : forall classes depth t v, made classes depth t v -> (is_structural classes depth t = true <-> structural classes t).
Proof.
  intros classes depth t v H. split; [apply C99_no_false_positives|]. intros Hs. unfold is_structural. apply made_constructs in H.
  destruct Hs as [s|t|c Hc]; [rewrite H; reflexivity|reflexivity|rewrite H; exact Hc].
Qed.
Print Assumptions C99_finds.
Theorem C99_references : forall classes depth t, is_structural classes depth (LRef t) = true /\ is_structural classes depth (RRef t) = false.
Proof. intros classes depth t. split; [reflexivity|]. destruct depth; reflexivity. Qed.
Print Assumptions C99_references.
(** What it misses, however deep the compiler looks.  Classes for which every number of arguments up to
    ten has no constructor, or two that take any values, such as S(int) beside S(float). *)
Theorem C99_misses_overloaded : forall classes depth c,
  (forall n, n <= 10 ->
     Forall (fun k => ~ takes_count n k) (constructors (classes c)) \/
     exists l1 k1 l2 k2 l3, constructors (classes c) = l1 ++ k1 :: l2 ++ k2 :: l3 /\ takes_count n k1 /\ takes_count n k2 /\
       (forall p, In p (parameters k1 ++ parameters k2) -> exists u, p = Takes u /\ u <> Class c)) ->
  is_structural classes depth (Class c) = false.
Proof.
  intros classes depth c H. unfold is_structural. destruct depth as [|depth]; [reflexivity|]. cbn [try_construct]. rewrite search_none; [reflexivity|].
  intros i Hi. destruct (H i) as [Hn|(l1 & k1 & l2 & k2 & l3 & Hc & H1 & H2 & Hp)]; [lia| |].
  - unfold constructible. rewrite filter_none; [reflexivity|]. eapply Forall_impl; [|exact Hn]. cbn beta. intros k Hk.
    destruct (viable (Class c) i k) eqn:E; [|reflexivity]. apply viable_count in E. contradiction.
  - assert (V : forall k, takes_count i k -> (forall p, In p (parameters k) -> exists u, p = Takes u /\ u <> Class c) -> viable (Class c) i k = true).
    { intros k [Ha Hb] Hk. unfold viable. rewrite !(proj2 (Nat.leb_le _ _)) by lia. cbn [andb]. apply forallb_forall. intros p Hin.
      assert (Hin' : In p (parameters k)) by (rewrite <- (firstn_skipn i); apply in_or_app; now left).
      destruct (Hk p Hin') as (u & -> & Hu). cbn [converts]. destruct (type_eqb (Class c) u) eqn:E; [|reflexivity]. apply type_eqb_eq in E. congruence. }
    assert (V1 := V k1 H1 (fun p Hin => Hp p (in_or_app _ _ _ (or_introl Hin)))).
    assert (V2 := V k2 H2 (fun p Hin => Hp p (in_or_app _ _ _ (or_intror Hin)))).
    unfold constructible. rewrite Hc, filter_app. cbn [filter]. rewrite V1, filter_app. cbn [filter]. rewrite V2.
    destruct (filter _ l1) as [|? [|? ?]]; cbn; [destruct (filter _ l2)|..]; reflexivity.
Qed.
Print Assumptions C99_misses_overloaded.
(** Classes whose default constructor is not constexpr, even with another that is. *)
Theorem C99_misses_runtime_default : forall classes depth c before k after,
  constructors (classes c) = before ++ k :: after -> takes_count 0 k -> Forall (fun k' => ~ takes_count 0 k') (before ++ after) ->
  run k [] = None -> is_structural classes depth (Class c) = false.
Proof.
  intros classes depth c before k after Hc H0 Ho Hr. unfold is_structural. destruct depth as [|depth]; [reflexivity|]. cbn [try_construct].
  assert (E : constructible classes c 0 = Some k).
  { unfold constructible. rewrite Hc, filter_only; [reflexivity|now apply viable_zero|]. eapply Forall_impl; [|exact Ho]. cbn beta. intros a Ha.
    destruct (viable (Class c) 0 a) eqn:E; [|reflexivity]. apply viable_count in E. contradiction. }
  cbn [search]. rewrite E. cbn [firstn all_of]. now rewrite Hr.
Qed.
Print Assumptions C99_misses_runtime_default.
(** Classes whose constructors all take an lvalue reference or the class itself. *)
Theorem C99_misses_references : forall classes depth c,
  (forall n k, n <= 10 -> In k (constructors (classes c)) -> takes_count n k ->
     exists p, In p (firstn n (parameters k)) /\ (p = Takes (Class c) \/ exists u, p = Binds u)) ->
  is_structural classes depth (Class c) = false.
Proof.
  intros classes depth c H. unfold is_structural. destruct depth as [|depth]; [reflexivity|]. cbn [try_construct]. rewrite search_none; [reflexivity|].
  intros i Hi. unfold constructible. rewrite filter_none; [reflexivity|]. apply Forall_forall. intros k Hk.
  destruct (viable (Class c) i k) eqn:E; [|reflexivity]. destruct (H i k ltac:(lia) Hk (viable_count _ _ _ E)) as (p & Hp & Hb).
  unfold viable in E. apply andb_prop in E as [_ E]. rewrite forallb_forall in E. specialize (E p Hp).
  destruct Hb as [-> | [u ->]]; [|discriminate E]. cbn [converts] in E. rewrite (proj2 (type_eqb_eq _ _) eq_refl) in E. discriminate E.
Qed.
Print Assumptions C99_misses_references.
(** Classes whose one constructor takes more than ten arguments. *)
Theorem C99_misses_long : forall classes depth c k,
  constructors (classes c) = [k] -> defaults k = 0 -> length (parameters k) > 10 -> is_structural classes depth (Class c) = false.
Proof.
  intros classes depth c k Hc Hd Hl. apply C99_misses_overloaded. intros n Hn. left. rewrite Hc. constructor; [|constructor].
  unfold takes_count. rewrite Hd. lia.
Qed.
Print Assumptions C99_misses_long.

(** Class 0: S(int), copyable.  Class 1: T(S, int).  Class 2: U(int), U(float).  Class 3: like T, with a
    private member. *)
Definition example_classes (c : nat) : class :=
  let copy c := {| parameters := [Takes (Class c)]; defaults := 0; run := fun _ => None |} in
  match c with
  | 0 => {| constructors := [copy 0; {| parameters := [Takes (Scalar 0)]; defaults := 0; run := fun l => Some (Made 0 l) |}]; language_structural := true |}
  | 1 => {| constructors := [{| parameters := [Takes (Class 0); Takes (Scalar 0)]; defaults := 0; run := fun l => Some (Made 1 l) |}; copy 1]; language_structural := true |}
  | 2 => {| constructors := [{| parameters := [Takes (Scalar 0)]; defaults := 0; run := fun l => Some (Made 2 l) |};
                             {| parameters := [Takes (Scalar 1)]; defaults := 0; run := fun l => Some (Made 2 l) |}]; language_structural := true |}
  | _ => {| constructors := [{| parameters := [Takes (Class 0); Takes (Scalar 0)]; defaults := 0; run := fun l => Some (Made c l) |}]; language_structural := false |}
  end.
Example C99_example :
  made example_classes 3 (Class 1) (Made 1 [Made 0 [Zero 0]; Zero 0]) /\
  is_structural example_classes 3 (Class 1) = true /\ is_structural example_classes 3 (Class 2) = false /\
  structural example_classes (Class 2) /\ is_structural example_classes 3 (Class 3) = false.
Proof.
  split; [|repeat split; try reflexivity; now constructor].
  apply (made_from example_classes 2 1 [] {| parameters := [Takes (Class 0); Takes (Scalar 0)]; defaults := 0; run := fun l => Some (Made 1 l) |}
    [{| parameters := [Takes (Class 1)]; defaults := 0; run := fun _ => None |}] [Class 0; Scalar 0] [Made 0 [Zero 0]; Zero 0]); try reflexivity.
  - cbn [app]. apply Forall_cons; [|constructor]. split; reflexivity.
  - cbn. lia.
  - cbn. intros [H|[H|[]]]; discriminate H.
  - constructor; [|constructor; constructor].
    apply (made_from example_classes 1 0 [{| parameters := [Takes (Class 0)]; defaults := 0; run := fun _ => None |}]
      {| parameters := [Takes (Scalar 0)]; defaults := 0; run := fun l => Some (Made 0 l) |} [] [Scalar 0] [Zero 0]); try reflexivity.
    + cbn [app]. apply Forall_cons; [|constructor]. split; reflexivity.
    + cbn. lia.
    + cbn. intros [H|[]]; discriminate H.
    + constructor; constructor.
Qed.
(** Class 4 of these: R(int &), copyable. *)
Example C99_references_example :
  let classes := fun _ => {| constructors := [{| parameters := [Binds (Scalar 0)]; defaults := 0; run := fun l => Some (Made 4 l) |};
                                {| parameters := [Takes (Class 4)]; defaults := 0; run := fun _ => None |}]; language_structural := true |} in
  forall n k, n <= 10 -> In k (constructors (classes 4)) -> takes_count n k ->
     exists p, In p (firstn n (parameters k)) /\ (p = Takes (Class 4) \/ exists u, p = Binds u).
Proof.
  intros classes n k _ [<-|[<-|[]]] [H1 H2]; cbn in H1, H2; assert (n = 1) as -> by lia; cbn; eexists; (split; [left; reflexivity|]); [right; eexists|left]; reflexivity.
Qed.
Example C99_overloaded_example : forall n, n <= 10 ->
     Forall (fun k => ~ takes_count n k) (constructors (example_classes 2)) \/
     exists l1 k1 l2 k2 l3, constructors (example_classes 2) = l1 ++ k1 :: l2 ++ k2 :: l3 /\ takes_count n k1 /\ takes_count n k2 /\
       (forall p, In p (parameters k1 ++ parameters k2) -> exists u, p = Takes u /\ u <> Class 2).
Proof.
  intros n _. destruct (Nat.eq_dec n 1) as [->|Hn].
  - right. exists [], {| parameters := [Takes (Scalar 0)]; defaults := 0; run := fun l => Some (Made 2 l) |}, [],
      {| parameters := [Takes (Scalar 1)]; defaults := 0; run := fun l => Some (Made 2 l) |}, [].
    repeat split; cbn; try lia. intros p [<-|[<-|[]]]; eexists; split; try reflexivity; discriminate.
  - left. cbn. repeat (apply Forall_cons; [unfold takes_count; cbn; lia|]). constructor.
Qed.
