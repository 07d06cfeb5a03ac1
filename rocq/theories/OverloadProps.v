(** C137 stdx::overload. *)
From Verif Require Import Base OverloadModel OverloadSpec OverloadProofs.

(** A visitor with one function for each type: every call compiles, whatever the types convert to, and each function gets the
    calls with arguments of its type, in order, as if it were alone: its results and the state it keeps are the same. *)
Theorem C137_visitor : forall conv S V R (run_ : nat -> S -> V -> S * R) fs co (l : list (arg * V)) (o : nat -> S),
  NoDup (map id fs) -> NoDup (map type_for fs) -> (forall f, In f fs -> type_for f <> None /\ no_mixture fs co f) ->
  (forall a v, In (a, v) l -> exists f, In f fs /\ type_for f = Some (type a)) ->
  exists o' rs, calls conv run_ fs co o l = Some (o', rs) /\ length rs = length l /\
    forall f c, In f fs -> type_for f = Some c ->
      alone (run_ (id f)) (mutable_ f) (o (id f)) (map fst (of_type c l rs)) = (o' (id f), map snd (of_type c l rs)).
Proof. intros conv S V R run_ fs co l o ND NT K H. apply visitor_calls; assumption. Qed.
Print Assumptions C137_visitor.
(** The function for an argument's own type is called, whatever other types it converts to and although there may be functions
    for all types. *)
Theorem C137_own_type : forall conv fs co a f, NoDup (map id fs) -> In f fs -> no_mixture fs co f -> takes_exactly f a ->
  (forall g, In g fs -> g <> f -> for_another g a \/ (for_all g /\ (parameter g = AnyForward -> by_const_ref f -> const_lvalue a))) -> resolve conv fs co a = Some f.
Proof. exact exact_chosen. Qed.
Print Assumptions C137_own_type.
(** A function for all types is called for the types that have none of their own, although they may convert to others. *)
Theorem C137_all_other_types : forall conv fs co a f, NoDup (map id fs) -> In f fs -> no_mixture fs co f -> for_all f ->
  (forall g, In g fs -> g <> f -> for_another g a) -> resolve conv fs co a = Some f.
Proof. exact rest_chosen. Qed.
Print Assumptions C137_all_other_types.
(** If no function is for the argument's own type, the call compiles exactly if one has a closer conversion than all others
    that it converts for, and calls that one: an argument that converts equally well for two is refused. *)
Theorem C137_conversions : forall conv fs co a f, NoDup (map id fs) ->
  (forall g, In g fs -> no_mixture fs co g /\ exists c, type_for g = Some c /\ c <> type a) ->
  (resolve conv fs co a = Some f <->
   In f fs /\ exists c r, type_for f = Some c /\ conv (type a) c = Some r /\
     forall g d s, In g fs -> g <> f -> type_for g = Some d -> conv (type a) d = Some s -> closer r s).
Proof.
  intros conv fs co a f ND K.
  assert (V : forall g, In g fs -> exists c, type_for g = Some c /\ c <> type a /\ passes conv (parameter g) a = option_map Converted (conv (type a) c) /\ is_template (parameter g) = false).
  { intros g G. destruct (K g G) as (_ & c & T & N). exists c. rename T into T0. assert (T := T0). unfold type_for in T. destruct (parameter g) as [| | |d|d|d|d]; try discriminate; injection T as ->;
      (cbn [passes is_template]; unfold to_type; destruct (Nat.eqb_spec (type a) c); [congruence|repeat split; assumption || reflexivity]). }
  assert (M : forall g h, In g fs -> In h fs -> mutable_ g = mutable_ h /\ implb (mutable_ g) (negb co) = true).
  { intros g h G H. destruct (K g G) as (Ng & _), (K h H) as (Nh & _). unfold no_mixture in *. destruct Ng as [(-> & A)|(-> & A)], Nh as [(E & B)|(E & B)]; try discriminate E.
    - rewrite A, B. auto.
    - rewrite (B g G). split; [reflexivity|]. destruct (mutable_ h); reflexivity. }
  assert (VI : forall g c, In g fs -> type_for g = Some c -> (viable conv co a g = true <-> exists r, conv (type a) c = Some r)).
  { intros g c G T. destruct (V g G) as (c' & T' & _ & P & _). rewrite T in T'. injection T' as <-. unfold viable. rewrite P, (proj2 (M g g G G)).
    destruct (conv (type a) c) as [r|]; cbn; split; intros H; eauto; try discriminate. destruct H; discriminate. }
  assert (BI : forall g h c d r s, In g fs -> In h fs -> type_for g = Some c -> type_for h = Some d -> conv (type a) c = Some r -> conv (type a) d = Some s ->
     (better conv a g h = true <-> closer r s)).
  { intros g h c d r s G H Tg Th Cg Ch. destruct (V g G) as (c' & Tg' & _ & Pg & Ig), (V h H) as (d' & Th' & _ & Ph & Ih).
    rewrite Tg in Tg'. injection Tg' as <-. rewrite Th in Th'. injection Th' as <-.
    unfold better. rewrite Pg, Ph, Cg, Ch. cbn [option_map]. rewrite !own_object by (left; symmetry; apply (M g h G H) || apply (M h g H G)). rewrite Ig, Ih.
    assert (X : more_specialized (parameter g) (parameter h) = false) by (destruct (parameter g); try reflexivity; discriminate Ig).
    rewrite X. cbn. unfold closer. destruct r, s; cbn; intuition discriminate. }
  split.
  - intros R. destruct (resolve_some _ _ _ _ _ R) as (I & Vf & B). split; [exact I|]. destruct (V f I) as (c & T & _). apply (VI f c I T) in Vf. destruct Vf as (r & C).
    exists c, r. split; [exact T|]. split; [exact C|]. intros g d s G N Td Cd. apply (BI f g c d r s); try assumption.
    destruct (B g G) as [E|E]; [apply (VI g d G Td); eauto| |exact E].
    exfalso. apply N. clear - ND I G E. induction fs as [|x fs IH]; [contradiction|]. cbn in ND. inversion_clear ND as [|? ? X D].
    destruct I as [->|I], G as [->|G]; auto; exfalso; apply X; [rewrite <- E|rewrite E]; now apply in_map.
  - intros (I & c & r & T & C & B). apply resolve_best; try assumption; [apply (VI f c I T); eauto|].
    intros g G N Vg. destruct (V g G) as (d & Td & _). apply (VI g d G Td) in Vg. destruct Vg as (s & Cs). apply (BI f g c d r s); try assumption. eapply B; eassumption.
Qed.
Print Assumptions C137_conversions.
(** Functions that take T&, T const& and T&&: each gets its arguments. *)
Theorem C137_category : forall conv c i j k m a, i <> j -> i <> k -> j <> k -> type a = c ->
  let fs := [Function i (Ref c) m; Function j (ConstRef c) m; Function k (RvalueRef c) m] in
  resolve conv fs false a = Some (if const a then Function j (ConstRef c) m else if rvalue a then Function k (RvalueRef c) m else Function i (Ref c) m).
Proof.
  intros conv c i j k m [t cn rv] IJ IK JK T fs. cbn in T. subst t. apply resolve_best.
  - cbn. repeat constructor; cbn; intuition congruence.
  - destruct cn, rv; cbn; auto.
  - unfold viable. destruct cn, rv; cbn; unfold to_type; cbn; rewrite ?Nat.eqb_refl; cbn; destruct m; reflexivity.
  - intros g G N Vg. cbn in G. destruct G as [<-|[<-|[<-|[]]]]; unfold viable in Vg; destruct cn, rv; cbn in *; unfold to_type in *; cbn in *; rewrite ?Nat.eqb_refl in *; cbn in *; destruct m; cbn in *; try congruence;
      unfold better; cbn; unfold to_type; cbn; rewrite ?Nat.eqb_refl; reflexivity.
Qed.
Print Assumptions C137_category.
(** Generic functions that take auto const& and auto&&: the first gets const lvalues, the second all others. *)
Theorem C137_generic : forall conv i j m a, i <> j ->
  resolve conv [Function i AnyConstRef m; Function j AnyForward m] false a = Some (if const a && negb (rvalue a) then Function i AnyConstRef m else Function j AnyForward m).
Proof.
  intros conv i j m [t cn rv] N. apply resolve_best.
  - cbn. repeat constructor; cbn; intuition congruence.
  - destruct cn, rv; cbn; auto.
  - unfold viable. destruct cn, rv, m; reflexivity.
  - intros g [<-|[<-|[]]] D _; destruct cn, rv, m; cbn in *; try congruence; reflexivity.
Qed.
Print Assumptions C137_generic.
(** The order in which the functions are given does not matter. *)
Theorem C137_order : forall conv fs fs' co a, NoDup (map id fs) -> NoDup (map id fs') -> (forall f, In f fs <-> In f fs') -> resolve conv fs co a = resolve conv fs' co a.
Proof. intros conv fs fs' co a ND ND' E. apply order_free; assumption. Qed.
Print Assumptions C137_order.
(** FINDING: with a mutable function for all types among functions that are not mutable, on an object that is not const, every
    call goes to the mutable one, also calls for whose type there is a function: *)
Theorem C137_mutable_refuted : forall conv fs a g, NoDup (map id fs) -> In g fs -> mutable_ g = true -> parameter g = AnyValue ->
  (forall f, In f fs -> f <> g -> mutable_ f = false) -> resolve conv fs false a = Some g.
Proof. exact mutable_wins. Qed.
Print Assumptions C137_mutable_refuted.
(** and with a mutable function for one type and a function that is not mutable for another, a call with an argument of the
    other type does not compile if it converts to the first. *)
Theorem C137_mixture_refuted : forall conv a f g c, takes_exactly f a -> mutable_ f = false -> mutable_ g = true -> type_for g = Some c -> c <> type a -> conv (type a) c <> None -> id f <> id g ->
  resolve conv [f; g] false a = None /\ resolve conv [g; f] false a = None.
Proof.
  intros conv a f g c F MF MG T N C D. destruct (conv (type a) c) as [r|] eqn:E; [|contradiction]. apply (mixture_ambiguous conv a f g r); auto.
  unfold type_for in T. destruct (parameter g); try discriminate; injection T as ->; cbn; unfold to_type; destruct (Nat.eqb_spec (type a) c); try congruence; now rewrite E.
Qed.
Print Assumptions C137_mixture_refuted.
(** FINDING: auto&& beside T const& takes the arguments of type T that are not const or are rvalues. *)
Theorem C137_forward_refuted : forall conv fs a f g, NoDup (map id fs) -> In f fs -> In g fs -> by_const_ref f -> takes_exactly f a -> parameter g = AnyForward -> ~ const_lvalue a ->
  (forall h, In h fs -> mutable_ h = false) -> (forall h, In h fs -> h <> f -> h <> g -> for_another h a) -> resolve conv fs false a = Some g.
Proof. exact forward_wins. Qed.
Print Assumptions C137_forward_refuted.

(** The example of utility.adoc: a string const& and auto, visited with an int, a float and a string; int and char as in overload.cpp,
    the second with one of them mutable. *)
Definition between (t u : nat) : option rank := match t, u with 1, 0 => Some Promotion | 0, 1 | 0, 2 | 2, 0 | 1, 2 | 2, 1 => Some Conversion | _, _ => None end.
Example C137_example :
  let fs := [Function 0 (ConstRef 3) false; Function 1 AnyValue false] in
  let ic := [Function 0 (Value 0) false; Function 1 (Value 1) false] in
  map (fun t => option_map id (resolve between fs true (Arg t false false))) [0; 2; 3] = [Some 1; Some 1; Some 0] /\
  map (fun t => option_map id (resolve between ic true (Arg t false true))) [0; 1; 2] = [Some 0; Some 1; None] /\
  map (fun t => option_map id (resolve between [Function 0 (Value 0) false; Function 2 (Value 2) false] true (Arg t false true))) [1; 4] = [Some 0; None] /\
  resolve between [Function 0 (Value 0) true; Function 1 (Value 1) false] false (Arg 1 false true) = None /\
  option_map id (resolve between [Function 0 (ConstRef 3) false; Function 1 AnyValue true] false (Arg 3 false false)) = Some 1 /\
  calls between (fun _ s v => (s + v, s)) [Function 0 (Value 0) true; Function 1 (Value 1) true] false (fun _ => 0) [(Arg 0 false true, 5); (Arg 1 false true, 7); (Arg 0 true false, 6)] <> None /\
  option_map snd (calls between (fun _ s v => (s + v, s + v)) [Function 0 (Value 0) true; Function 1 (Value 1) true] false (fun _ => 0) [(Arg 0 false true, 5); (Arg 1 false true, 7); (Arg 0 true false, 6)]) = Some [5; 7; 11].
Proof. repeat split; try reflexivity. discriminate. Qed.
