(** * C103: tuples hold the values they are made from *)
From Verif Require Import Base MakeTupleModel.

(** ** Specification *)
(** Element [e] holds argument [a], the [i]-th: a copy of it, or its value moved if it is an rvalue that is
    not const; for arrays and functions, a pointer to the array's first element or to the function. *)
Definition holds (i : nat) (a : argument) (e : element) : Prop :=
  match a_type a with
  | Array t c _ => e = {| e_type := Pointer t c; e_from := Address i |}
  | Function n => e = {| e_type := Pointer (Function n) false; e_from := Address i |}
  | t => e_type e = t /\ (e_from e = Move i /\ a_lvalue a = false /\ a_const a = false \/ e_from e = Copy i /\ (a_lvalue a = true \/ a_const a = true))
  end.
Definition holds_all (args : list argument) (es : list element) : Prop :=
  length es = length args /\ forall i a e, nth_error args i = Some a -> nth_error es i = Some e -> holds i a e.
Definition is_tuple (a : argument) : Prop := exists ts, a_type a = Tuple ts.
Definition decays (a : argument) : Prop := match a_type a with Array _ _ _ | Function _ => True | _ => False end.

(** ** Proofs *)
Lemma ty_ind' (P : ty -> Prop) : (forall n, P (Object n)) -> (forall t c n, P t -> P (Array t c n)) -> (forall n, P (Function n)) -> (forall t c, P t -> P (Pointer t c)) ->
  (forall ts, Forall P ts -> P (Tuple ts)) -> (forall fs ts, Forall P ts -> P (Indexed fs ts)) -> forall t, P t.
Proof.
  intros H1 H2 H3 H4 H5 H6. fix IH 1. intros [n|t c n|n|t c|ts|fs ts]; [apply H1|apply H2, IH|apply H3|apply H4, IH|apply H5|apply H6].
  - induction ts as [|t ts IHts]; constructor; [apply IH|exact IHts].
  - induction ts as [|t ts IHts]; constructor; [apply IH|exact IHts].
Qed.
Definition list_eqb := fix go (l m : list ty) := match l, m with [], [] => true | t :: l, u :: m => ty_eqb t u && go l m | _, _ => false end.
Lemma ty_eqb_eq t : forall u, ty_eqb t u = true -> t = u.
Proof.
  assert (L : forall ts, Forall (fun t => forall u, ty_eqb t u = true -> t = u) ts -> forall us, list_eqb ts us = true -> ts = us).
  { induction 1 as [|t0 ts Ht _ IH]; intros [|u us] H; cbn in H; try discriminate; [reflexivity|]. apply andb_prop in H as (H1 & H2). rewrite (Ht _ H1), (IH _ H2). reflexivity. }
  induction t as [n|t c n IH|n|t c IH|ts IH|fs ts IH] using ty_ind'; intros u H; destruct u; cbn [ty_eqb] in H; try discriminate.
  - apply Nat.eqb_eq in H. congruence.
  - apply andb_prop in H as (H & H3). apply andb_prop in H as (H1 & H2). apply Nat.eqb_eq in H3. apply eqb_prop in H2. rewrite (IH _ H1). congruence.
  - apply Nat.eqb_eq in H. congruence.
  - apply andb_prop in H as (H1 & H2). apply eqb_prop in H2. rewrite (IH _ H1). congruence.
  - f_equal. apply (L _ IH). exact H.
  - apply andb_prop in H as (H1 & H2). destruct (list_eq_dec Nat.eq_dec fs index_functions) as [->|]; [|discriminate]. f_equal. apply (L _ IH). exact H2.
Qed.
Lemma ty_eqb_refl t : ty_eqb t t = true.
Proof.
  assert (L : forall ts, Forall (fun t => ty_eqb t t = true) ts -> list_eqb ts ts = true) by (induction 1 as [|t0 ts Ht _ IH]; [reflexivity|cbn; rewrite Ht; exact IH]).
  induction t as [n|t c n IH|n|t c IH|ts IH|fs ts IH] using ty_ind'; cbn [ty_eqb].
  - apply Nat.eqb_refl.
  - rewrite IH, eqb_reflx, Nat.eqb_refl. reflexivity.
  - apply Nat.eqb_refl.
  - rewrite IH, eqb_reflx. reflexivity.
  - exact (L _ IH).
  - destruct (list_eq_dec Nat.eq_dec fs fs); [exact (L _ IH)|contradiction].
Qed.
Lemma tuple_not_own_element t : t <> Tuple [t].
Proof. induction t as [n|t c n IH|n|t c IH|ts IH|fs ts IH] using ty_ind'; intros H; try discriminate. injection H as H. rewrite H in IH. apply Forall_inv in IH. apply IH. f_equal. exact H. Qed.
Lemma indexed_not_own_element fs t : t <> Indexed fs [t].
Proof. induction t as [n|t c n IH|n|t c IH|ts IH|gs ts IH] using ty_ind'; intros H; try discriminate. injection H as -> H. rewrite H in IH. apply Forall_inv in IH. apply IH. f_equal. exact H. Qed.
Lemma init_holds i a t : t = decay a -> exists e, init t i a = Some e /\ holds i a e.
Proof.
  intros ->. destruct a as [t c l]. unfold decay, init, holds. cbn [a_type a_const a_lvalue].
  destruct t as [n|t k n|n|t k|ts|fs ts]; eexists; (split; [reflexivity|]); cbn; auto; (split; [reflexivity|]); destruct l, c; cbn; auto.
Qed.
Lemma init_all_holds args : forall k, exists es, init_all (map decay args) k args = Some es /\ length es = length args /\ forall i a e, nth_error args i = Some a -> nth_error es i = Some e -> holds (k + i) a e.
Proof.
  induction args as [|a args IH]; intros k; cbn [map init_all].
  - exists []. repeat split. intros [|i] a e H; discriminate.
  - destruct (init_holds k a _ eq_refl) as (e & E & H). destruct (IH (S k)) as (es & E2 & L & F). rewrite E, E2. exists (e :: es). split; [reflexivity|]. split; [cbn; congruence|].
    intros [|i] b e' Hb He; cbn in Hb, He; [injection Hb as <-; injection He as <-; rewrite Nat.add_0_r; exact H|]. replace (k + S i)%nat with (S k + i)%nat by lia. exact (F i b e' Hb He).
Qed.
Lemma list_initialize_holds args : exists es, list_initialize (map decay args) args = Some es /\ holds_all args es.
Proof.
  destruct (init_all_holds args 0) as (es & E & L & F). exists es. split; [|split; [exact L|exact F]]. unfold list_initialize. destruct args as [|a [|b args]]; [exact E| |exact E].
  destruct (ty_eqb (a_type a) (Tuple (map decay [a]))) eqn:C; [|exact E]. exfalso. apply ty_eqb_eq in C. cbn [map] in C. unfold decay in C. destruct (a_type a) eqn:Ea; try discriminate. exact (tuple_not_own_element _ C).
Qed.

(** make_tuple holds its arguments, whatever they are: one tuple gives a tuple of a tuple. *)
Theorem C103_make_tuple : forall args, exists es, make_tuple args = Some es /\ holds_all args es.
Proof. exact list_initialize_holds. Qed.
Print Assumptions C103_make_tuple.
(** So does tuple{...}, unless its only argument is a tuple. *)
Theorem C103_braces : forall args, (forall a, args = [a] -> ~ is_tuple a) -> exists es, tuple_braces args = Some es /\ holds_all args es.
Proof.
  intros args H. unfold tuple_braces, deduce. assert (E : copy_candidate args = None).
  { destruct args as [|a [|b args]]; try reflexivity. specialize (H a eq_refl). cbn. destruct (a_type a) eqn:Ea; try reflexivity. exfalso. apply H. exists elements. exact Ea. }
  rewrite E. cbn [guide]. apply list_initialize_holds.
Qed.
Print Assumptions C103_braces.
(** Then the result is that tuple again: it has the elements of the argument, and none of them holds the
    argument. *)
Theorem C103_single_refuted : forall a ts, a_type a = Tuple ts -> exists es, tuple_braces [a] = Some es /\ map e_type es = ts /\
  (forall j e, nth_error es j = Some e -> e_from e = if negb (a_lvalue a) && negb (a_const a) then MovePart 0 j else CopyPart 0 j) /\ ~ holds_all [a] es.
Proof.
  intros a ts H. unfold tuple_braces, deduce, copy_candidate, list_initialize. rewrite H, ty_eqb_refl. eexists. split; [reflexivity|].
  assert (M : map e_type (parts ts a) = ts) by (unfold parts; rewrite map_map; cbn; clear H; generalize 0%nat; induction ts as [|t ts IH]; intros k; cbn; [|rewrite IH]; reflexivity).
  split; [exact M|]. split.
  { assert (G : forall l k j e, nth_error (map (fun jt : nat * ty => {| e_type := snd jt; e_from := if a_lvalue a || a_const a then CopyPart 0 (fst jt) else MovePart 0 (fst jt) |}) (combine (seq k (length l)) l)) j = Some e ->
      e_from e = if negb (a_lvalue a) && negb (a_const a) then MovePart 0 (k + j) else CopyPart 0 (k + j)).
    { induction l as [|t l IH]; intros k [|j] e E; cbn in E; try discriminate; [injection E as <-; cbn; rewrite Nat.add_0_r; now destruct (a_lvalue a), (a_const a)|]. rewrite (IH _ _ _ E). now rewrite Nat.add_succ_r. }
    intros j e E. exact (G ts 0%nat j e E). }
  intros (L & F). destruct (parts ts a) as [|e [|f es]] eqn:E; try discriminate. specialize (F 0%nat a e eq_refl eq_refl). unfold holds in F. rewrite H in F. destruct F as (F & _). cbn in M. rewrite F in M. apply (tuple_not_own_element (Tuple ts)). f_equal. symmetry. exact M.
Qed.
Print Assumptions C103_single_refuted.
(** make_indexed_tuple holds its arguments if none is an array or a function; with one it does not compile. *)
Theorem C103_indexed : forall fs args, (forall a, In a args -> ~ decays a) -> exists es, make_indexed_tuple fs args = Some es /\ holds_all args es.
Proof.
  intros fs args H. assert (M : map a_type args = map decay args).
  { apply map_ext_in. intros a Ha. specialize (H a Ha). unfold decays, decay in *. destruct (a_type a); try reflexivity; contradiction H; exact I. }
  destruct (init_all_holds args 0) as (es & E & L & F). exists es. split; [|split; [exact L|exact F]]. unfold make_indexed_tuple. rewrite M. destruct args as [|a [|b args]]; [exact E| |exact E].
  destruct (ty_eqb (a_type a) (Indexed fs (map decay [a]))) eqn:C; [|exact E]. exfalso. apply ty_eqb_eq in C. cbn [map] in C, M. injection M as M. rewrite <- M in C. exact (indexed_not_own_element _ _ C).
Qed.
Print Assumptions C103_indexed.
Theorem C103_indexed_decay_refuted : forall fs args a, In a args -> decays a -> make_indexed_tuple fs args = None.
Proof.
  intros fs args a Hi Hd. assert (G : forall k, init_all (map a_type args) k args = None).
  { clear fs. revert Hi. induction args as [|b args IH]; intros Hi k; [destruct Hi|]. cbn [map init_all]. destruct Hi as [->|Hi].
    - assert (init (a_type a) k a = None) as -> by (unfold decays in Hd; unfold init; destruct (a_type a); try contradiction; reflexivity). reflexivity.
    - rewrite (IH Hi). destruct (init (a_type b) k b); reflexivity. }
  unfold make_indexed_tuple. destruct args as [|b [|c args]]; [destruct Hi| |apply G].
  destruct (ty_eqb (a_type b) (Indexed fs (map a_type [b]))) eqn:C; [|apply G]. exfalso. apply ty_eqb_eq in C. exact (indexed_not_own_element _ _ C).
Qed.
Print Assumptions C103_indexed_decay_refuted.
(** forward_as_tuple holds references to its arguments. *)
Theorem C103_forward : forall args, exists es, forward_as_tuple args = Some es /\ length es = length args /\
  forall i a, nth_error args i = Some a -> nth_error es i = Some {| e_type := a_type a; e_from := Reference i |}.
Proof.
  intros args. eexists. split; [reflexivity|]. split; [rewrite map_length, combine_length, seq_length; lia|].
  assert (G : forall l k i a, nth_error l i = Some a -> nth_error (map (fun ia => {| e_type := a_type (snd ia); e_from := Reference (fst ia) |}) (combine (seq k (length l)) l)) i = Some {| e_type := a_type a; e_from := Reference (k + i) |}).
  { induction l as [|b l IH]; intros k [|i] a H; try discriminate; cbn in H |- *; [injection H as <-; rewrite Nat.add_0_r; reflexivity|]. rewrite (IH (S k) i a H). rewrite Nat.add_succ_r. reflexivity. }
  intros i a H. exact (G args 0%nat i a H).
Qed.
Print Assumptions C103_forward.
(** A run-time argument of ct_format becomes one argument of the result, unless it is a tuple: then its
    elements become arguments, whose number is not that of the fields. *)
Theorem C103_format : forall a, ~ is_tuple a -> exists e, format_arguments a = Some [e] /\ e_type e = decay a /\ e_from e = Move 0.
Proof.
  intros a H. unfold format_arguments. destruct (C103_braces [{| a_type := decay a; a_const := false; a_lvalue := false |}]) as (es & E & L & F).
  - intros b Hb (ts & Ht). injection Hb as <-. cbn in Ht. apply H. exists ts. unfold decay in Ht. destruct (a_type a); try discriminate. exact Ht.
  - rewrite E. destruct es as [|e [|f es]]; try discriminate. exists e. split; [reflexivity|]. specialize (F 0%nat _ e eq_refl eq_refl). unfold holds in F. cbn [a_type a_lvalue a_const] in F.
    unfold decay in *. destruct (a_type a); try (destruct F as (F1 & [(F2 & _)|(_ & [C|C])]); [split; assumption|discriminate|discriminate]).
Qed.
Print Assumptions C103_format.
Theorem C103_format_refuted : forall a ts, a_type a = Tuple ts -> exists es, format_arguments a = Some es /\ map e_type es = ts.
Proof.
  intros a ts H. unfold format_arguments. destruct (C103_single_refuted {| a_type := decay a; a_const := false; a_lvalue := false |} ts) as (es & E & M & _); [cbn; unfold decay; rewrite H; reflexivity|]. exists es. split; assumption.
Qed.
Print Assumptions C103_format_refuted.

(** An int lvalue, a string literal and a tuple rvalue. *)
Example C103_make_tuple_example :
  make_tuple [{| a_type := Object 0; a_const := false; a_lvalue := true |}; {| a_type := Array (Object 1) true 4; a_const := true; a_lvalue := true |}; {| a_type := Tuple [Object 0]; a_const := false; a_lvalue := false |}]
    = Some [{| e_type := Object 0; e_from := Copy 0 |}; {| e_type := Pointer (Object 1) true; e_from := Address 1 |}; {| e_type := Tuple [Object 0]; e_from := Move 2 |}].
Proof. reflexivity. Qed.
(** tuple{t} and make_tuple(t) for a tuple t of two. *)
Example C103_single_example : let t := {| a_type := Tuple [Object 0; Object 1]; a_const := false; a_lvalue := true |} in
  tuple_braces [t] = Some [{| e_type := Object 0; e_from := CopyPart 0 0 |}; {| e_type := Object 1; e_from := CopyPart 0 1 |}] /\
  make_tuple [t] = Some [{| e_type := Tuple [Object 0; Object 1]; e_from := Copy 0 |}].
Proof. split; reflexivity. Qed.
(** ct_format<"{}">(t): one field, two arguments. *)
Example C103_format_example : format_arguments {| a_type := Tuple [Object 0; Object 1]; a_const := false; a_lvalue := true |}
  = Some [{| e_type := Object 0; e_from := MovePart 0 0 |}; {| e_type := Object 1; e_from := MovePart 0 1 |}].
Proof. reflexivity. Qed.
Example C103_indexed_example : let a := {| a_type := Object 3; a_const := true; a_lvalue := false |} in
  ~ decays a /\ make_indexed_tuple [7] [a] = Some [{| e_type := Object 3; e_from := Copy 0 |}] /\ make_indexed_tuple [7] [a; {| a_type := Function 0; a_const := false; a_lvalue := true |}] = None.
Proof. split; [intros []|split; reflexivity]. Qed.
