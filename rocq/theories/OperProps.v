(** Theorems about unary_plus and dereference; statements use OperSpec. *)
From Verif Require Import Base OperSpec OperModel.
Open Scope nat_scope.

Lemma ty_eqb_eq a : forall b, ty_eqb a b = true <-> a = b.
Proof.
  induction a; intros b; destruct b; cbn; try (split; [discriminate|congruence]);
    try (rewrite Nat.eqb_eq; split; congruence).
  - split; reflexivity.
  - rewrite andb_true_iff, Bool.eqb_true_iff, IHa. split; [intros [-> ->]; reflexivity|intros H; injection H; auto].
  - rewrite andb_true_iff, Nat.eqb_eq, IHa. split; [intros [-> ->]; reflexivity|intros H; injection H; auto].
Qed.
Lemma nth_snoc {A} (m : list A) v : nth_error (m ++ [v]) (length m) = Some v.
Proof. rewrite nth_error_app2, Nat.sub_diag; [reflexivity|lia]. Qed.

Lemma same P o e m : possible e m -> bits e = None ->
  (forall k, oty e = Class k -> ocat e = Prvalue -> moves_freely P k) ->
  transparent P o e m = apply_oper P o e m.
Proof.
  intros (F & A & C & W & _ & V) B M. destruct e as [t c cat b w]; cbn in *. subst b.
  unfold transparent, bind, forward; cbn.
  destruct w as [l|v]; cbn.
  - destruct W as [W L]. destruct t, o, cat; cbn; try reflexivity; try congruence; try (destruct (F _ eq_refl); congruence); destruct t; reflexivity.
  - subst cat. specialize (A). destruct t; cbn; rewrite ?nth_snoc; try reflexivity.
    + destruct o; cbn; rewrite ?nth_snoc; reflexivity.
    + destruct o, t; cbn; rewrite ?nth_snoc; reflexivity.
    + destruct (A _ _ eq_refl eq_refl).
    + destruct (F _ eq_refl); discriminate.
    + destruct o; cbn; apply (M k eq_refl eq_refl).
Qed.

(** C148: unary_plus<>{}(e) and dereference<>{}(e) are +e and *e: they compile for the same operands,
    and give the same type, constness, category, value or object. *)
Theorem C148_transparent : forall P o e m, possible e m -> bits e = None ->
  (forall k, oty e = Class k -> ocat e = Prvalue -> moves_freely P k) ->
  transparent P o e m = apply_oper P o e m.
Proof. exact same. Qed.
Print Assumptions C148_transparent.

(** unary_plus<T> and dereference<T> are the same for operands of type T, whatever their constness and
    category, and do not compile for others. *)
Theorem C148_typed : forall P o T e m, possible e m -> bits e = None ->
  (forall k, oty e = Class k -> ocat e = Prvalue -> moves_freely P k) ->
  (oty e = T -> typed P o T e m = apply_oper P o e m) /\ (oty e <> T -> typed P o T e m = NotCompiled).
Proof.
  intros P o T e m W B M. unfold typed. split; intros E.
  - rewrite (proj2 (ty_eqb_eq _ _) E). exact (same P o e m W B M).
  - destruct (ty_eqb (oty e) T) eqn:Q; [apply ty_eqb_eq in Q; contradiction|reflexivity].
Qed.
Print Assumptions C148_typed.

(** FINDING: with a type they are not like std::negate<T>, which takes whatever converts to T and gives a
    T: a number of another type is refused, and for a T that is promoted the result is no T. *)
Theorem C148_negate_refuted : forall P k m w j, promoted P k <> k -> j <> k -> w < length m ->
  typed P Plus (Num k) (mkop (Num j) false Lvalue None (At w)) m = NotCompiled /\
  exists r, typed P Plus (Num k) (mkop (Num k) false Lvalue None (At w)) m = Gives r /\ rty r <> Num k.
Proof.
  intros P k m w j H J L. split.
  - unfold typed; cbn. rewrite (proj2 (Nat.eqb_neq _ _) J). reflexivity.
  - unfold typed; cbn. rewrite Nat.eqb_refl. destruct (nth_error m w) eqn:E; [|apply nth_error_None in E; lia].
    eexists. split; [reflexivity|]. cbn. congruence.
Qed.
Print Assumptions C148_negate_refuted.

(** FINDING: unary_plus does not take a bit-field that is not const, and gives the promoted type of the
    declared type, not of the bit-field, for others. *)
Theorem C148_bit_field_refuted : forall P k b c cat l m, l < length m -> cat <> Prvalue ->
  (exists v, apply_oper P Plus (mkop (Num k) c cat (Some b) (At l)) m = Gives (mkres (Num b) false Prvalue (Is v)) /\
   (c = false -> cat = Lvalue -> transparent P Plus (mkop (Num k) c cat (Some b) (At l)) m = NotCompiled) /\
   (c = true \/ cat = Xvalue -> transparent P Plus (mkop (Num k) c cat (Some b) (At l)) m = Gives (mkres (Num (promoted P k)) false Prvalue (Is v)))).
Proof.
  intros P k b c cat l m L N. destruct (nth_error m l) as [v|] eqn:E; [|apply nth_error_None in E; lia].
  exists v. cbn. rewrite E. split; [reflexivity|]. unfold transparent, bind; cbn. rewrite E. split.
  - intros -> ->. reflexivity.
  - intros H. destruct cat; [destruct c; [|destruct H; discriminate]|destruct c|congruence]; cbn; rewrite nth_snoc; reflexivity.
Qed.
Print Assumptions C148_bit_field_refuted.

(** FINDING: a class whose operator takes its operand by value and that cannot be moved can be used as
    +T{} but not with unary_plus. *)
Theorem C148_immovable_refuted : forall P o k m v r,
  class_oper P k o false Xvalue (length m) (m ++ [v]) = NotCompiled ->
  class_oper P k o false Prvalue (length m) (m ++ [v]) = Gives r ->
  apply_oper P o (mkop (Class k) false Prvalue None (Is v)) m = Gives r /\
  transparent P o (mkop (Class k) false Prvalue None (Is v)) m = NotCompiled.
Proof. intros P o k m v r X R. unfold transparent; cbn. destruct o; cbn; auto. Qed.
Print Assumptions C148_immovable_refuted.

(** int (0), short (1, promoted to int), class 0 with *: an iterator that gives an int & (the int at its
    own address + 1) for each operand, and with + by value that cannot be moved. *)
Definition sample : program := mkprog (fun k => match k with 1 => 0 | _ => k end)
  (fun k o c cat l m => match o, cat with
                        | Star, _ => Gives (mkres (Num 0) false Lvalue (At (l + 1)))
                        | Plus, Prvalue => Gives (mkres (Num 0) false Prvalue (Is (Bytes 17)))
                        | Plus, _ => NotCompiled
                        end).
Definition mem0 : memory := [Bytes 28; Addr 0; Bytes 5].
Example C148_examples :
  (* int x{28}: dereference<>{}(&x) is x *)
  transparent sample Star (mkop (Ptr false (Num 0)) false Prvalue None (Is (Addr 0))) mem0 = Gives (mkres (Num 0) false Lvalue (At 0)) /\
  (* an lvalue of type int const *const *)
  typed sample Star (Ptr true (Num 0)) (mkop (Ptr true (Num 0)) true Lvalue None (At 1)) mem0 = Gives (mkres (Num 0) true Lvalue (At 0)) /\
  (* void * *)
  transparent sample Star (mkop (Ptr false Void) false Lvalue None (At 1)) mem0 = NotCompiled /\
  (* unary_plus<short> gives an int *)
  typed sample Plus (Num 1) (mkop (Num 1) false Lvalue None (At 2)) mem0 = Gives (mkres (Num 0) false Prvalue (Is (Bytes 5))) /\
  (* an iterator *)
  transparent sample Star (mkop (Class 0) true Lvalue None (At 1)) mem0 = Gives (mkres (Num 0) false Lvalue (At 2)) /\
  transparent sample Plus (mkop (Class 0) false Prvalue None (Is (Bytes 1))) mem0 = NotCompiled /\
  apply_oper sample Plus (mkop (Class 0) false Prvalue None (Is (Bytes 1))) mem0 = Gives (mkres (Num 0) false Prvalue (Is (Bytes 17))) /\
  (* the hypotheses *)
  possible (mkop (Ptr false (Num 0)) false Prvalue None (Is (Addr 0))) mem0 /\
  possible (mkop (Class 0) true Lvalue None (At 1)) mem0 /\ promoted sample 1 <> 1.
Proof.
  repeat split; try reflexivity; try discriminate; cbn; try lia; try (intros; discriminate); try (right; reflexivity); try congruence; exfalso; cbn in *; congruence.
Qed.
