(** C89: what CX_VALUE, CX_WRAP and CT_WRAP make of their argument. *)
From Coq Require Import List ZArith Bool Lia.
From Verif Require Import WrapModel WrapSpec.
Import ListNotations.
Open Scope Z_scope.

Scheme expr_mut := Induction for expr Sort Prop with exprs_mut := Induction for exprs Sort Prop.
Combined Scheme expr_both from expr_mut, exprs_mut.
Scheme friendly_mut := Induction for friendly Sort Prop with friendlys_mut := Induction for friendlys Sort Prop.
Combined Scheme friendly_both from friendly_mut, friendlys_mut.

(** The equations of the mutual definitions. *)
Lemma constant_call p f es : constant p (Call f es) = match constants p es with Some zs => pure (fun_of p f) zs | None => None end.
Proof. reflexivity. Qed.
Lemma constants_cons p e es : constants p (Cons e es) = match constant p e, constants p es with Some z, Some zs => Some (z :: zs) | _, _ => None end.
Proof. reflexivity. Qed.
Lemma constant_cond p c a b : constant p (Cond c a b) = match constant p c with Some z => if z =? 0 then constant p b else constant p a | None => None end.
Proof. reflexivity. Qed.
Lemma run_call p f es s : run p (Call f es) s = let (zs, s') := runs p es s in
  match pure (fun_of p f) zs with
  | Some z => (z, s')
  | None => let (z, m) := effect (fun_of p f) zs (vars s') in (z, {| vars := m; calls := calls s' ++ [(f, zs)] |})
  end.
Proof. reflexivity. Qed.
Lemma run_cond p c a b s : run p (Cond c a b) s = let (z, s') := run p c s in if z =? 0 then run p b s' else run p a s'.
Proof. reflexivity. Qed.
Lemma runs_cons p e es s : runs p (Cons e es) s = let (z, s1) := run p e s in let (zs, s2) := runs p es s1 in (z :: zs, s2).
Proof. reflexivity. Qed.
Lemma captures_call p f es : captures p (Call f es) = capturess p es.
Proof. reflexivity. Qed.
Lemma captures_cond p c a b : captures p (Cond c a b) = captures p c ++ captures p a ++ captures p b.
Proof. reflexivity. Qed.
Lemma captures_assign p i a : captures p (Assign i a) = (if local (var_of p i) then [i] else []) ++ captures p a.
Proof. reflexivity. Qed.
Lemma captures_cons p e es : capturess p (Cons e es) = captures p e ++ capturess p es.
Proof. reflexivity. Qed.

(** A constant expression has the same value whenever it is evaluated, and no effect. *)
Lemma constant_always p :
  (forall e z, constant p e = Some z -> always p e z) /\
  (forall es zs, constants p es = Some zs -> forall s, runs p es s = (zs, s)).
Proof.
  apply expr_both.
  - intros t z z' [= <-] s. reflexivity.
  - intros i z. cbn. destruct (captured p i); [discriminate|]. intros H s. cbn. rewrite H. reflexivity.
  - intros f es IH z. rewrite constant_call. destruct (constants p es) as [zs|]; [|discriminate]. intros H s.
    rewrite run_call, (IH zs eq_refl s), H. reflexivity.
  - intros c IHc a IHa b IHb z. rewrite constant_cond. destruct (constant p c) as [k|]; [|discriminate]. intros H s.
    rewrite run_cond, (IHc k eq_refl s). destruct (k =? 0); [now apply IHb | now apply IHa].
  - discriminate.
  - intros zs [= <-] s. reflexivity.
  - intros e IHe es IHes zs. rewrite constants_cons. destruct (constant p e) as [z|]; [|discriminate]. destruct (constants p es) as [zs'|]; [|discriminate].
    intros [= <-] s. rewrite runs_cons, (IHe z eq_refl s), (IHes zs' eq_refl s). reflexivity.
Qed.
Lemma friendly_constant p :
  (forall e z, friendly p e z -> constant p e = Some z) /\
  (forall es zs, friendlys p es zs -> constants p es = Some zs).
Proof.
  apply (friendly_both p (fun e z _ => constant p e = Some z) (fun es zs _ => constants p es = Some zs)).
  - reflexivity.
  - intros i z L F. cbn. unfold captured. rewrite L. exact F.
  - intros i z T F. cbn. unfold captured. rewrite T, F, andb_false_r. reflexivity.
  - intros f es zs z _ IH H. rewrite constant_call, IH. exact H.
  - reflexivity.
  - intros e es z zs _ IH _ IHs. rewrite constants_cons, IH, IHs. reflexivity.
Qed.
Lemma no_locals_captures p : (forall e, no_locals p e -> captures p e = []) /\ (forall es, no_localss p es -> capturess p es = []).
Proof.
  apply expr_both.
  - reflexivity.
  - intros i L. cbn in *. unfold captured. rewrite L. reflexivity.
  - intros f es IH H. rewrite captures_call. now apply IH.
  - intros c IHc a IHa b IHb (A & B & C). rewrite captures_cond. now rewrite IHc, IHa, IHb.
  - intros i e IH (L & H). rewrite captures_assign, L. now apply IH.
  - reflexivity.
  - intros e IHe es IHes (A & B). rewrite captures_cons. now rewrite IHe, IHes.
Qed.

Scheme uses_ind2 := Induction for uses_local Sort Prop with use_ind2 := Induction for use_local Sort Prop.
Combined Scheme uses_both from uses_ind2, use_ind2.
Lemma uses_local_captures p :
  (forall e, captures p e <> [] <-> uses_local p e) /\ (forall es, capturess p es <> [] <-> use_local p es).
Proof.
  assert (A : forall X (a b : list X), a ++ b <> [] <-> a <> [] \/ b <> []).
  { intros X [|x a] b; cbn; split; intro H; auto; try (destruct H; congruence); try discriminate. left. discriminate. }
  assert (D : (forall e, captures p e <> [] -> uses_local p e) /\ (forall es, capturess p es <> [] -> use_local p es)).
  { apply expr_both.
    - intros t z H. now destruct H.
    - intros i. cbn. unfold captured. intro H. destruct (local (var_of p i)) eqn:L; cbn in H; [|congruence].
      constructor; [exact L|]. intros (T & z & F). rewrite T, F in H. now apply H.
    - intros f es IH H. rewrite captures_call in H. constructor. auto.
    - intros c IHc a IHa b IHb H. rewrite captures_cond, !A in H. constructor. intuition.
    - intros i e IH H. rewrite captures_assign, A in H. destruct (local (var_of p i)) eqn:L; [now apply ul_target|]. apply ul_assigned. intuition.
    - intro H. now destruct H.
    - intros e IHe es IHes H. rewrite captures_cons, A in H. destruct H; [apply us_here | apply us_later]; auto. }
  assert (E : (forall e, uses_local p e -> captures p e <> []) /\ (forall es, use_local p es -> capturess p es <> [])).
  { apply expr_both.
    - intros t z H. inversion H.
    - intros i H. inversion H as [? L N| | | |]; subst. cbn. unfold captured. rewrite L. cbn.
      destruct (var_ty (var_of p i)), (fixed (var_of p i)); cbn; try discriminate. destruct N. eauto.
    - intros f es IH H. rewrite captures_call. inversion H; subst. auto.
    - intros c IHc a IHa b IHb H. rewrite captures_cond, !A. inversion H; subst. intuition.
    - intros i e IH H. rewrite captures_assign, A. inversion H as [| | |? ? L|]; subst; [rewrite L; left; discriminate | auto].
    - intro H. inversion H.
    - intros e IHe es IHes H. rewrite captures_cons, A. inversion H; subst; auto. }
  split; intro x; split; (apply D || apply E).
Qed.
Lemma constant_is p :
  (forall e z, constant p e = Some z <-> constant_value p e z) /\ (forall es zs, constants p es = Some zs <-> constant_values p es zs).
Proof.
  apply expr_both.
  - intros t z z'. split; [intros [= <-]; constructor | intro H; inversion H; reflexivity].
  - intros i z. cbn. unfold captured. split.
    + destruct (local (var_of p i)) eqn:L; cbn.
      * destruct (var_ty (var_of p i)) eqn:T, (fixed (var_of p i)) eqn:F; cbn; try discriminate. intros [= <-]. constructor; auto.
      * intro F. constructor; auto.
    + intro H. inversion H as [|? ? F [L|T]| | |]; subst.
      * now rewrite L.
      * rewrite T, F, andb_false_r. reflexivity.
  - intros f es IH z. rewrite constant_call. split.
    + destruct (constants p es) as [zs|]; [|discriminate]. intro H. econstructor; [now apply IH | exact H].
    + intro H. inversion H as [| |? ? zs ? C P| |]; subst. apply IH in C. now rewrite C.
  - intros c IHc a IHa b IHb z. rewrite constant_cond. split.
    + destruct (constant p c) as [k|]; [|discriminate]. pose proof (proj1 (IHc k) eq_refl) as C. destruct (Z.eqb_spec k 0) as [->|N]; intro H.
      * apply cv_else; [exact C | now apply IHb].
      * eapply cv_then; [exact C | exact N | now apply IHa].
    + intro H. inversion H as [| | |? ? ? k ? C N V|? ? ? ? C V]; subst; apply IHc in C; rewrite C.
      * destruct (Z.eqb_spec k 0); [congruence | now apply IHa].
      * now apply IHb.
  - intros i e _ z. split; [discriminate | intro H; inversion H].
  - intros zs. split; [intros [= <-]; constructor | intro H; inversion H; reflexivity].
  - intros e IHe es IHes zs. rewrite constants_cons. split.
    + destruct (constant p e) as [z|]; [|discriminate]. destruct (constants p es) as [zs'|]; [|discriminate]. intros [= <-].
      constructor; [now apply IHe | now apply IHes].
    + intro H. inversion H as [|? ? z zs' C Cs]; subst. apply IHe in C. apply IHes in Cs. now rewrite C, Cs.
Qed.

Lemma type_ok p e : has_type p e (type_of p e).
Proof. induction e; cbn [type_of]; constructor. assumption. Qed.
Lemma type_is p e t : has_type p e t -> type_of p e = t.
Proof. induction 1; cbn [type_of]; auto. Qed.
Lemma now_is p e s z s' : run p e s = (z, s') -> evaluated_now p e s (Value (type_of p e) z) s'.
Proof. intros R. exists (type_of p e), z. auto using type_ok. Qed.

(** For every expression CX_WRAP compiles, and either the expression is evaluated once and
    the result is its value, or it is not evaluated and the result is a callable that gives
    that same value whenever it is called. *)
Theorem C89_cx_wrap : forall p e s, exists r s', CX_WRAP p (Expr e) s = Some (r, s') /\
  (evaluated_now p e s r s' \/ exists z, always p e z /\ deferred p z s r s').
Proof.
  intros p e s. unfold CX_WRAP. cbn [STDX_IS_TYPE decltype_minus is_type value_marker Nat.eqb negb].
  unfold STDX_IS_TYPE, decltype_minus, is_type, value_marker. cbn [Nat.eqb negb].
  destruct (is_cx_value_v (type_of p e) || is_empty_v (type_of p e)).
  - destruct (run p e s) as [z s'] eqn:R. do 2 eexists. split; [reflexivity|]. left. now apply now_is.
  - destruct (constant p e) as [z|] eqn:K.
    + do 2 eexists. split; [reflexivity|]. right. exists z. pose proof (proj1 (constant_always p) e z K) as A. split; [exact A|].
      split; [reflexivity|]. intros t. cbn. rewrite A. reflexivity.
    + destruct (run p e s) as [z s'] eqn:R. do 2 eexists. split; [reflexivity|]. left. now apply now_is.
Qed.
Print Assumptions C89_cx_wrap.
(** What needs no wrapping is not wrapped again: CX_WRAP of its own result gives that back. *)
Theorem C89_cx_wrap_already : forall p e t s, has_type p e t -> compile_time t ->
  exists r s', CX_WRAP p (Expr e) s = Some (r, s') /\ evaluated_now p e s r s'.
Proof.
  intros p e t s T C. pose proof (type_is p e t T) as E. destruct (run p e s) as [z s'] eqn:R. exists (Value t z), s'. split.
  - unfold CX_WRAP, STDX_IS_TYPE, decltype_minus, is_type, value_marker. cbn [Nat.eqb negb]. rewrite E, R. destruct C as [-> | [-> | ->]]; reflexivity.
  - exists t, z. auto.
Qed.
Print Assumptions C89_cx_wrap_already.
(** What the documentation calls compile-time-friendly is not evaluated at run time. *)
Theorem C89_cx_wrap_friendly : forall p e t z s, friendly p e z -> has_type p e t -> plain t ->
  exists r, CX_WRAP p (Expr e) s = Some (r, s) /\ deferred p z s r s.
Proof.
  intros p e ty z s F T P. rewrite <- (type_is p e ty T) in P. pose proof (proj1 (friendly_constant p) e z F) as K. pose proof (proj1 (constant_always p) e z K) as A.
  exists (Callable e). split.
  - unfold CX_WRAP, STDX_IS_TYPE, decltype_minus, is_type, value_marker. cbn [Nat.eqb negb]. rewrite K. destruct P as [-> | [-> | ->]]; reflexivity.
  - split; [reflexivity|]. intros t. cbn. rewrite A. reflexivity.
Qed.
Print Assumptions C89_cx_wrap_friendly.
(** Types other than the library's marker give that type, in all three macros that take types;
    CT_WRAP takes none. *)
Theorem C89_types : forall p t s, t <> value_marker ->
  CX_WRAP p (Type_ t) s = Some (Identity t, s) /\ CX_VALUE p (Type_ t) s = Some (IdentityFn t, s) /\ STDX_IS_TYPE (Type_ t) = true.
Proof.
  intros p t s H. unfold CX_WRAP, CX_VALUE, STDX_IS_TYPE, decltype_minus, is_type. apply Nat.eqb_neq in H. rewrite H. cbn. auto.
Qed.
Print Assumptions C89_types.
Theorem C89_expressions : forall e, STDX_IS_TYPE (Expr e) = false.
Proof. reflexivity. Qed.
Print Assumptions C89_expressions.

(** CX_VALUE compiles unless the expression uses a local variable as an object. *)
Theorem C89_cx_value_compiles : forall p e s, CX_VALUE p (Expr e) s = None <-> uses_local p e.
Proof.
  intros p e s. rewrite <- (proj1 (uses_local_captures p)). unfold CX_VALUE, STDX_IS_TYPE, decltype_minus, is_type, value_marker. cbn [Nat.eqb negb].
  destruct (captures p e); split; congruence.
Qed.
Print Assumptions C89_cx_value_compiles.

(** CX_VALUE evaluates nothing; each call of the result evaluates the expression; for
    documented arguments that is its value and nothing else. *)
Theorem C89_cx_value : forall p e s r s', CX_VALUE p (Expr e) s = Some (r, s') -> s' = s /\ forall t, call p r t = Some (run p e t).
Proof.
  intros p e s r s'. unfold CX_VALUE, STDX_IS_TYPE, decltype_minus, is_type, value_marker. cbn [Nat.eqb negb].
  destruct (captures p e); [|discriminate]. intros [= <- <-]. auto.
Qed.
Print Assumptions C89_cx_value.
Theorem C89_cx_value_no_locals : forall p e z s, no_locals p e -> constant_value p e z ->
  exists r, CX_VALUE p (Expr e) s = Some (r, s) /\ deferred p z s r s.
Proof.
  intros p e z s L K. apply constant_is in K. exists (Callable e). unfold CX_VALUE, STDX_IS_TYPE, decltype_minus, is_type, value_marker. cbn [Nat.eqb negb].
  rewrite (proj1 (no_locals_captures p) e L). split; [reflexivity|]. split; [reflexivity|].
  intros t. cbn. now rewrite (proj1 (constant_always p) e z K t).
Qed.
Print Assumptions C89_cx_value_no_locals.
(** FINDING: CX_VALUE accepts a variable of static storage duration that is not constant: the
    "constexpr callable" then gives what the variable holds at each call. *)
Theorem C89_cx_value_static_refuted : forall p i s, local (var_of p i) = false -> fixed (var_of p i) = None ->
  exists r, CX_VALUE p (Expr (Var i)) s = Some (r, s) /\ forall t, call p r t = Some (vars t i, t).
Proof.
  intros p i s L F. exists (Callable (Var i)). unfold CX_VALUE, STDX_IS_TYPE, decltype_minus, is_type, value_marker. cbn [Nat.eqb negb captures].
  unfold captured. rewrite L. split; [reflexivity|]. intros t. cbn. rewrite F. reflexivity.
Qed.
Print Assumptions C89_cx_value_static_refuted.

(** CT_WRAP, when it compiles, gives a std::integral_constant of the value the expression always
    has, or evaluates the expression once. *)
Theorem C89_ct_wrap_partial : forall p e s r s', CT_WRAP p (Expr e) s = Some (r, s') ->
  evaluated_now p e s r s' \/ exists z, always p e z /\ s' = s /\ exists t, has_type p e t /\ r = Constant t z.
Proof.
  intros p e s r s'. cbn [CT_WRAP]. unfold ct. destruct (is_ct_v (type_of p e)).
  - destruct (run p e s) as [z t] eqn:R. intros [= <- <-]. left. now apply now_is.
  - destruct (constant p e) as [z|] eqn:K.
    + destruct (is_structural (type_of p e)); cbn [orb].
      * intros [= <- <-]. right. exists z. split; [now apply (proj1 (constant_always p))|]. split; [reflexivity|]. eauto using type_ok.
      * destruct (closure_is_empty p e); [discriminate|]. destruct (run p e s) as [z' t] eqn:R. intros [= <- <-]. left. now apply now_is.
    + cbn [orb]. destruct (closure_is_empty p e); [discriminate|]. destruct (run p e s) as [z' t] eqn:R. intros [= <- <-]. left. now apply now_is.
Qed.
Print Assumptions C89_ct_wrap_partial.
Theorem C89_ct_wrap_friendly : forall p e t z s, friendly p e z -> has_type p e t -> t = Scalar \/ t = Structural ->
  CT_WRAP p (Expr e) s = Some (Constant t z, s).
Proof.
  intros p e ty z s F H T. apply type_is in H. subst ty. cbn [CT_WRAP]. unfold ct. rewrite (proj1 (friendly_constant p) e z F). destruct T as [-> | ->]; reflexivity.
Qed.
Print Assumptions C89_ct_wrap_friendly.
(** CT_WRAP of a compile-time value gives that value. *)
Theorem C89_ct_wrap_already : forall p e s, has_type p e Ct -> exists r s', CT_WRAP p (Expr e) s = Some (r, s') /\ evaluated_now p e s r s'.
Proof.
  intros p e s T. pose proof (type_is p e Ct T) as E. destruct (run p e s) as [z s'] eqn:R. exists (Value Ct z), s'. split.
  - cbn [CT_WRAP]. rewrite E, R. reflexivity.
  - exists Ct, z. auto.
Qed.
Print Assumptions C89_ct_wrap_already.
(** A variable local to the function works either way. *)
Theorem C89_ct_wrap_local : forall p i s, local (var_of p i) = true -> fixed (var_of p i) = None ->
  CT_WRAP p (Expr (Var i)) s = Some (Value (var_ty (var_of p i)) (vars s i), s).
Proof.
  intros p i s L F. cbn [CT_WRAP]. unfold ct, closure_is_empty. cbn [constant captures type_of run].
  unfold captured. rewrite L, F. destruct (var_ty (var_of p i)); reflexivity.
Qed.
Print Assumptions C89_ct_wrap_local.
(** FINDING: an expression that names no local variable and is not a constant expression of a
    structural type does not compile with CT_WRAP - a global variable, a call of a function
    without arguments, a constexpr std::string_view - where CX_WRAP gives its value. *)
Theorem C89_ct_wrap_refuted : forall p e t s, no_locals p e -> has_type p e t -> t <> Ct ->
  ((forall z, ~ constant_value p e z) \/ t = NonStructural) -> CT_WRAP p (Expr e) s = None.
Proof.
  intros p e ty s L H T K. apply type_is in H. subst ty. cbn [CT_WRAP]. unfold ct, closure_is_empty. rewrite (proj1 (no_locals_captures p) e L).
  destruct (is_ct_v (type_of p e)) eqn:C; [destruct (type_of p e); try discriminate; congruence|].
  destruct K as [K | K].
  - destruct (constant p e) as [z|] eqn:E; [|reflexivity]. apply constant_is in E. now destruct (K z).
  - rewrite K. destruct (constant p e); reflexivity.
Qed.
Print Assumptions C89_ct_wrap_refuted.
(** Exactly when CT_WRAP compiles. *)
Theorem C89_ct_wrap_compiles : forall p e t s, has_type p e t -> (CT_WRAP p (Expr e) s <> None <->
  t = Ct \/ uses_local p e \/ (t <> NonStructural /\ exists z, constant_value p e z)).
Proof.
  intros p e ty s T. rewrite <- (proj1 (uses_local_captures p)). setoid_rewrite <- (proj1 (constant_is p)). apply type_is in T. subst ty. cbn [CT_WRAP]. unfold ct, closure_is_empty.
  destruct (run p e s) as [z' t].
  destruct (type_of p e); cbn [is_ct_v is_structural]; destruct (constant p e) as [z|]; cbn [orb]; destruct (captures p e); cbn;
    split; intros H; try discriminate; try congruence; auto 6; try (right; left; discriminate);
    try solve [right; right; split; [discriminate | eauto]];
    destruct H as [H | [H | [H (y & K)]]]; congruence.
Qed.
Print Assumptions C89_ct_wrap_compiles.

(** A program: variable 0 is a local int, 1 a local constexpr std::string_view, 2 a global int,
    3 a local const int 17, 4 a constexpr static std::string_view; function 0 adds its arguments
    and is constexpr, function 1 adds one to the global and returns its old value. *)
Definition sample : program :=
  {| var_of i := nth i [ {| local := true; var_ty := Scalar; fixed := None |};
                         {| local := true; var_ty := NonStructural; fixed := Some 5 |};
                         {| local := false; var_ty := Scalar; fixed := None |};
                         {| local := true; var_ty := Scalar; fixed := Some 17 |};
                         {| local := false; var_ty := NonStructural; fixed := Some 6 |} ] {| local := false; var_ty := Scalar; fixed := None |};
     fun_of f := match f with
                 | O => {| fun_ty := Scalar; pure zs := match zs with [a; b] => Some (a + b) | _ => None end; effect _ m := (0, m) |}
                 | _ => {| fun_ty := Scalar; pure _ := None; effect _ m := (m 2%nat, put m 2 (m 2%nat + 1)) |}
                 end |}.
Definition st0 : state := {| vars := fun i => Z.of_nat i * 10; calls := [] |}.
Example C89_example :
  (* CX_WRAP(add(x3, 25)) *)
  CX_WRAP sample (Expr (Call 0 (Cons (Var 3) (Cons (Lit Scalar 25) Nil)))) st0 = Some (Callable (Call 0 (Cons (Var 3) (Cons (Lit Scalar 25) Nil))), st0) /\
  run sample (Call 0 (Cons (Var 3) (Cons (Lit Scalar 25) Nil))) st0 = (42, st0) /\
  friendly sample (Call 0 (Cons (Var 3) (Cons (Lit Scalar 25) Nil))) 42 /\
  (* CX_WRAP(add(next(), next())): 20 + 21, two calls *)
  (exists s', CX_WRAP sample (Expr (Call 0 (Cons (Call 1 Nil) (Cons (Call 1 Nil) Nil)))) st0 = Some (Value Scalar 41, s') /\
     vars s' 2%nat = 22 /\ calls s' = [(1%nat, []); (1%nat, [])]) /\
  (* CT_WRAP of the same: no local variable *)
  CT_WRAP sample (Expr (Call 0 (Cons (Call 1 Nil) (Cons (Call 1 Nil) Nil)))) st0 = None /\
  (* CT_WRAP(x3), CT_WRAP(x0), CT_WRAP(x1), CT_WRAP(x2), CT_WRAP(x4) *)
  CT_WRAP sample (Expr (Var 3)) st0 = Some (Constant Scalar 17, st0) /\ CT_WRAP sample (Expr (Var 0)) st0 = Some (Value Scalar 0, st0) /\
  CT_WRAP sample (Expr (Var 1)) st0 = Some (Value NonStructural 5, st0) /\ CT_WRAP sample (Expr (Var 2)) st0 = None /\ CT_WRAP sample (Expr (Var 4)) st0 = None /\
  (* CX_WRAP(x1), CX_WRAP(x4), CX_WRAP(true ? 3 : x0), CX_VALUE(x3), CX_VALUE(x0) *)
  CX_WRAP sample (Expr (Var 1)) st0 = Some (Value NonStructural 5, st0) /\ CX_WRAP sample (Expr (Var 4)) st0 = Some (Callable (Var 4), st0) /\
  CX_WRAP sample (Expr (Cond (Lit Scalar 1) (Lit Scalar 3) (Var 0))) st0 = Some (Callable (Cond (Lit Scalar 1) (Lit Scalar 3) (Var 0)), st0) /\
  CX_VALUE sample (Expr (Var 3)) st0 = Some (Callable (Var 3), st0) /\ CX_VALUE sample (Expr (Var 0)) st0 = None /\
  (* CX_WRAP(CX_VALUE(3)), CX_WRAP(ct<3>()) *)
  CX_WRAP sample (Expr (Lit CxValue 3)) st0 = Some (Value CxValue 3, st0) /\ CX_WRAP sample (Expr (Lit Ct 3)) st0 = Some (Value Ct 3, st0).
Proof.
  repeat split; try reflexivity.
  - eapply (fr_call sample 0 _ [17; 25]); [|reflexivity]. constructor; [apply (fr_const sample 3 17); reflexivity|]. repeat constructor.
  - eexists. split; [reflexivity|]. split; reflexivity.
Qed.
