(** C98 STATIC_ASSERT checks the condition it is given. *)
From Verif Require Import Base StaticAssertModel StaticAssertSpec StaticAssertProofs.

(** A condition without commas and [>] outside parentheses, of type bool: the program compiles iff it
    is true, and the message is the formatted one otherwise. *)
Theorem C98_checks_partial : forall Sym value format modern (cond : list (token Sym)) rest b s,
  plain cond -> Forall (nested false true) rest -> value cond = Some (CBool b) -> format rest = Some s -> (modern = true -> ~ In 0%N s) ->
  static_assert value format modern (invocation cond rest) = if b then Compiles else FailsWith s.
Proof.
  intros Sym value format modern cond rest b s Hc Hr Hv Hf Hn. unfold static_assert. rewrite (macro_ok false true) by assumption.
  rewrite (argument_nested _ _ cond Hc) by discriminate. cbn [template_argument before]. rewrite app_nil_r, Hv, Hf. cbn [to_bool]. unfold check.
  destruct b, modern; try reflexivity. now rewrite c_string_id by auto.
Qed.
Print Assumptions C98_checks_partial.
(** It never compiles if the condition is false. *)
Theorem C98_never_passes : forall Sym value format modern (cond : list (token Sym)) rest,
  plain cond -> Forall (nested false true) rest ->
  static_assert value format modern (invocation cond rest) = Compiles -> value cond = Some (CBool true) \/ value cond = Some (CInt 1).
Proof.
  intros Sym value format modern cond rest Hc Hr H. unfold static_assert in H. rewrite (macro_ok false true) in H by assumption.
  rewrite (argument_nested _ _ cond Hc) in H by discriminate. cbn [template_argument before] in H. rewrite app_nil_r in H.
  destruct (value cond) as [[[]|z|]|]; cbn in H; destruct (format rest) as [s|]; try discriminate H; auto.
  destruct (z =? 0)%Z; [discriminate H|]. destruct (z =? 1)%Z eqn:E; [|discriminate H]. apply Z.eqb_eq in E. subst z. auto.
Qed.
Print Assumptions C98_never_passes.
(** A condition with [>] outside parentheses does not compile, even if it is true. *)
Theorem C98_greater_refuted : forall Sym value format modern (a b : list (token Sym)) rest,
  plain a -> nested false true b -> Forall (nested false true) rest ->
  static_assert value format modern (invocation (a ++ Greater :: b) rest) = FailsOtherwise.
Proof.
  intros Sym value format modern a b rest Ha Hb Hr. unfold static_assert.
  assert (M : macro_arguments 0 (invocation (a ++ Greater :: b) rest) = (a ++ Greater :: b) :: rest).
  { unfold invocation. rewrite <- app_assoc. rewrite (macro_nested _ _ a Ha) by discriminate. cbn [app macro_arguments].
    rewrite (macro_nested _ _ b Hb) by discriminate. rewrite (macro_rest true) by exact Hr. cbn. now rewrite app_nil_r. }
  rewrite M, <- app_assoc, (argument_nested _ _ a Ha) by discriminate. cbn [app template_argument before].
  destruct b as [|t [|u b]]; [reflexivity|destruct t; reflexivity|]. destruct t; try reflexivity. destruct u; try reflexivity. destruct b; reflexivity.
Qed.
Print Assumptions C98_greater_refuted.
(** Nor does one with a comma between template brackets, such as [std::is_same_v<A, B>]. *)
Theorem C98_comma_refuted : forall Sym value format modern (a x y : list (token Sym)),
  plain a -> plain x ->
  static_assert value format modern (a ++ Less :: x ++ Comma :: y) = FailsOtherwise.
Proof.
  intros Sym value format modern a x y Ha Hx. unfold static_assert. rewrite (macro_nested _ _ a Ha) by discriminate. cbn [macro_arguments].
  rewrite (macro_nested _ _ x Hx) by discriminate. cbn [macro_arguments onto]. rewrite app_nil_r.
  rewrite <- app_assoc, (argument_nested _ _ a Ha) by discriminate. cbn [app template_argument].
  rewrite (argument_nested _ _ x Hx) by discriminate. reflexivity.
Qed.
Print Assumptions C98_comma_refuted.
(** Nor does a condition that is a number other than 0 and 1, though static_assert takes it. *)
Theorem C98_number_refuted : forall Sym value format modern (cond : list (token Sym)) rest z,
  plain cond -> Forall (nested false true) rest -> value cond = Some (CInt z) -> z <> 0%Z -> z <> 1%Z ->
  static_assert value format modern (invocation cond rest) = FailsOtherwise.
Proof.
  intros Sym value format modern cond rest z Hc Hr Hv H0 H1. unfold static_assert. rewrite (macro_ok false true) by assumption.
  rewrite (argument_nested _ _ cond Hc) by discriminate. cbn [template_argument before]. rewrite app_nil_r, Hv. cbn [to_bool].
  destruct (Z.eqb_spec z 0); [congruence|]. destruct (Z.eqb_spec z 1); [congruence|]. destruct (format rest); reflexivity.
Qed.
Print Assumptions C98_number_refuted.
(** With the language's own messages, one with a NUL is cut there. *)
Theorem C98_nul_refuted : forall Sym value format (cond : list (token Sym)) rest s t,
  plain cond -> Forall (nested false true) rest -> value cond = Some (CBool false) -> ~ In 0%N s -> format rest = Some (s ++ 0%N :: t) ->
  static_assert value format true (invocation cond rest) = FailsWith s.
Proof.
  intros Sym value format cond rest s t Hc Hr Hv Hs Hf. unfold static_assert. rewrite (macro_ok false true) by assumption.
  rewrite (argument_nested _ _ cond Hc) by discriminate. cbn [template_argument before]. rewrite app_nil_r, Hv, Hf. cbn [to_bool]. unfold check.
  now rewrite c_string_cut.
Qed.
Print Assumptions C98_nul_refuted.

(** [STATIC_ASSERT(f(a, b > c), "...")] and [STATIC_ASSERT(a > b, "...")]. *)
Example C98_example :
  let cond := [Other 1; LParen; Other 2; Comma; Other 3; Greater; Other 4; RParen] in
  plain cond /\ static_assert (fun _ => Some (CBool false)) (fun _ => Some [77%N]) true (invocation cond [[Other 9]]) = FailsWith [77%N] /\
  static_assert (fun _ => Some (CBool true)) (fun _ => Some [77%N]) false (invocation cond [[Other 9]]) = Compiles /\
  static_assert (fun _ => Some (CBool true)) (fun _ => Some [77%N]) false (invocation [Other 1; Greater; Other 2] [[Other 9]]) = FailsOtherwise /\
  static_assert (fun _ => Some (CBool true)) (fun _ => Some [77%N]) false ([Other 1] ++ Less :: [Other 2] ++ Comma :: [Other 3; Greater; Comma; Other 9]) = FailsOtherwise.
Proof.
  cbv zeta. split; [|repeat split]. apply nested_other. apply (nested_paren false false [Other 2; Comma; Other 3; Greater; Other 4] []); repeat constructor.
Qed.
