(** C90: a panic reaches the installed handler once, with the given arguments. *)
From Coq Require Import List ZArith String.
From Verif Require Import WrapModel WrapSpec WrapProps PanicModel.
Import ListNotations.
Open Scope Z_scope.

(** Both functions: the arguments are evaluated once, and the handler selected by the types, if
    the program installs one, is called once with their values. *)
Theorem C90_panic : forall p hs ts es s h zs s', runs p es s = (zs, s') ->
  panic p hs ts es s h = (s', if hs ts then h ++ [{| tags := ts; message := None; arguments := zs |}] else h) /\
  (forall m, panic_ct p hs m ts es s h = (s', if hs ts then h ++ [{| tags := ts; message := Some m; arguments := zs |}] else h)).
Proof. intros p hs ts es s h zs s' R. unfold panic, panic_ct, handle. rewrite R. split; reflexivity. Qed.
Print Assumptions C90_panic.

(** The macro, when its arguments name no local variable. *)
Theorem C90_macro_partial : forall p hs m es s h zs s', no_localss p es -> runs p es s = (zs, s') ->
  STDX_PANIC p hs m es s h = Some (s', if hs [] then h ++ [{| tags := []; message := Some m; arguments := zs |}] else h).
Proof.
  intros p hs m es s h zs s' L R. unfold STDX_PANIC.
  assert (E : arguments_captures p es = []).
  { clear R. induction es as [|e es IH]; [reflexivity|]. cbn in L. destruct L as [L1 L2]. cbn [arguments_captures]. rewrite (IH L2), app_nil_r.
    destruct e; try exact (proj1 (no_locals_captures p) _ L1). cbn in L1. cbn. rewrite L1. reflexivity. }
  rewrite E. unfold panic_ct, handle. rewrite R. reflexivity.
Qed.
Print Assumptions C90_macro_partial.
(** Whenever it compiles it does just that. *)
Theorem C90_macro_when_it_compiles : forall p hs m es s h r zs s', STDX_PANIC p hs m es s h = Some r -> runs p es s = (zs, s') ->
  r = (s', if hs [] then h ++ [{| tags := []; message := Some m; arguments := zs |}] else h).
Proof.
  intros p hs m es s h r zs s'. unfold STDX_PANIC. destruct (arguments_captures p es); [|discriminate]. intros [= <-] R.
  unfold panic_ct, handle. rewrite R. reflexivity.
Qed.
Print Assumptions C90_macro_when_it_compiles.

(** The macro has arguments at this place. *)
Inductive has_argument : exprs -> expr -> Prop :=
| ha_here e es : has_argument (Cons e es) e
| ha_later e e' es : has_argument es e -> has_argument (Cons e' es) e.
(** FINDING: STDX_PANIC cannot be given a local variable, or an expression with one that is not
    a constant: its lambda captures nothing. *)
Theorem C90_macro_refuted : forall p hs m es s h e, has_argument es e ->
  (exists i, e = Var i /\ local (var_of p i) = true) \/ uses_local p e -> STDX_PANIC p hs m es s h = None.
Proof.
  intros p hs m es s h e A C. rewrite <- (proj1 (uses_local_captures p)) in C. unfold STDX_PANIC.
  assert (E : argument_captures p e <> []).
  { destruct C as [(i & -> & L)|C]; [cbn; rewrite L; discriminate|]. destruct e; try exact C. cbn in *. unfold captured in C.
    destruct (local (var_of p i)); [discriminate|]. exact C. }
  assert (F : arguments_captures p es <> []).
  { induction A as [e es|e e' es A IH]; cbn [arguments_captures].
    - destruct (argument_captures p e); [congruence | discriminate].
    - specialize (IH C E). destruct (argument_captures p e'); [exact IH | discriminate]. }
  destruct (arguments_captures p es); [congruence | reflexivity].
Qed.
Print Assumptions C90_macro_refuted.
(** With any other arguments it compiles. *)
Theorem C90_macro_compiles : forall p hs m es s h,
  STDX_PANIC p hs m es s h <> None <->
  forall e, has_argument es e -> ~ uses_local p e /\ forall i, e = Var i -> local (var_of p i) = false.
Proof.
  intros p hs m es s h. split.
  - intros H e A. split; [intro U | intros i ->; destruct (local (var_of p i)) eqn:L; [|reflexivity]]; destruct H; eapply C90_macro_refuted; eauto.
  - intros H. unfold STDX_PANIC.
    assert (E : arguments_captures p es = []).
    { induction es as [|e es IH]; [reflexivity|]. cbn [arguments_captures]. rewrite IH by (intros e' A; apply H; now constructor). rewrite app_nil_r.
      destruct (H e (ha_here e es)) as [U V]. rewrite <- (proj1 (uses_local_captures p)) in U.
      destruct e; try (destruct (captures p _) eqn:C in U; [exact C | destruct U; discriminate]).
      cbn. now rewrite (V i eq_refl). }
    rewrite E. discriminate.
Qed.
Print Assumptions C90_macro_compiles.

Example C90_example :
  (* STDX_PANIC("full", next(), 3) with a handler, STDX_PANIC("full", x0), stdx::panic<"full">(x0) *)
  (exists s', STDX_PANIC sample (fun _ => true) "full" (Cons (Call 1 Nil) (Cons (Lit Scalar 3) Nil)) st0 [] =
     Some (s', [{| tags := []; message := Some "full"%string; arguments := [20; 3] |}]) /\ calls s' = [(1%nat, [])]) /\
  STDX_PANIC sample (fun _ => true) "full" (Cons (Var 0) Nil) st0 [] = None /\
  STDX_PANIC sample (fun _ => true) "full" (Cons (Var 3) Nil) st0 [] = None /\
  panic_ct sample (fun _ => true) "full" [] (Cons (Var 0) Nil) st0 [] = (st0, [{| tags := []; message := Some "full"%string; arguments := [0] |}]) /\
  panic sample (fun ts => match ts with [] => false | _ => true end) [] (Cons (Var 0) Nil) st0 [] = (st0, []) /\
  no_localss sample (Cons (Call 1 Nil) (Cons (Lit Scalar 3) Nil)).
Proof. split; [|repeat split; reflexivity]. eexists. split; reflexivity. Qed.
