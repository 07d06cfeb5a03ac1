(** Proofs about STATIC_ASSERT. *)
From Verif Require Import Base StaticAssertModel StaticAssertSpec.

Section Proofs.
Context {Sym : Type}.
Notation text := (list (token Sym)).
(** Prepending to the first argument. *)
Definition onto (l : text) (as_ : list text) : list text := match as_ with [] => [] | a :: r => (l ++ a) :: r end.
Lemma onto_onto a b x : onto a (onto b x) = onto (a ++ b) x.
Proof. destruct x; cbn; [reflexivity|]. now rewrite app_assoc. Qed.
Lemma onto_nil x : onto [] x = x.
Proof. destruct x; reflexivity. Qed.
Lemma onto_cons t x : match x with [] => [] | a :: r => (t :: a) :: r end = onto [t] x.
Proof. destruct x; reflexivity. Qed.
Lemma macro_nested c g (l : text) : nested c g l -> forall depth r, (c = true -> depth > 0) -> macro_arguments depth (l ++ r) = onto l (macro_arguments depth r).
Proof.
  induction 1 as [c g|c g s l H IH|g l H IH|c l H IH|c g a l Ha IHa H IH|c g a l Ha IHa H IH]; intros depth r Hd.
  - now rewrite onto_nil.
  - cbn [app macro_arguments]. rewrite IH by exact Hd. now rewrite onto_cons, onto_onto.
  - cbn [app macro_arguments]. destruct depth; [specialize (Hd eq_refl); lia|]. rewrite IH by exact Hd. now rewrite onto_cons, onto_onto.
  - cbn [app macro_arguments]. rewrite IH by exact Hd. now rewrite onto_cons, onto_onto.
  - cbn [app macro_arguments]. rewrite <- app_assoc, IHa by (intros; lia). cbn [app macro_arguments]. rewrite Nat.sub_succ, Nat.sub_0_r, IH by exact Hd.
    rewrite !onto_cons, !onto_onto. cbn [app]. now rewrite <- app_assoc.
  - cbn [app macro_arguments]. rewrite <- app_assoc, IHa by exact Hd. cbn [app macro_arguments]. rewrite IH by exact Hd.
    rewrite !onto_cons, !onto_onto. cbn [app]. now rewrite <- app_assoc.
Qed.
Lemma macro_rest g (rest : list text) : Forall (nested false g) rest -> macro_arguments 0 (flat_map (fun a => Comma :: a) rest) = [] :: rest.
Proof.
  induction 1 as [|a rest Ha _ IH]; [reflexivity|]. cbn [flat_map app macro_arguments]. f_equal.
  rewrite (macro_nested _ _ a Ha) by discriminate. rewrite IH. cbn. now rewrite app_nil_r.
Qed.
Lemma macro_ok g g' (cond : text) rest : nested false g cond -> Forall (nested false g') rest -> macro_arguments 0 (invocation cond rest) = cond :: rest.
Proof.
  intros Hc Hr. unfold invocation. rewrite (macro_nested _ _ cond Hc) by discriminate. rewrite (macro_rest g') by exact Hr. cbn. now rewrite app_nil_r.
Qed.
(** The brackets of the argument are left as they were. *)
Definition before (l : text) (x : option (text * text)) : option (text * text) := match x with Some (a, r) => Some (l ++ a, r) | None => None end.
Lemma before_before a b x : before a (before b x) = before (a ++ b) x.
Proof. destruct x as [[]|]; cbn; [|reflexivity]. now rewrite app_assoc. Qed.
Lemma before_cons t x : match x with Some (a, r) => Some (t :: a, r) | None => None end = before [t] x.
Proof. destruct x as [[]|]; reflexivity. Qed.
Lemma argument_nested c g (l : text) : nested c g l -> forall open r, (g = true -> exists o, open = true :: o) -> template_argument open (l ++ r) = before l (template_argument open r).
Proof.
  induction 1 as [c g|c g s l H IH|g l H IH|c l H IH|c g a l Ha IHa H IH|c g a l Ha IHa H IH]; intros open r Hg.
  - cbn. now destruct (template_argument open r) as [[]|].
  - cbn [app template_argument]. rewrite IH by exact Hg. now rewrite before_cons, before_before.
  - cbn [app template_argument]. rewrite IH by exact Hg. now rewrite before_cons, before_before.
  - cbn [app template_argument]. destruct (Hg eq_refl) as (o & ->). rewrite IH by eauto. now rewrite before_cons, before_before.
  - cbn [app template_argument]. rewrite <- app_assoc, IHa by eauto. cbn [app template_argument]. rewrite IH by exact Hg.
    rewrite !before_cons, !before_before. cbn [app]. now rewrite <- app_assoc.
  - cbn [app template_argument]. rewrite <- app_assoc, IHa by discriminate. cbn [app template_argument]. rewrite IH by exact Hg.
    rewrite !before_cons, !before_before. cbn [app]. now rewrite <- app_assoc.
Qed.
End Proofs.
Lemma c_string_cut s t : ~ In 0%N s -> c_string (s ++ 0%N :: t) = s.
Proof.
  induction s as [|c s IH]; intros H; cbn [app c_string]; [reflexivity|]. destruct (N.eqb_spec c 0); [subst; exfalso; apply H; now left|].
  rewrite IH; [reflexivity|]. intros Hi. apply H. now right.
Qed.
Lemma c_string_id s : ~ In 0%N s -> c_string s = s.
Proof.
  induction s as [|c s IH]; intros H; cbn [c_string]; [reflexivity|]. destruct (N.eqb_spec c 0); [subst; exfalso; apply H; now left|].
  rewrite IH; [reflexivity|]. intros Hi. apply H. now right.
Qed.
