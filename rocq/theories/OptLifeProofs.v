(** Proofs about the object inside a stdx::optional. *)
From Verif Require Import Base BaseLemmas OptLifeModel OptLifeSpec.

Section Proofs.
Context {V : Type} (eqb : V -> V -> bool) (Heq : forall x y, eqb x y = true <-> x = y) (tomb : V).
Definition Rep (s : opt V) (m : option (option V)) : Prop :=
  match m with
  | None => val s = Over /\ made s = destroyed s
  | Some None => val s = Alive tomb /\ made s = S (destroyed s)
  | Some (Some v) => val s = Alive v /\ v <> tomb /\ made s = S (destroyed s)
  end.
Lemma step_ok s m o : Rep s m -> fine tomb m o ->
  exists s' r m', step eqb tomb s o = Done s' r [] /\ wanted m o r m' /\ Rep s' m'.
Proof.
  intros HR Hf. destruct m as [m|]; [|destruct Hf].
  assert (E : exists v, val s = Alive v /\ made s = S (destroyed s) /\ match m with Some u => u = v /\ v <> tomb /\ eqb v tomb = false | None => v = tomb /\ eqb v tomb = true end).
  { destruct m as [v|]; cbn in HR; [destruct HR as (A & B & C)|destruct HR as (A & C)].
    - exists v. repeat split; auto. destruct (eqb v tomb) eqn:E; [apply Heq in E; contradiction|reflexivity].
    - exists tomb. repeat split; auto. apply Heq. reflexivity. }
  destruct E as (v & Ev & Em & Hm). unfold step, alive. rewrite Ev. unfold destroy. rewrite Ev.
  assert (K : Rep s (Some m)) by exact HR.
  destruct o as [own [u|]|[u|]|[u|] r|[u|]| |[q|] c d|[q|] f|[q|] c f|[q|] c b u|]; cbn in Hf; try contradiction.
  - destruct Hf as [-> N]. eexists _, _, (Some (Some u)). split; [reflexivity|]. cbn. auto.
  - eexists _, _, (Some None). split; [reflexivity|]. cbn. auto.
  - eexists _, _, (Some (Some u)). split; [reflexivity|]. cbn. auto.
  - eexists _, _, (Some (Some r)). split; [reflexivity|]. cbn. auto.
  - eexists _, _, (Some m). split; [reflexivity|]. split; [|exact K]. cbn. split; [reflexivity|]. eexists. split; [reflexivity|].
    destruct m as [w|]; destruct Hm as [-> Hm]; [destruct Hm as [_ ->]|rewrite Hm]; cbn; split; congruence.
  - destruct m as [w|]; [|contradiction]. destruct Hm as [-> _]. eexists _, _, (Some (Some v)). split; [reflexivity|]. split; [|exact K]. cbn. eauto.
  - eexists _, _, (Some m). split; [reflexivity|]. split; [|exact K]. cbn. split; [reflexivity|].
    destruct m as [w|]; destruct Hm as [-> Hm]; [destruct Hm as [_ ->]|rewrite Hm]; cbn; destruct c, d; reflexivity.
  - eexists _, _, (Some m). split; [reflexivity|]. split; [|exact K]. cbn. split; [reflexivity|].
    destruct m as [w|]; destruct Hm as [-> Hm]; [destruct Hm as [_ ->]|rewrite Hm]; cbn; [destruct (f v)|]; reflexivity.
  - eexists _, _, (Some m). split; [reflexivity|]. split; [|exact K]. cbn. split; [reflexivity|].
    destruct m as [w|]; destruct Hm as [-> Hm]; [destruct Hm as [_ ->]|rewrite Hm]; cbn; destruct c, f; reflexivity.
  - eexists _, _, (Some m). split; [reflexivity|]. split; [|exact K]. cbn. split; [reflexivity|].
    destruct m as [w|]; destruct Hm as [-> Hm]; [destruct Hm as [_ ->]|rewrite Hm]; cbn; destruct c, u; reflexivity.
  - eexists _, _, None. split; [reflexivity|]. cbn. auto.
Qed.
End Proofs.
