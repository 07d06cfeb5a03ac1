From Verif Require Import Base BaseLemmas CxSetModel CxMapModel CxMultimapModel KeyCmpModel KeyCmpSpec.

Section P.
Context {E : Type}.

Section Scan.
Context {X T : Type} (ev : T -> T -> E) (key : X -> T).
Lemma scan_pure (f : T -> T -> bool) (l : list X) (t : T) (tr : list E) :
  scan ev (answers f) key l t tr = (Ret (find_idx (fun x => f (key x) t) l), tr ++ lookup ev f (map key l) t).
Proof.
  revert tr. induction l as [|x r IH]; intros tr; cbn -[lookup].
  - cbn. rewrite app_nil_r. reflexivity.
  - unfold answers at 1. unfold lookup. cbn [seen map].
    destruct (f (key x) t); [reflexivity|].
    rewrite IH. unfold lookup. rewrite <- app_assoc. cbn [app option_map].
    destruct (find_idx _ r); reflexivity.
Qed.
Lemma scan_any (eq : list E -> T -> T -> option bool) (l : list X) (t : T) (tr : list E) :
  exists l1 l2, l = l1 ++ l2 /\ snd (scan ev eq key l t tr) = tr ++ map (fun x => ev (key x) t) l1.
Proof.
  revert tr. induction l as [|x r IH]; intros tr; cbn.
  - exists [], []. cbn. rewrite app_nil_r. auto.
  - destruct (eq tr (key x) t) as [[|]|].
    + exists [x], r. auto.
    + destruct (IH (tr ++ [ev (key x) t])) as (l1 & l2 & -> & H).
      exists (x :: l1), l2. split; [reflexivity|].
      destruct (scan _ _ _ _ _ _) as [[[i|]| |] u]; cbn in *; rewrite H, <- app_assoc; reflexivity.
    + exists [x], r. auto.
Qed.
Lemma scan_not_ub (eq : list E -> T -> T -> option bool) (l : list X) (t : T) (tr : list E) :
  fst (scan ev eq key l t tr) <> Ub.
Proof.
  revert tr. induction l as [|x r IH]; intros tr; cbn; [discriminate|].
  destruct (eq tr (key x) t) as [[|]|]; cbn; try discriminate.
  specialize (IH (tr ++ [ev (key x) t])). destruct (scan _ _ _ _ _ _) as [[[i|]| |] u]; cbn in *; congruence.
Qed.
End Scan.

(** ** The set. *)
Section Set_.
Context {T : Type} (ev : T -> T -> E).

Lemma cs_find_pure f t s tr l : s_items s = Some l ->
  cs_find ev (answers f) t s tr = (Ret (find_idx (fun x => f x t) l), s, tr ++ lookup ev f l t).
Proof. intros H. unfold cs_find. rewrite H, scan_pure, map_id. reflexivity. Qed.

Lemma cs_contains_pure f t s tr l : s_items s = Some l ->
  cs_contains ev (answers f) t s tr = (Ret (is_some (find_idx (fun x => f x t) l)), s, tr ++ lookup ev f l t).
Proof. intros H. unfold cs_contains, bind. rewrite (cs_find_pure _ _ _ _ _ H). reflexivity. Qed.

(** What a plain call does, compared with the recorded one. *)
Definition agrees {S A} (c : ending A * S * list E) (tr : list E) (r : option (S * A)) : Prop :=
  exists t, match r with
            | Some (s', a) => c = (Ret a, s', tr ++ t)
            | None => exists s', c = (Ub, s', tr ++ t)
            end.

Lemma agrees_plainly {S A} (g : S -> option (S * A)) s tr : agrees (plainly g s tr) tr (g s).
Proof.
  unfold agrees, plainly. exists []. rewrite app_nil_r. destruct (g s) as [[s' a]|]; eauto.
Qed.
Lemma agrees_ret {S A} (s : S) (a : A) tr : agrees (ret a s tr) tr (Some (s, a)).
Proof. exists []. rewrite app_nil_r. reflexivity. Qed.
Lemma agrees_bind {S A B} (m : call E S A) (k : A -> call E S B) s tr r g :
  agrees (m s tr) tr r ->
  match r with
  | Some (s', a) => forall tr', agrees (k a s' tr') tr' g
  | None => g = None
  end -> agrees (bind m k s tr) tr g.
Proof.
  intros (t & H) H2. unfold bind. destruct r as [[s' a]|].
  - rewrite H. destruct (H2 (tr ++ t)) as (t2 & H3). exists (t ++ t2). rewrite app_assoc. exact H3.
  - destruct H as (s' & ->). subst g. exists t. eauto.
Qed.

Lemma cs_find_agrees f t s tr :
  agrees (cs_find ev (answers f) t s tr) tr
    (option_map (fun l => (s, find_idx (fun x => f x t) l)) (s_items s)).
Proof.
  destruct (s_items s) as [l|] eqn:H; cbn.
  - rewrite (cs_find_pure _ _ _ _ _ H). eexists. reflexivity.
  - unfold cs_find. rewrite H. exists []. rewrite app_nil_r. eauto.
Qed.
Lemma cs_contains_agrees f t s tr :
  agrees (cs_contains ev (answers f) t s tr) tr (option_map (fun b => (s, b)) (s_contains f s t)).
Proof.
  unfold cs_contains. eapply agrees_bind; [apply cs_find_agrees|].
  unfold s_contains. destruct (s_items s); cbn; [|reflexivity]. intros tr'. apply agrees_ret.
Qed.
Lemma cs_insert_agrees f t s tr :
  agrees (cs_insert ev (answers f) t s tr) tr (s_insert f s t).
Proof.
  unfold cs_insert. eapply agrees_bind; [apply cs_contains_agrees|].
  unfold s_insert. destruct (s_contains f s t) as [[|]|]; cbn; [| |reflexivity]; intros tr'.
  - apply agrees_ret.
  - match goal with |- agrees (plainly ?g _ _) _ _ => pose proof (agrees_plainly g s tr') as H end.
    cbn in H. destruct (wr (s_storage s) (s_size s) t); exact H.
Qed.
Lemma cs_erase_agrees f t s tr :
  agrees (cs_erase ev (answers f) t s tr) tr (s_erase f s t).
Proof.
  unfold cs_erase. eapply agrees_bind; [apply cs_find_agrees|].
  unfold s_erase. destruct (s_items s) as [l|]; cbn; [|reflexivity]. intros tr'.
  destruct (find_idx _ l) as [i|]; [|apply agrees_ret].
  match goal with |- agrees (plainly ?g _ _) _ _ => pose proof (agrees_plainly g s tr') as H end.
  cbn in H. destruct (rd (s_storage s) (sz_dec (s_size s))) as [y|]; [|exact H].
  destruct (wr (s_storage s) (N.of_nat i) y); exact H.
Qed.
Lemma cs_merge_agrees f l s tr :
  agrees (cs_merge ev (answers f) l s tr) tr (option_map (fun s' => (s', tt)) (s_merge f s l)).
Proof.
  revert s tr. induction l as [|x r IH]; intros s tr; cbn; [apply agrees_ret|].
  eapply agrees_bind; [apply cs_insert_agrees|].
  destruct (s_insert f s x) as [[s' b]|]; [|reflexivity]. intros tr'. apply IH.
Qed.

(** From an [option] to an [outcome]. *)
Definition as_outcome {S A} (r : option (S * A)) : outcome unit S A :=
  match r with Some (s', o) => Done s' o [] | None => Undef end.

Lemma cs_step_agrees f op s tr : exists r,
  s_step f s op = as_outcome r /\ agrees (cs_step ev (answers f) op s tr) tr r.
Proof.
  destruct op as [k|k|l| | |k| | |]; cbn [cs_step s_step].
  - eexists. split; [reflexivity|]. eapply agrees_bind; [apply cs_insert_agrees|].
    destruct (s_insert f s k) as [[s' b]|]; cbn; [|reflexivity]. intros. apply agrees_ret.
  - eexists. split; [reflexivity|]. eapply agrees_bind; [apply cs_erase_agrees|].
    destruct (s_erase f s k) as [[s' b]|]; cbn; [|reflexivity]. intros. apply agrees_ret.
  - eexists. split; [reflexivity|]. eapply agrees_bind; [apply cs_merge_agrees|].
    destruct (s_merge f s l) as [s'|]; cbn; [|reflexivity]. intros. apply agrees_ret.
  - eexists. split; [reflexivity|].
    apply (agrees_plainly (fun s => option_map (fun '(s', k) => (s', SKey k)) (s_pop_back s))).
  - exists (Some (s_clear s, SUnit)). split; [reflexivity|]. apply (agrees_plainly (fun s => Some (s_clear s, SUnit))).
  - eexists. split; [reflexivity|]. eapply agrees_bind; [apply cs_contains_agrees|].
    destruct (s_contains f s k) as [b|]; cbn; [|reflexivity]. intros. apply agrees_ret.
  - exists (Some (s, SNum (s_size s))). split; [reflexivity|].
    apply (agrees_plainly (fun s => Some (s, SNum (s_size s)))).
  - exists (Some (s, SBool (s_size s =? 0)%N)). split; [reflexivity|].
    apply (agrees_plainly (fun s => Some (s, SBool (s_size s =? 0)%N))).
  - eexists. split; [reflexivity|]. apply (agrees_plainly (fun s => option_map (fun l => (s, SList l)) (s_items s))).
Qed.
End Set_.

(** ** The map. *)
Section Map_.
Context {K V : Type} (ev : K -> K -> E).
Notation mp := (cmap K V).

Lemma cm_find_pure f k (m : mp) tr l : m_items m = Some l ->
  cm_find ev (answers f) k m tr = (Ret (find_idx (fun e => f (fst e) k) l), m, tr ++ lookup ev f (map fst l) k).
Proof. intros H. unfold cm_find. rewrite H, scan_pure. reflexivity. Qed.
Lemma cm_find_agrees f k (m : mp) tr :
  agrees (cm_find ev (answers f) k m tr) tr (option_map (fun o => (m, o)) (m_find f m k)).
Proof.
  unfold m_find. destruct (m_items m) as [l|] eqn:H; cbn.
  - rewrite (cm_find_pure _ _ _ _ _ H). eexists. reflexivity.
  - unfold cm_find. rewrite H. exists []. rewrite app_nil_r. eauto.
Qed.
Definition position (o : option (option nat)) : option nat := match o with Some (Some i) => Some i | _ => None end.
Lemma cm_get_agrees f k (m : mp) tr :
  agrees (cm_get ev (answers f) k m tr) tr (option_map (fun i => (m, i)) (position (m_find f m k))).
Proof.
  unfold cm_get. eapply agrees_bind; [apply cm_find_agrees|].
  destruct (m_find f m k) as [[i|]|]; cbn; [| |reflexivity]; intros.
  - apply agrees_ret.
  - apply (agrees_plainly (fun _ => None)).
Qed.
Lemma cm_contains_agrees f k (m : mp) tr :
  agrees (cm_contains ev (answers f) k m tr) tr (option_map (fun b => (m, b)) (m_contains f m k)).
Proof.
  unfold cm_contains. eapply agrees_bind; [apply cm_find_agrees|]. unfold m_contains.
  destruct (m_find f m k) as [o|]; cbn; [|reflexivity]. intros. apply agrees_ret.
Qed.
Lemma cm_put_agrees f k v (m : mp) tr :
  agrees (cm_put ev (answers f) k v m tr) tr (m_put f m k v).
Proof.
  unfold cm_put. eapply agrees_bind; [apply cm_find_agrees|]. unfold m_put.
  destruct (m_find f m k) as [[i|]|]; cbn; [| |reflexivity]; intros.
  - eapply agrees_bind; [unfold cm_write; apply agrees_plainly|]. cbn.
    destruct (m_set_at m i v); cbn; [|reflexivity]. intros. apply agrees_ret.
  - apply (agrees_plainly (fun m => option_map (fun st => ({| m_storage := st; m_size := sz_inc (m_size m) |}, true))
                                (wr (m_storage m) (m_size m) (k, v)))).
Qed.
Lemma cm_erase_agrees f k (m : mp) tr :
  agrees (cm_erase ev (answers f) k m tr) tr (m_erase f m k).
Proof.
  unfold cm_erase. eapply agrees_bind; [apply cm_find_agrees|]. unfold m_erase.
  destruct (m_find f m k) as [[i|]|]; cbn; [| |reflexivity]; intros.
  - match goal with |- agrees (plainly ?g _ ?t) _ _ => exact (agrees_plainly g m t) end.
  - apply agrees_ret.
Qed.

Lemma cm_step_agrees f cap op (m : mp) tr : exists r,
  m_step f cap m op = as_outcome r /\ agrees (cm_step ev (answers f) cap op m tr) tr r.
Proof.
  destruct op as [k v|k|k|k v|k| | | | | |]; cbn [cm_step m_step].
  - eexists. split; [reflexivity|]. eapply agrees_bind; [apply cm_put_agrees|].
    destruct (m_put f m k v) as [[m' b]|]; cbn; [|reflexivity]. intros. apply agrees_ret.
  - eexists. split; [reflexivity|]. eapply agrees_bind; [apply cm_erase_agrees|].
    destruct (m_erase f m k) as [[m' b]|]; cbn; [|reflexivity]. intros. apply agrees_ret.
  - eexists. split; [reflexivity|]. eapply agrees_bind; [apply cm_get_agrees|]. unfold m_get.
    destruct (m_find f m k) as [[i|]|]; cbn; try reflexivity. intros.
    eapply agrees_bind; [unfold cm_read; apply agrees_plainly|].
    destruct (rd (m_storage m) (N.of_nat i)) as [e|]; cbn; [|reflexivity]. intros. apply agrees_ret.
  - eexists. split; [reflexivity|]. eapply agrees_bind; [apply cm_get_agrees|]. unfold m_get_assign.
    destruct (m_find f m k) as [[i|]|]; cbn; try reflexivity. intros.
    eapply agrees_bind; [unfold cm_write; apply agrees_plainly|]. cbn.
    destruct (m_set_at m i v) as [m'|]; cbn; [|reflexivity]. intros. apply agrees_ret.
  - eexists. split; [reflexivity|]. eapply agrees_bind; [apply cm_contains_agrees|].
    destruct (m_contains f m k) as [b|]; cbn; [|reflexivity]. intros. apply agrees_ret.
  - eexists. split; [reflexivity|].
    apply (agrees_plainly (fun m => option_map (fun '(m', e) => (m', MEntry e)) (m_pop_back m))).
  - exists (Some (m_clear m, MUnit)). split; [reflexivity|]. apply (agrees_plainly (fun m => Some (m_clear m, MUnit))).
  - exists (Some (m, MNum (m_size m))). split; [reflexivity|].
    apply (agrees_plainly (fun m => Some (m, MNum (m_size m)))).
  - exists (Some (m, MBool (m_size m =? 0)%N)). split; [reflexivity|].
    apply (agrees_plainly (fun m => Some (m, MBool (m_size m =? 0)%N))).
  - exists (Some (m, MBool (m_size m =? cap)%N)). split; [reflexivity|].
    apply (agrees_plainly (fun m => Some (m, MBool (m_size m =? cap)%N))).
  - eexists. split; [reflexivity|]. apply (agrees_plainly (fun m => option_map (fun l => (m, MList l)) (m_items m))).
Qed.
End Map_.
End P.
