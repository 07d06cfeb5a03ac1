(** Proofs about STDX_MAP. *)
From Verif Require Import Base PpMapModel PpMapSpec.
Open Scope nat_scope.

Section P.
Context (user : nat -> mdef).
Notation Ex := (expands user).

(** ** Expansion rules *)
Lemma Ex_nil dis : Ex dis [] [].
Proof. exists 1. intros [|k] H; [lia|reflexivity]. Qed.
Lemma Ex_pop dis m s o : Ex (remove mac_eq_dec m dis) s o -> Ex dis (Pop m :: s) o.
Proof. intros [n H]. exists (S n). intros [|k] Hk; [lia|]. cbn [expand]. apply H. lia. Qed.
Definition quiet (t : tok) : Prop := match t with Name _ false => False | _ => True end.
Lemma Ex_quiet dis t s o : quiet t -> Ex dis s o -> Ex dis (T t :: s) (t :: o).
Proof.
  intros Q [n H]. exists (S n). intros [|k] Hk; [lia|]. cbn [expand].
  destruct t as [| | |c|m [|]]; try contradiction; rewrite H by lia; reflexivity.
Qed.
Lemma Ex_quiets dis l s o : Forall quiet l -> Ex dis s o -> Ex dis (map T l ++ s) (l ++ o).
Proof. intros Q H. induction Q as [|t l Ht _ IH]; [exact H|]. cbn [map app]. now apply Ex_quiet. Qed.
Definition is_fun (m : mac) : Prop := match def user m with Fun _ _ _ _ => True | Obj _ => False end.
Lemma mem_false m dis : ~ In m dis -> mem m dis = false.
Proof. intros H. unfold mem. now destruct (in_dec mac_eq_dec m dis). Qed.
Lemma Ex_keep dis m s o : ~ In m dis -> is_fun m -> open_paren dis s = None -> Ex dis s o -> Ex dis (T (nm m) :: s) (nm m :: o).
Proof.
  intros D F E [n H]. exists (S n). intros [|k] Hk; [lia|]. cbn [expand nm].
  rewrite mem_false by exact D. unfold is_fun in F. destruct (def user m); [contradiction|].
  rewrite E, H by lia. reflexivity.
Qed.
Lemma Ex_obj dis m b s o : ~ In m dis -> def user m = Obj b -> Ex (m :: dis) (map T b ++ Pop m :: s) o -> Ex dis (T (nm m) :: s) o.
Proof.
  intros D F [n H]. exists (S n). intros [|k] Hk; [lia|]. cbn [expand nm].
  rewrite mem_false, F by exact D. apply H. lia.
Qed.
Lemma Ex_list dis l l' : Forall2 (fun a a' => Ex dis (map T a) a') l l' ->
  exists n, forall k, n <= k -> mapo_ (fun a => expand user k dis (map T a)) l = Some l'.
Proof.
  induction 1 as [|a a' l l' [n Ha] _ [n' IH]]; [exists 0; reflexivity|].
  exists (n + n'). intros k Hk. cbn [mapo_]. rewrite Ha, IH by lia. reflexivity.
Qed.
Lemma Ex_call dis m np v vo b s dis1 s1 raw dis2 s2 args va args' va' o :
  ~ In m dis -> def user m = Fun np v vo b -> open_paren dis s = Some (dis1, s1) ->
  grab 0 dis1 s1 = Some (raw, dis2, s2) -> bind_args np v raw = Some (args, va) ->
  Forall2 (fun a a' => Ex dis2 (map T a) a') args args' -> Ex dis2 (map T va) va' ->
  Ex (m :: dis2) (map T (subst vo b args' va') ++ Pop m :: s2) o ->
  Ex dis (T (nm m) :: s) o.
Proof.
  intros D F O G Bd A [n1 V] [n2 R]. destruct (Ex_list _ _ _ A) as [n3 L].
  exists (S (n1 + n2 + n3)). intros [|k] Hk; [lia|]. cbn [expand nm].
  rewrite mem_false, F, O, G, Bd by exact D. cbn [fst snd]. rewrite L, V by lia. apply R. lia.
Qed.
Lemma Ex_quiet_inv dis t s o : quiet t -> Ex dis (T t :: s) o -> exists o', o = t :: o' /\ Ex dis s o'.
Proof.
  intros Q [n H]. destruct (expand user n dis s) as [o'|] eqn:E.
  - exists o'. pose proof (H (S n) ltac:(lia)) as K. cbn [expand] in K. split.
    + destruct t as [| | |c|m [|]]; try contradiction; rewrite E in K; congruence.
    + exists n. intros k Hk. pose proof (H (S k) ltac:(lia)) as K'. cbn [expand] in K'.
      destruct t as [| | |c|m [|]]; try contradiction; rewrite E in K; destruct (expand user k dis s); congruence.
  - exfalso. pose proof (H (S n) ltac:(lia)) as K. cbn [expand] in K.
    destruct t as [| | |c|m [|]]; try contradiction; rewrite E in K; congruence.
Qed.

(** ** Reading arguments *)
Definition clean (dis : list mac) (l : list tok) : Prop := Forall (fun t => paint dis t = t) l.
Lemma grab_app dis l s : clean dis l -> forall d d', depth_after true d l = Some d' ->
  grab d dis (map T l ++ s) = match grab d' dis s with Some (a, dis', r) => Some (l ++ a, dis', r) | None => None end.
Proof.
  induction 1 as [|t l Ht _ IH]; intros d d' E.
  - injection E as <-. cbn [map app]. destruct (grab d dis s) as [[[a x] r]|]; reflexivity.
  - cbn [map app].
    assert (K : forall d1, depth_after true d1 l = Some d' ->
      (match grab d1 dis (map T l ++ s) with Some (a, dis', r') => Some (paint dis t :: a, dis', r') | None => None end)
      = match grab d' dis s with Some (a, dis', r) => Some (t :: l ++ a, dis', r) | None => None end).
    { intros d1 H1. rewrite (IH _ _ H1), Ht. destruct (grab d' dis s) as [[[a x] r]|]; reflexivity. }
    cbn [grab]. destruct t as [| | |c|m p]; cbn [depth_after] in E; try (apply K; destruct d; exact E).
    destruct d as [|d]; [discriminate|]. apply K. now rewrite Nat.sub_succ, Nat.sub_0_r.
Qed.
Lemma grab_bal dis l s : clean dis l -> depth_after true 0 l = Some 0 -> grab 0 dis (map T l ++ T RP :: s) = Some (l, dis, s).
Proof. intros C E. rewrite (grab_app dis l (T RP :: s) C 0 0 E). cbn [grab]. now rewrite app_nil_r. Qed.
Lemma cut_app l s : forall d d', depth_after false d l = Some d' -> cut d (l ++ s) = (l ++ fst (cut d' s), snd (cut d' s)).
Proof.
  induction l as [|t l IH]; intros d d' E.
  - injection E as <-. cbn [app]. now destruct (cut d s).
  - cbn [app cut]. destruct t as [| | |c|m p]; cbn [depth_after] in E.
    + now rewrite (IH _ _ E).
    + destruct d as [|d]; [discriminate|]. rewrite Nat.sub_succ, Nat.sub_0_r. now rewrite (IH _ _ E).
    + destruct d as [|d]; [discriminate|]. now rewrite (IH _ _ E).
    + destruct d; now rewrite (IH _ _ E).
    + destruct d; now rewrite (IH _ _ E).
Qed.
Lemma cut_arg a r : depth_after false 0 a = Some 0 -> cut 0 (a ++ CM :: r) = (a, Some r).
Proof. intros E. rewrite (cut_app a (CM :: r) 0 0 E). cbn. now rewrite app_nil_r. Qed.
Lemma cut_last a : depth_after false 0 a = Some 0 -> cut 0 a = (a, None).
Proof. intros E. rewrite <- (app_nil_r a) at 1. rewrite (cut_app a [] 0 0 E). cbn. now rewrite app_nil_r. Qed.
Lemma depth_app c l s : forall d, depth_after c d (l ++ s) = match depth_after c d l with Some d' => depth_after c d' s | None => None end.
Proof.
  induction l as [|t l IH]; intros d; [reflexivity|]. cbn [app depth_after].
  destruct t as [| | |x|m p]; auto; destruct d; auto. destruct c; auto.
Qed.
Lemma depth_weaken l : forall d d', depth_after false d l = Some d' -> depth_after true d l = Some d'.
Proof.
  induction l as [|t l IH]; intros d d' E; [exact E|]. cbn [depth_after] in *.
  destruct t as [| | |x|m p]; auto; destruct d; auto; discriminate.
Qed.
Lemma depth_shift c l : forall d d' e, depth_after c d l = Some d' -> depth_after c (d + S e) l = Some (d' + S e).
Proof.
  induction l as [|t l IH]; intros d d' e E; [cbn in *; congruence|]. cbn [depth_after] in *.
  destruct t as [| | |x|m p]; auto.
  - apply (IH (S d) d' e E).
  - destruct d as [|d]; [discriminate|]. cbn [Nat.add]. now apply IH.
  - destruct d as [|d].
    + destruct c; [|discriminate]. cbn [Nat.add]. apply (IH 0 d' e E).
    + cbn [Nat.add]. apply (IH (S d) d' e E).
Qed.
(** Inside parentheses commas do not matter. *)
Lemma depth_inside c c' l : forall d d' e, depth_after c d l = Some d' -> depth_after c' (d + S e) l = Some (d' + S e).
Proof.
  induction l as [|t l IH]; intros d d' e E; [cbn in *; congruence|]. cbn [depth_after] in *.
  destruct t as [| | |x|m p]; auto.
  - apply (IH (S d) d' e E).
  - destruct d as [|d]; [discriminate|]. cbn [Nat.add]. now apply IH.
  - destruct d as [|d].
    + destruct c; [|discriminate]. cbn [Nat.add]. apply (IH 0 d' e E).
    + cbn [Nat.add]. apply (IH (S d) d' e E).
Qed.
Lemma depth_paren c c' d l r : depth_after c 0 l = Some 0 -> depth_after c' d (LP :: l ++ RP :: r) = depth_after c' d r.
Proof.
  intros E. cbn [depth_after]. rewrite depth_app.
  pose proof (depth_inside c c' l 0 0 d E) as K. cbn [Nat.add] in K. rewrite K. reflexivity.
Qed.
Lemma no_names_quiet l : no_names l -> Forall quiet l.
Proof. apply Forall_impl. intros [| | |x|m p]; cbn; tauto. Qed.
Lemma no_names_clean dis l : no_names l -> clean dis l.
Proof. apply Forall_impl. intros [| | |x|m p]; cbn; tauto. Qed.
Lemma Ex_same dis l : no_names l -> Ex dis (map T l) l.
Proof.
  intros H. rewrite <- (app_nil_r (map T l)). replace l with (l ++ []) at 2 by apply app_nil_r. apply Ex_quiets; [now apply no_names_quiet|apply Ex_nil].
Qed.

Lemma Ex_call1 dis m np v vo b raw args va args' va' s o :
  ~ In m dis -> def user m = Fun np v vo b -> clean dis raw -> depth_after true 0 raw = Some 0 ->
  bind_args np v raw = Some (args, va) ->
  Forall2 (fun a a' => Ex dis (map T a) a') args args' -> Ex dis (map T va) va' ->
  Ex (m :: dis) (map T (subst vo b args' va') ++ Pop m :: s) o ->
  Ex dis (map T (nm m :: LP :: raw ++ [RP]) ++ s) o.
Proof.
  intros D F C Dp Bd A V R. cbn [map app].
  eapply (Ex_call dis m np v vo b _ dis (map T raw ++ T RP :: s) raw dis s args va args' va' o); auto.
  - cbn [open_paren]. rewrite map_app, <- app_assoc. reflexivity.
  - now apply grab_bal.
Qed.
Lemma Ex_popped dis m s o : ~ In m dis -> Ex dis s o -> Ex (m :: dis) (Pop m :: s) o.
Proof. intros D H. apply Ex_pop. cbn [remove]. destruct (mac_eq_dec m m); [|contradiction]. now rewrite notin_remove. Qed.

(** ** Macros being disabled *)
(** The macros that one step of the iteration uses have rank 0; the rescanning macros come above. *)
Definition rank (m : mac) : nat :=
  match m with
  | EVAL0 => 1 | EVAL1 => 2 | EVAL2 => 3 | EVAL3 => 4 | EVAL4 => 5 | EVAL5 => 6 | EVAL => 7
  | DROP0 | DROP1 | MAP => 8
  | _ => 0
  end.
Definition above (lvl : nat) (dis : list mac) : Prop := forall m, In m dis -> lvl <= rank m.
Lemma above_notin lvl dis m : above lvl dis -> rank m < lvl -> ~ In m dis.
Proof. intros H R K. specialize (H m K). lia. Qed.
Lemma above_cons lvl m dis : above lvl dis -> lvl <= rank m -> above lvl (m :: dis).
Proof. intros H R x [<-|K]; auto. Qed.
Lemma above_weaken l1 l2 dis : l1 <= l2 -> above l2 dis -> above l1 dis.
Proof. intros L H m K. specialize (H m K). lia. Qed.
End P.
Ltac notin := match goal with |- ~ In _ _ => intros K; cbn [In] in K; repeat (destruct K as [K|K]; [discriminate K|]); revert K; (assumption || (eapply above_notin; [eassumption|cbn; lia])) end.
