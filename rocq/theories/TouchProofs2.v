From Verif Require Import Base BaseLemmas IntrusiveListModel IntrusiveListSpec IntrusiveListProofs.
From Verif Require Import ForwardListModel ForwardListSpec ForwardListProofs TouchModel TouchSpec TouchProofs.
Open Scope N_scope.
Open Scope ub_scope.

(** ** Which nodes: if the computation is defined it touches nodes of [P] only and its result satisfies [Q] *)
Definition tw {A} (P : list N) (Q : A -> Prop) (r : traced A) : Prop :=
  forall t x, r = Some (t, x) -> Forall (fun a => In (node_of a) P) t /\ Q x.
Definition any {A} (x : A) : Prop := True.
Lemma w_pure {A} P (Q : A -> Prop) a : Q a -> tw P Q (pure a).
Proof. intros H t x E. injection E as <- <-. split; [constructor|exact H]. Qed.
Lemma w_bind {A B} P (Q : A -> Prop) (R : B -> Prop) a f :
  tw P Q a -> (forall x, Q x -> tw P R (f x)) -> tw P R (tbind a f).
Proof.
  intros Ha Hf t y E. unfold tbind in E. destruct a as [[t1 x]|]; [|discriminate].
  destruct (f x) as [[t2 z]|] eqn:F; [|discriminate]. injection E as <- <-.
  destruct (Ha t1 x eq_refl) as (H1 & HQ). destruct (Hf x HQ t2 z F) as (H2 & HR).
  split; [apply Forall_app; split; assumption|exact HR].
Qed.
Lemma w_set_prev P h p v : incl (some p) P -> tw P any (t_set_prev h p v).
Proof.
  intros H t x E. unfold t_set_prev in E. destruct p as [a|]; [|discriminate]. destruct (set_prev h (Some a) v); [|discriminate].
  injection E as <- <-. split; [|exact I]. repeat constructor. apply H. left. reflexivity.
Qed.
Lemma w_set_next P h p v : incl (some p) P -> tw P any (t_set_next h p v).
Proof.
  intros H t x E. unfold t_set_next in E. destruct p as [a|]; [|discriminate]. destruct (set_next h (Some a) v); [|discriminate].
  injection E as <- <-. split; [|exact I]. repeat constructor. apply H. left. reflexivity.
Qed.
(** With what is in the memory. *)
Lemma h_prev P h nodes f a : hrep h nodes f -> a < nodes -> In a P -> tw P (fun q => q = prev (f a)) (t_prev h (Some a)).
Proof.
  intros H L I t x E. unfold t_prev in E. rewrite (get_ok _ _ _ _ H L) in E. injection E as <- <-.
  split; [repeat constructor; exact I|reflexivity].
Qed.
Lemma h_next P h nodes f a : hrep h nodes f -> a < nodes -> In a P -> tw P (fun q => q = next (f a)) (t_next h (Some a)).
Proof.
  intros H L I t x E. unfold t_next in E. rewrite (get_ok _ _ _ _ H L) in E. injection E as <- <-.
  split; [repeat constructor; exact I|reflexivity].
Qed.
Lemma h_set_prev P h nodes f a v : hrep h nodes f -> a < nodes -> In a P ->
  tw P (fun h' => hrep h' nodes (fupd f a (upd_prev v (f a)))) (t_set_prev h (Some a) v).
Proof.
  intros H L I t x E. unfold t_set_prev in E. destruct (set_prev_ok _ _ _ a v H L) as (h' & E' & H'). rewrite E' in E.
  injection E as <- <-. split; [repeat constructor; exact I|exact H'].
Qed.
Lemma h_set_next P h nodes f a v : hrep h nodes f -> a < nodes -> In a P ->
  tw P (fun h' => hrep h' nodes (fupd f a (upd_next v (f a)))) (t_set_next h (Some a) v).
Proof.
  intros H L I t x E. unfold t_set_next in E. destruct (set_next_ok _ _ _ a v H L) as (h' & E' & H'). rewrite E' in E.
  injection E as <- <-. split; [repeat constructor; exact I|exact H'].
Qed.

Lemma w_push_front P s n : In n P -> incl (some (head s)) P -> tw P any (t_push_front s (Some n)).
Proof.
  intros Hn Hh. assert (H1 : incl (some (Some n)) P) by (intros x [<-|[]]; exact Hn). unfold t_push_front.
  apply (w_bind P any). { destruct (is_null (head s)); [apply w_pure; exact I|apply w_set_prev; exact Hh]. } intros h1 _.
  apply (w_bind P any); [apply w_set_next; exact H1|]. intros h2 _.
  apply (w_bind P any); [apply w_set_prev; exact H1|]. intros h3 _. apply w_pure. exact I.
Qed.
Lemma w_push_back P s n : In n P -> incl (some (tail s)) P -> tw P any (t_push_back s (Some n)).
Proof.
  intros Hn Hh. assert (H1 : incl (some (Some n)) P) by (intros x [<-|[]]; exact Hn). unfold t_push_back.
  apply (w_bind P any). { destruct (is_null (tail s)); [apply w_pure; exact I|apply w_set_next; exact Hh]. } intros h1 _.
  apply (w_bind P any); [apply w_set_prev; exact H1|]. intros h2 _.
  apply (w_bind P any); [apply w_set_next; exact H1|]. intros h3 _. apply w_pure. exact I.
Qed.
Lemma w_on_pop P pol h n : In n P -> tw P any (t_on_pop pol h (Some n)).
Proof.
  intros Hn. assert (H1 : incl (some (Some n)) P) by (intros x [<-|[]]; exact Hn). destruct pol; cbn [t_on_pop]; [|apply w_pure; exact I].
  apply (w_bind P any); [apply w_set_prev; exact H1|]. intros h2 _. apply w_set_next. exact H1.
Qed.
Lemma w_valid P nodes f h n : hrep h nodes f -> n < nodes -> In n P -> tw P any (t_valid h (Some n)).
Proof.
  intros H L Hn. unfold t_valid. eapply w_bind; [exact (h_prev P h nodes f n H L Hn)|]. intros q _.
  destruct (is_null q); [|apply w_pure; exact I]. eapply w_bind; [exact (h_next P h nodes f n H L Hn)|].
  intros r _. apply w_pure. exact I.
Qed.
Lemma w_pop_front P pol nodes f s n : hrep (heap s) nodes f -> n < nodes -> head s = Some n -> In n P ->
  incl (some (next (f n))) P -> tw P any (t_pop_front pol s).
Proof.
  intros H L E Hn Hx. unfold t_pop_front. rewrite E. eapply w_bind; [exact (h_next P _ nodes f n H L Hn)|]. intros q ->.
  apply (w_bind P any). { destruct (is_null (next (f n))); [apply w_pure; exact I|apply w_set_prev; exact Hx]. } intros h _.
  apply (w_bind P any); [apply w_on_pop; exact Hn|]. intros h' _. apply w_pure. exact I.
Qed.
Lemma w_pop_back P pol nodes f s n : hrep (heap s) nodes f -> n < nodes -> tail s = Some n -> In n P ->
  incl (some (prev (f n))) P -> tw P any (t_pop_back pol s).
Proof.
  intros H L E Hn Hx. unfold t_pop_back. rewrite E. eapply w_bind; [exact (h_prev P _ nodes f n H L Hn)|]. intros q ->.
  apply (w_bind P any). { destruct (is_null (prev (f n))); [apply w_pure; exact I|apply w_set_next; exact Hx]. } intros h _.
  apply (w_bind P any); [apply w_on_pop; exact Hn|]. intros h' _. apply w_pure. exact I.
Qed.
Lemma w_remove P pol nodes f s n : hrep (heap s) nodes f -> n < nodes -> In n P ->
  incl (some (prev (f n))) P -> incl (some (next (f n))) P -> tw P any (t_remove pol s (Some n)).
Proof.
  intros H L Hn Hp Hx. unfold t_remove. eapply w_bind; [exact (h_next P _ nodes f n H L Hn)|]. intros q ->.
  eapply w_bind; [exact (h_prev P _ nodes f n H L Hn)|]. intros q ->.
  apply (w_bind P any). { destruct (is_null (prev (f n))); [apply w_pure; exact I|apply w_set_next; exact Hp]. } intros h _.
  apply (w_bind P any). { destruct (is_null (next (f n))); [apply w_pure; exact I|apply w_set_prev; exact Hx]. } intros h' _.
  apply (w_bind P any); [apply w_on_pop; exact Hn|]. intros h'' _. apply w_pure. exact I.
Qed.
Lemma w_insert_tail P nodes f h n hd tl : hrep h nodes f -> n < nodes -> In n P -> incl (some (prev (f n))) P ->
  tw P any (q <~ t_prev h (Some n);;
            if is_null q then pure {| head := Some n; tail := tl; heap := h |}
            else q <~ t_prev h (Some n);; h <~ t_set_next h q (Some n);; pure {| head := hd; tail := tl; heap := h |}).
Proof.
  intros H L Hn Hp. eapply w_bind; [exact (h_prev P _ nodes f n H L Hn)|]. intros q ->.
  destruct (is_null (prev (f n))); [apply w_pure; exact I|].
  eapply w_bind; [exact (h_prev P _ nodes f n H L Hn)|]. intros q ->.
  apply (w_bind P any); [apply w_set_next; exact Hp|]. intros h' _. apply w_pure. exact I.
Qed.
Lemma w_insert_end P nodes f s n : hrep (heap s) nodes f -> n < nodes -> In n P -> incl (some (tail s)) P ->
  tw P any (t_insert s None (Some n)).
Proof.
  intros H L Hn Ht. unfold t_insert. cbn [is_null].
  apply (w_bind P (fun r : list node * ptr => hrep (fst r) nodes (fupd f n (upd_prev (tail s) (f n))))).
  - eapply w_bind; [exact (h_set_prev P _ nodes f n (tail s) H L Hn)|]. intros h Hh. apply w_pure. exact Hh.
  - intros [h tl] Hh. cbn [fst] in Hh. apply (w_insert_tail P nodes _ h n (head s) tl Hh L Hn).
    unfold fupd. rewrite N.eqb_refl. exact Ht.
Qed.
Lemma w_insert_at P nodes f s p n : hrep (heap s) nodes f -> n < nodes -> p < nodes -> n <> p -> In n P -> In p P ->
  incl (some (prev (f p))) P -> tw P any (t_insert s (Some p) (Some n)).
Proof.
  intros H L Lp Hnp Hn Hp Hq. unfold t_insert. cbn [is_null].
  apply (w_bind P (fun r : list node * ptr => exists g, hrep (fst r) nodes g /\ prev (g n) = prev (f p))).
  - eapply w_bind; [exact (h_set_next P _ nodes f n (Some p) H L Hn)|]. intros h1 H1.
    eapply w_bind; [exact (h_prev P _ nodes _ p H1 Lp Hp)|]. intros q ->.
    eapply w_bind; [exact (h_set_prev P _ nodes _ n _ H1 L Hn)|]. intros h2 H2.
    eapply w_bind; [exact (h_set_prev P _ nodes _ p _ H2 Lp Hp)|]. intros h3 H3. apply w_pure.
    eexists. split; [exact H3|]. unfold fupd.
    destruct (N.eqb_spec n p); [congruence|]. destruct (N.eqb_spec p n); [congruence|]. rewrite N.eqb_refl. reflexivity.
  - intros [h tl] (g & Hg & E). cbn [fst] in Hg. apply (w_insert_tail P nodes g h n (head s) tl Hg L Hn).
    rewrite E. exact Hq.
Qed.

Lemma last_hd l : last_or None l = hd_error (rev l).
Proof. destruct (last_snoc l) as [->|(r & x & ->)]; [reflexivity|]. rewrite last_or_snoc, rev_unit. reflexivity. Qed.
Lemma w_ret {S} P (r : traced (S * l_out)) : tw P any r -> Forall (fun a => In (node_of a) P) (snd (t_ret r)).
Proof. intros H. destruct r as [[t [s o]]|]; cbn; [exact (proj1 (H t _ eq_refl))|constructor]. Qed.
Lemma w_check P pol hd nodes f s n body : hrep (heap s) nodes f -> n < nodes -> In n P -> tw P any body ->
  Forall (fun a => In (node_of a) P) (snd (t_check pol hd s n body)).
Proof.
  intros H L Hn Hb. unfold t_check.
  assert (G : forall t ps, Forall (fun a => In (node_of a) P) t ->
    Forall (fun a => In (node_of a) P) (snd (match body with Some (t', s') => (Done s' LUnit ps, t ++ t') | None => (@Undef l_panic ilist l_out, []) end))).
  { intros t ps F. destruct body as [[t' s']|]; cbn [snd]; [|constructor]. apply Forall_app. split; [exact F|].
    exact (proj1 (Hb t' s' eq_refl)). }
  destruct pol; [|apply G; constructor]. destruct (t_valid (heap s) (Some n)) as [[t b]|] eqn:V; [|constructor].
  pose proof (proj1 (w_valid P nodes f _ n H L Hn _ _ V)) as F. destruct b; [apply G; exact F|]. destruct hd; [apply G; exact F|exact F].
Qed.
Lemma t_step_near pol hd nodes s m op m' o : LRep nodes s m -> seq_step pol nodes m op = Some (m', o) ->
  long op = false -> Forall (fun a => In (node_of a) (near m op)) (snd (t_step pol hd s op)).
Proof.
  intros (Hn & Hlt & Hh & Ht & HH) Hs Hl. rewrite last_hd in Ht.
  destruct op as [n|n|it n| | |n| | | | | | |n]; try discriminate Hl; cbn [seq_step] in Hs; cbn [t_step near].
  - destruct (insertable pol nodes m n) eqn:Ei; [|discriminate]. pose proof (insertable_spec _ _ _ _ Ei) as (Hb & _).
    apply (w_check _ pol hd nodes _ s n _ HH Hb); [left; reflexivity|]. apply w_push_front; [left; reflexivity|].
    rewrite Hh. intros x Hx. right. exact Hx.
  - destruct (insertable pol nodes m n) eqn:Ei; [|discriminate]. pose proof (insertable_spec _ _ _ _ Ei) as (Hb & _).
    apply (w_check _ pol hd nodes _ s n _ HH Hb); [left; reflexivity|]. apply w_push_back; [left; reflexivity|].
    rewrite Ht. intros x Hx. right. exact Hx.
  - assert (Ei : insertable pol nodes m n = true).
    { destruct it; destruct (insertable pol nodes m n); try reflexivity; discriminate Hs. }
    pose proof (insertable_spec _ _ _ _ Ei) as (Hb & Hni & _).
    assert (PB : forall P, In n P -> incl (some (hd_error (rev (seq m)))) P -> tw P any (t_push_back s (Some n))).
    { intros P H1 H2. apply w_push_back; [exact H1|]. rewrite Ht. exact H2. }
    destruct it as [p|].
    + rewrite Ei in Hs. destruct (mem p (seq m)) eqn:Ep; [|discriminate]. apply mem_In in Ep.
      apply (w_check _ pol hd nodes _ s n _ HH Hb); [left; reflexivity|].
      rewrite Hh. destruct (seq m) as [|x l] eqn:El; [destruct Ep|]. cbn [hd_error is_null].
      apply (w_insert_at _ nodes _ s p n HH Hb).
      * apply Hlt. exact Ep.
      * intros ->. exact (Hni Ep).
      * left; reflexivity.
      * right; left; reflexivity.
      * intros y Hy. right. right. exact Hy.
    + apply (w_check _ pol hd nodes _ s n _ HH Hb); [left; reflexivity|].
      destruct (is_null (head s)); [apply PB; [left; reflexivity|intros y Hy; right; exact Hy]|].
      apply (w_insert_end _ nodes _ s n HH Hb); [left; reflexivity|]. rewrite Ht. intros y Hy. right. exact Hy.
  - destruct (seq m) as [|n r] eqn:El; [discriminate|]. apply w_ret.
    apply (w_bind _ any); [|intros [s' [a|]] _; [apply w_pure; exact I|intros t x E; discriminate E]].
    apply (w_pop_front _ pol nodes _ s n HH); [apply Hlt; left; reflexivity|exact Hh|left; reflexivity|].
    intros y Hy. right. apply in_or_app. right. exact Hy.
  - destruct (rev (seq m)) as [|n r] eqn:El; [discriminate|]. apply w_ret.
    apply (w_bind _ any); [|intros [s' [a|]] _; [apply w_pure; exact I|intros t x E; discriminate E]].
    apply (w_pop_back _ pol nodes _ s n HH); [|exact Ht|left; reflexivity|].
    + apply Hlt. apply in_rev. rewrite El. left. reflexivity.
    + intros y Hy. right. apply in_or_app. left. exact Hy.
  - destruct (mem n (seq m)) eqn:En; [|discriminate]. apply mem_In in En. apply w_ret.
    apply (w_bind _ any); [|intros s' _; apply w_pure; exact I].
    apply (w_remove _ pol nodes _ s n HH); [apply Hlt; exact En|left; reflexivity| |];
      intros y Hy; right; apply in_or_app; [left|right]; exact Hy.
  - constructor.
  - destruct (head s) as [a|]; [|constructor]. destruct (get (heap s) (Some a)); constructor.
  - destruct (tail s) as [a|]; [|constructor]. destruct (get (heap s) (Some a)); constructor.
  - destruct (N.ltb_spec n nodes); [|discriminate]. apply w_ret.
    eapply w_bind; [apply (h_prev _ _ nodes _ n HH); [assumption|left; reflexivity]|]. intros p _.
    eapply w_bind; [apply (h_next _ _ nodes _ n HH); [assumption|left; reflexivity]|]. intros q _. apply w_pure. exact I.
Qed.

(** ** The long calls *)
Fixpoint chain (f : node -> ptr) (h : list node) (p : ptr) (l : list N) : Prop :=
  match l with
  | [] => p = None
  | x :: r => p = Some x /\ exists nd, rd h x = Some nd /\ chain f h (f nd) r
  end.
Lemma chain_put f h a g h' : put h (Some a) g = Some h' -> forall l p, ~ In a l -> chain f h p l -> chain f h' p l.
Proof.
  intros E. cbn in E. destruct (rd h a) as [nd|] eqn:R; [|discriminate].
  induction l as [|x l IH]; intros p Hn C; [exact C|]. destruct C as (-> & nd' & R' & C). split; [reflexivity|].
  exists nd'. split.
  - rewrite (rd_wr _ _ _ _ x E). destruct (N.eqb_spec x a); [exfalso; apply Hn; left; assumption|exact R'].
  - apply IH; [intros H; apply Hn; right; exact H|exact C].
Qed.
Lemma t_clear_trace : forall l fuel h p t h', chain next h p l -> NoDup l -> t_clear_loop fuel h p = Some (t, h') ->
  t = flat_map (fun n => [Write n Prev; Read n Next; Write n Next]) l.
Proof.
  induction l as [|x l IH]; intros fuel h p t h' C D E.
  - cbn in C. subst p. destruct fuel; injection E as <- <-; reflexivity.
  - destruct C as (-> & nd & R & C). inversion D as [|x' l' Hx Hl]; subst x' l'.
    destruct fuel as [|fuel]; [discriminate|]. cbn [t_clear_loop] in E.
    assert (Ep : exists h1, set_prev h (Some x) None = Some h1 /\ rd h1 x = Some {| prev := None; next := next nd |}).
    { unfold set_prev. cbn. rewrite R. destruct (wr_lt_Some h x {| prev := None; next := next nd |} (rd_Some_lt _ _ _ R)) as (h1 & W).
      exists h1. split; [exact W|]. rewrite (rd_wr _ _ _ _ x W), N.eqb_refl. reflexivity. }
    destruct Ep as (h1 & E1 & R1).
    assert (En : exists h2, set_next h1 (Some x) None = Some h2).
    { unfold set_next. cbn. rewrite R1. apply wr_lt_Some. exact (rd_Some_lt _ _ _ R1). }
    destruct En as (h2 & E2).
    assert (C2 : chain next h2 (next nd) l).
    { eapply chain_put; [exact E2|exact Hx|]. eapply chain_put; [exact E1|exact Hx|]. exact C. }
    unfold t_set_prev, t_next, t_set_next, tbind in E. rewrite E1 in E. cbn [get] in E. rewrite R1, E2 in E. cbn [next] in E.
    destruct (t_clear_loop fuel h2 (next nd)) as [[t' h3]|] eqn:T; [|discriminate].
    injection E as <- <-. cbn [flat_map]. rewrite (IH _ _ _ _ _ C2 Hl T). reflexivity.
Qed.
Lemma t_walk_trace f t_f fld : (forall h a, t_f h (Some a) = (nd <- rd h a;; Some ([Read a fld], f nd))) ->
  forall l fuel h p t l', chain f h p l -> t_walk t_f fuel h p = Some (t, l') -> t = map (fun n => Read n fld) l.
Proof.
  intros Hf. induction l as [|x l IH]; intros fuel h p t l' C E.
  - cbn in C. subst p. destruct fuel; injection E as <- <-; reflexivity.
  - destruct C as (-> & nd & R & C). destruct fuel as [|fuel]; [discriminate|]. cbn [t_walk] in E.
    rewrite Hf, R in E. unfold tbind in E. destruct (t_walk t_f fuel h (f nd)) as [[t' l2]|] eqn:T; [|discriminate].
    injection E as <- <-. cbn [map]. rewrite <- (IH _ _ _ _ _ C T), app_nil_r. reflexivity.
Qed.
Lemma chain_next h nodes m : hrep h nodes (links m) -> NoDup (seq m) -> (forall n, In n (seq m) -> n < nodes) ->
  forall l2 l1, seq m = l1 ++ l2 -> chain next h (hd_error l2) l2.
Proof.
  intros HH Hn Hlt. induction l2 as [|x l2 IH]; intros l1 El; [reflexivity|]. split; [reflexivity|].
  exists (links m x). split; [apply (proj2 HH), Hlt; rewrite El; apply in_or_app; right; left; reflexivity|].
  rewrite (links_in m l1 x l2 El); [|rewrite El in Hn; apply NoDup_remove in Hn; rewrite in_app_iff in Hn; tauto].
  cbn [next]. apply (IH (l1 ++ [x])). rewrite <- app_assoc. exact El.
Qed.
Lemma chain_prev h nodes m : hrep h nodes (links m) -> NoDup (seq m) -> (forall n, In n (seq m) -> n < nodes) ->
  forall r l2, seq m = rev r ++ l2 -> chain prev h (last_or None (rev r)) r.
Proof.
  intros HH Hn Hlt. induction r as [|x r IH]; intros l2 El; [reflexivity|].
  cbn [rev] in El |- *. rewrite last_or_snoc. rewrite <- app_assoc in El. cbn [app] in El. split; [reflexivity|].
  exists (links m x). split; [apply (proj2 HH), Hlt; rewrite El; apply in_or_app; right; left; reflexivity|].
  rewrite (links_in m (rev r) x l2 El); [|rewrite El in Hn; apply NoDup_remove in Hn; rewrite in_app_iff in Hn; tauto].
  cbn [prev]. exact (IH (x :: l2) El).
Qed.
Lemma ret_defined {S} (r : traced (S * l_out)) s o : fst (t_ret r) = Done s o [] -> exists t, r = Some (t, (s, o)).
Proof. destruct r as [[t [s' o']]|]; cbn; [|discriminate]. intros E. injection E as <- <-. eauto. Qed.
Lemma t_step_sweep pol hd nodes s m op m' o : LRep nodes s m -> seq_step pol nodes m op = Some (m', o) ->
  long op = true -> snd (t_step pol hd s op) = sweep pol m op.
Proof.
  intros HR Hs Hl. destruct (l_step_ok pol hd nodes s m op m' o HR Hs) as (s' & E & _). rewrite <- t_step_same in E.
  destruct HR as (Hn & Hlt & Hh & Ht & HH).
  destruct op as [n|n|it n| | |n| | | | | | |n]; try discriminate Hl; cbn [t_step sweep] in *;
    destruct (ret_defined _ _ _ E) as (t & R); rewrite R; cbn [t_ret snd]; clear E Hs.
  - unfold t_clear, tbind in R. destruct pol; cbn [t_on_clear] in R.
    + destruct (t_clear_loop (length (heap s)) (heap s) (head s)) as [[t' h']|] eqn:T; [|discriminate].
      injection R as <- _ _. rewrite !app_nil_r.
      refine (t_clear_trace (seq m) _ _ _ _ _ _ Hn T). rewrite Hh. exact (chain_next _ nodes m HH Hn Hlt (seq m) [] eq_refl).
    + injection R as <- _ _. reflexivity.
  - unfold tbind in R. destruct (t_walk t_next (length (heap s)) (heap s) (head s)) as [[t' l]|] eqn:T; [|discriminate].
    injection R as <- _ _. rewrite app_nil_r.
    refine (t_walk_trace next t_next Next _ (seq m) _ _ _ _ _ _ T); [reflexivity|].
    rewrite Hh. exact (chain_next _ nodes m HH Hn Hlt (seq m) [] eq_refl).
  - unfold tbind in R. destruct (t_walk t_prev (length (heap s)) (heap s) (tail s)) as [[t' l]|] eqn:T; [|discriminate].
    injection R as <- _ _. rewrite app_nil_r.
    refine (t_walk_trace prev t_prev Prev _ (rev (seq m)) _ _ _ _ _ _ T); [reflexivity|].
    rewrite Ht. rewrite <- (rev_involutive (seq m)) at 1. apply (chain_prev _ nodes m HH Hn Hlt (rev (seq m)) []).
    rewrite rev_involutive, app_nil_r. reflexivity.
Qed.
Lemma list_accesses pol hd h ops m outs op m' o :
  spec_run (seq_step pol (len h)) (l_spec_init h) ops = Some (m, outs) -> seq_step pol (len h) m op = Some (m', o) ->
  exists s, run (l_step pol hd) (l_init h) ops = Done s outs [] /\
  if long op then snd (t_step pol hd s op) = sweep pol m op
  else forall a, In a (snd (t_step pol hd s op)) -> In (node_of a) (near m op).
Proof.
  intros H Hs. destruct (l_run_ok pol hd (len h) ops _ _ _ _ (l_init_rep h) H) as (s & E & HR). exists s. split; [exact E|].
  destruct (long op) eqn:L; [exact (t_step_sweep pol hd _ s m op m' o HR Hs L)|].
  intros a Ha. pose proof (t_step_near pol hd _ s m op m' o HR Hs L) as F. rewrite Forall_forall in F. exact (F a Ha).
Qed.

(** ** The forward list *)
Lemma w_fset P h p v : incl (some p) P -> tw P any (ft_set h p v).
Proof.
  intros H t x E. unfold ft_set in E. destruct p as [a|]; [|discriminate]. destruct (put_next h (Some a) v); [|discriminate].
  injection E as <- <-. split; [|exact I]. repeat constructor. apply H. left. reflexivity.
Qed.
Lemma w_fnext P h p : incl (some p) P -> tw P any (ft_next h p).
Proof.
  intros H t x E. unfold ft_next in E. destruct p as [a|]; [|discriminate]. destruct (get_next h (Some a)); [|discriminate].
  injection E as <- <-. split; [|exact I]. repeat constructor. apply H. left. reflexivity.
Qed.
Lemma w_fret P r : tw P any r -> Forall (fun a => In (node_of a) P) (snd (ft_ret r)).
Proof. intros H. destruct r as [[t [s o]]|]; cbn; [exact (proj1 (H t _ eq_refl))|constructor]. Qed.
Lemma w_fcheck P pol hd s n body : In n P -> tw P any body ->
  Forall (fun a => In (node_of a) P) (snd (ft_check pol hd s n body)).
Proof.
  intros Hn Hb. unfold ft_check.
  assert (G : forall t ps, Forall (fun a => In (node_of a) P) t ->
    Forall (fun a => In (node_of a) P) (snd (match body with Some (t', s') => (Done s' FUnit ps, t ++ t') | None => (@Undef l_panic flist f_out, []) end))).
  { intros t ps F. destruct body as [[t' s']|]; cbn [snd]; [|constructor]. apply Forall_app. split; [exact F|].
    exact (proj1 (Hb t' s' eq_refl)). }
  assert (V : tw P any (ft_valid (nexts s) (Some n))).
  { unfold ft_valid. apply (w_bind P any); [apply w_fnext; intros x [<-|[]]; exact Hn|]. intros x _. apply w_pure. exact I. }
  destruct pol; [|apply G; constructor]. destruct (ft_valid (nexts s) (Some n)) as [[t b]|]; [|constructor].
  pose proof (proj1 (V _ _ eq_refl)) as F. destruct b; [apply G; exact F|]. destruct hd; [apply G; exact F|exact F].
Qed.
Lemma ft_step_near pol hd nodes s m op m' o : FRep nodes s m -> fseq_step pol nodes m op = Some (m', o) ->
  f_long op = false -> Forall (fun a => In (node_of a) (f_near m op)) (snd (ft_step pol hd s op)).
Proof.
  intros (Hn & Hlt & Hh & Ht & HH) Hs Hl. rewrite last_hd in Ht.
  destruct op as [n|n| | | | | | |n]; try discriminate Hl; cbn [fseq_step] in Hs; cbn [ft_step f_near].
  - apply w_fcheck; [left; reflexivity|]. unfold ft_push_front.
    apply (w_bind _ any); [apply w_fset; intros x Hx; exact Hx|]. intros h _. apply w_pure. exact I.
  - apply w_fcheck; [left; reflexivity|]. unfold ft_push_back. apply (w_bind _ any).
    { destruct (is_null (ftail s)); [apply w_pure; exact I|]. apply w_fset. rewrite Ht. intros x Hx. right. exact Hx. } intros h _.
    apply (w_bind _ any); [apply w_fset; intros x [<-|[]]; left; reflexivity|]. intros h' _. apply w_pure. exact I.
  - apply w_fret. apply (w_bind _ any); [|intros [s' [a|]] _; [apply w_pure; exact I|intros t x E; discriminate E]].
    unfold ft_pop_front. rewrite Hh. apply (w_bind _ any); [apply w_fnext; intros x Hx; exact Hx|]. intros q _.
    apply (w_bind _ any); [destruct pol; cbn [ft_on_pop]; [apply w_fset; intros x Hx; exact Hx|apply w_pure; exact I]|].
    intros h _. apply w_pure. exact I.
  - constructor.
  - destruct (fhead s) as [a|]; [|constructor]. destruct (get_next (nexts s) (Some a)); constructor.
  - destruct (ftail s) as [a|]; [|constructor]. destruct (get_next (nexts s) (Some a)); constructor.
  - apply w_fret. apply (w_bind _ any); [apply w_fnext; intros x Hx; exact Hx|]. intros q _. apply w_pure. exact I.
Qed.
Fixpoint fchain (h : list ptr) (p : ptr) (l : list N) : Prop :=
  match l with
  | [] => p = None
  | x :: r => p = Some x /\ exists q, rd h x = Some q /\ fchain h q r
  end.
Lemma fchain_put h a v h' : wr h a v = Some h' -> forall l p, ~ In a l -> fchain h p l -> fchain h' p l.
Proof.
  intros E. induction l as [|x l IH]; intros p Hn C; [exact C|]. destruct C as (-> & q & R & C). split; [reflexivity|].
  exists q. split.
  - rewrite (rd_wr _ _ _ _ x E). destruct (N.eqb_spec x a); [exfalso; apply Hn; left; assumption|exact R].
  - apply IH; [intros H; apply Hn; right; exact H|exact C].
Qed.
Lemma ft_clear_trace : forall l fuel h p t h', fchain h p l -> NoDup l -> ft_clear_loop fuel h p = Some (t, h') ->
  t = flat_map (fun n => [Read n Next; Write n Next]) l.
Proof.
  induction l as [|x l IH]; intros fuel h p t h' C D E.
  - cbn in C. subst p. destruct fuel; injection E as <- <-; reflexivity.
  - destruct C as (-> & q & R & C). inversion D as [|x' l' Hx Hl]; subst x' l'.
    destruct fuel as [|fuel]; [discriminate|]. cbn [ft_clear_loop] in E.
    unfold ft_next, ft_set, tbind in E. cbn [get_next put_next] in E. rewrite R in E.
    destruct (wr h x None) as [h1|] eqn:W; [|discriminate].
    destruct (ft_clear_loop fuel h1 q) as [[t' h2]|] eqn:T; [|discriminate].
    injection E as <- <-. cbn [flat_map]. rewrite (IH _ _ _ _ _ (fchain_put _ _ _ _ W _ _ Hx C) Hl T). reflexivity.
Qed.
Lemma ft_walk_trace : forall l fuel h p t l', fchain h p l -> ft_walk fuel h p = Some (t, l') -> t = map (fun n => Read n Next) l.
Proof.
  induction l as [|x l IH]; intros fuel h p t l' C E.
  - cbn in C. subst p. destruct fuel; injection E as <- <-; reflexivity.
  - destruct C as (-> & q & R & C). destruct fuel as [|fuel]; [discriminate|]. cbn [ft_walk] in E.
    unfold ft_next, tbind in E. cbn [get_next] in E. rewrite R in E. destruct (ft_walk fuel h q) as [[t' l2]|] eqn:T; [|discriminate].
    injection E as <- <-. cbn [map]. rewrite <- (IH _ _ _ _ _ C T), app_nil_r. reflexivity.
Qed.
Lemma fchain_of h nodes m : frep h nodes (flink m) -> NoDup (fseq m) -> (forall n, In n (fseq m) -> n < nodes) ->
  forall l2 l1, fseq m = l1 ++ l2 -> fchain h (hd_error l2) l2.
Proof.
  intros HH Hn Hlt. induction l2 as [|x l2 IH]; intros l1 El; [reflexivity|]. split; [reflexivity|].
  exists (flink m x). split; [apply (proj2 HH), Hlt; rewrite El; apply in_or_app; right; left; reflexivity|].
  unfold flink. rewrite El, after_in; [|rewrite El in Hn; apply NoDup_remove in Hn; rewrite in_app_iff in Hn; tauto].
  apply (IH (l1 ++ [x])). rewrite <- app_assoc. exact El.
Qed.
Lemma fret_defined r s o : fst (ft_ret r) = Done s o [] -> exists t, r = Some (t, (s, o)).
Proof. destruct r as [[t [s' o']]|]; cbn; [|discriminate]. intros E. injection E as <- <-. eauto. Qed.
Lemma ft_step_sweep pol hd nodes s m op m' o : FRep nodes s m -> fseq_step pol nodes m op = Some (m', o) ->
  f_long op = true -> snd (ft_step pol hd s op) = f_sweep pol m op.
Proof.
  intros HR Hs Hl. destruct (f_step_ok pol hd nodes s m op m' o HR Hs) as (s' & E & _). rewrite <- ft_step_same in E.
  destruct HR as (Hn & Hlt & Hh & Ht & HH).
  destruct op as [n|n| | | | | | |n]; try discriminate Hl; cbn [ft_step f_sweep] in *;
    destruct (fret_defined _ _ _ E) as (t & R); rewrite R; cbn [ft_ret snd]; clear E Hs.
  - unfold ft_clear, tbind in R. destruct pol; cbn [ft_on_clear] in R.
    + destruct (ft_clear_loop (length (nexts s)) (nexts s) (fhead s)) as [[t' h']|] eqn:T; [|discriminate].
      injection R as <- _ _. rewrite !app_nil_r.
      refine (ft_clear_trace (fseq m) _ _ _ _ _ _ Hn T). rewrite Hh. exact (fchain_of _ nodes m HH Hn Hlt (fseq m) [] eq_refl).
    + injection R as <- _ _. reflexivity.
  - unfold tbind in R. destruct (ft_walk (length (nexts s)) (nexts s) (fhead s)) as [[t' l]|] eqn:T; [|discriminate].
    injection R as <- _ _. rewrite app_nil_r.
    refine (ft_walk_trace (fseq m) _ _ _ _ _ _ T). rewrite Hh. exact (fchain_of _ nodes m HH Hn Hlt (fseq m) [] eq_refl).
Qed.
Lemma forward_accesses pol hd h ops m outs op m' o :
  spec_run (fseq_step pol (len h)) (f_spec_init h) ops = Some (m, outs) -> fseq_step pol (len h) m op = Some (m', o) ->
  exists s, run (f_step pol hd) (f_init h) ops = Done s outs [] /\
  if f_long op then snd (ft_step pol hd s op) = f_sweep pol m op
  else forall a, In a (snd (ft_step pol hd s op)) -> In (node_of a) (f_near m op).
Proof.
  intros H Hs. destruct (f_run_ok pol hd (len h) ops _ _ _ _ (f_init_rep h) H) as (s & E & HR). exists s. split; [exact E|].
  destruct (f_long op) eqn:L; [exact (ft_step_sweep pol hd _ s m op m' o HR Hs L)|].
  intros a Ha. pose proof (ft_step_near pol hd _ s m op m' o HR Hs L) as F. rewrite Forall_forall in F. exact (F a Ha).
Qed.

(** ** Nothing but the nodes of the list and the one given *)
Lemma nbrs_members l : forall p n nd, nbrs p l n = Some nd ->
  incl (some (prev nd)) (some p ++ l) /\ incl (some (next nd)) l.
Proof.
  induction l as [|x l IH]; intros p n nd E; [discriminate|]. cbn [nbrs] in E. destruct (N.eqb x n).
  - injection E as <-. cbn [prev next]. split.
    + intros y Hy. apply in_or_app. left. exact Hy.
    + intros y Hy. right. destruct l as [|z l]; [destruct Hy|]. destruct Hy as [<-|[]]. left. reflexivity.
  - destruct (IH (Some x) n nd E) as (H1 & H2). split.
    + intros y Hy. apply in_or_app. right. exact (H1 y Hy).
    + intros y Hy. right. exact (H2 y Hy).
Qed.
Lemma links_members m n : In n (seq m) -> incl (around m n) (seq m).
Proof.
  intros Hn. unfold around, links. destruct (nbrs None (seq m) n) as [nd|] eqn:E.
  - destruct (nbrs_members _ _ _ _ E) as (H1 & H2). intros y [<-|Hy]; [exact Hn|].
    apply in_app_or in Hy as [Hy|Hy]; [exact (H1 y Hy)|exact (H2 y Hy)].
  - exfalso. apply in_split in Hn as (l1 & l2 & El). revert l1 El E. intros l1.
    assert (G : forall p l1, nbrs p (l1 ++ n :: l2) n <> None).
    { clear. intros p l1. revert p. induction l1 as [|x l1 IH]; intros p; cbn [app nbrs].
      - rewrite N.eqb_refl. discriminate.
      - destruct (N.eqb x n); [discriminate|apply IH]. }
    intros El E. rewrite El in E. exact (G _ _ E).
Qed.
Lemma hd_members (l : list N) : incl (some (hd_error l)) l.
Proof. destruct l; intros y Hy; [destruct Hy|]. destruct Hy as [<-|[]]. left. reflexivity. Qed.
Lemma hd_rev_members (l : list N) : incl (some (hd_error (rev l))) l.
Proof. intros y Hy. apply in_rev. exact (hd_members (rev l) y Hy). Qed.
Lemma near_members pol nodes m op m' o : seq_step pol nodes m op = Some (m', o) -> incl (near m op) (given op ++ seq m).
Proof.
  intros Hs y Hy. apply in_or_app.
  destruct op as [n|n|[p|] n| | |n| | | | | | |n]; cbn [near given] in *; cbn [seq_step] in Hs; try (destruct Hy as [<-|Hy]; [left; left; reflexivity|]);
    try (destruct Hy; fail).
  - right. exact (hd_members _ y Hy).
  - right. exact (hd_rev_members _ y Hy).
  - right. destruct (insertable pol nodes m n); [|discriminate]. destruct (mem p (seq m)) eqn:Ep; [|discriminate]. apply mem_In in Ep.
    apply (links_members m p Ep). destruct Hy as [<-|Hy]; [left; reflexivity|]. right. apply in_or_app. left. exact Hy.
  - right. exact (hd_rev_members _ y Hy).
  - right. destruct (seq m) as [|n r] eqn:El; [destruct Hy|]. rewrite <- El. apply (links_members m n); [rewrite El; left; reflexivity|exact Hy].
  - right. destruct (rev (seq m)) as [|n r] eqn:El; [destruct Hy|]. apply (links_members m n); [|exact Hy].
    apply in_rev. rewrite El. left. reflexivity.
  - destruct (mem n (seq m)) eqn:En; [|discriminate]. apply mem_In in En. right. exact (links_members m n En y Hy).
Qed.
Lemma sweep_members pol m op a : In a (sweep pol m op) -> In (node_of a) (seq m).
Proof.
  destruct op; cbn [sweep]; try (intros []; fail).
  - destruct pol; [|intros []]. intros H. apply in_flat_map in H as (n & Hn & H).
    destruct H as [<-|[<-|[<-|[]]]]; exact Hn.
  - intros H. apply in_map_iff in H as (n & <- & Hn). exact Hn.
  - intros H. apply in_map_iff in H as (n & <- & Hn). apply in_rev. exact Hn.
Qed.
Lemma list_own pol hd h ops m outs op m' o :
  spec_run (seq_step pol (len h)) (l_spec_init h) ops = Some (m, outs) -> seq_step pol (len h) m op = Some (m', o) ->
  exists s, run (l_step pol hd) (l_init h) ops = Done s outs [] /\
  forall a, In a (snd (t_step pol hd s op)) -> In (node_of a) (given op ++ seq m).
Proof.
  intros H Hs. destruct (list_accesses pol hd h ops m outs op m' o H Hs) as (s & E & T). exists s. split; [exact E|].
  intros a Ha. destruct (long op).
  - rewrite T in Ha. apply in_or_app. right. exact (sweep_members pol m op a Ha).
  - exact (near_members pol _ m op m' o Hs _ (T a Ha)).
Qed.
Lemma forward_own pol hd h ops m outs op m' o :
  spec_run (fseq_step pol (len h)) (f_spec_init h) ops = Some (m, outs) -> fseq_step pol (len h) m op = Some (m', o) ->
  exists s, run (f_step pol hd) (f_init h) ops = Done s outs [] /\
  forall a, In a (snd (ft_step pol hd s op)) -> In (node_of a) (f_given op ++ fseq m).
Proof.
  intros H Hs. destruct (forward_accesses pol hd h ops m outs op m' o H Hs) as (s & E & T). exists s. split; [exact E|].
  intros a Ha. apply in_or_app. destruct op as [n|n| | | | | | |n]; cbn [f_long f_near f_sweep f_given] in *.
  - left. exact (T a Ha).
  - destruct (T a Ha) as [Y|Y]; [left; left; exact Y|right; exact (hd_rev_members _ _ Y)].
  - right. exact (hd_members _ _ (T a Ha)).
  - right. rewrite T in Ha. destruct pol; [|destruct Ha]. apply in_flat_map in Ha as (n & Hn & Ha). destruct Ha as [<-|[<-|[]]]; exact Hn.
  - destruct (T a Ha).
  - destruct (T a Ha).
  - destruct (T a Ha).
  - right. rewrite T in Ha. apply in_map_iff in Ha as (n & <- & Hn). exact Hn.
  - left. exact (T a Ha).
Qed.
