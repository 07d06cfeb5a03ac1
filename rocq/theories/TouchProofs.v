From Verif Require Import Base BaseLemmas IntrusiveListModel IntrusiveListSpec IntrusiveListProofs.
From Verif Require Import ForwardListModel ForwardListSpec ForwardListProofs TouchModel TouchSpec.
Open Scope N_scope.
Open Scope ub_scope.

(** ** Without the record the calls are those of the models *)
Definition plain {A} (r : traced A) : option A := option_map snd r.
Lemma plain_bind {A B} (a : traced A) (f : A -> traced B) :
  plain (tbind a f) = match plain a with Some x => plain (f x) | None => None end.
Proof.
  unfold plain, tbind. destruct a as [[t x]|]; cbn [option_map snd]; [|reflexivity].
  destruct (f x) as [[t' y]|]; reflexivity.
Qed.
Lemma plain_pure {A} (a : A) : plain (pure a) = Some a.
Proof. reflexivity. Qed.
Lemma plain_prev h p : plain (t_prev h p) = option_map prev (get h p).
Proof. destruct p as [a|]; cbn; [|reflexivity]. destruct (rd h a); reflexivity. Qed.
Lemma plain_next h p : plain (t_next h p) = option_map next (get h p).
Proof. destruct p as [a|]; cbn; [|reflexivity]. destruct (rd h a); reflexivity. Qed.
Lemma plain_set_prev h p v : plain (t_set_prev h p v) = set_prev h p v.
Proof. destruct p as [a|]; [|reflexivity]. unfold t_set_prev. destruct (set_prev h (Some a) v); reflexivity. Qed.
Lemma plain_set_next h p v : plain (t_set_next h p v) = set_next h p v.
Proof. destruct p as [a|]; [|reflexivity]. unfold t_set_next. destruct (set_next h (Some a) v); reflexivity. Qed.
Lemma plain_fnext h p : plain (ft_next h p) = get_next h p.
Proof. destruct p as [a|]; cbn; [|reflexivity]. destruct (rd h a); reflexivity. Qed.
Lemma plain_fset h p v : plain (ft_set h p v) = put_next h p v.
Proof. destruct p as [a|]; [|reflexivity]. unfold ft_set. destruct (put_next h (Some a) v); reflexivity. Qed.

Ltac plain_one :=
  rewrite ?plain_bind, ?plain_prev, ?plain_next, ?plain_set_prev, ?plain_set_next, ?plain_fnext, ?plain_fset, ?plain_pure;
  repeat match goal with |- context [plain (pure ?x)] => change (plain (pure x)) with (Some x) end;
  cbn [option_map]; cbn iota beta; try reflexivity.
Ltac plain_step := repeat (progress plain_one).
Ltac go := repeat (plain_step;
  match goal with
  | |- context [is_null ?p] => destruct (is_null p)
  | |- match ?x with Some _ => _ | None => None end = _ =>
      lazymatch x with match _ with Some _ => _ | None => None end => fail | option_map _ ?y => destruct y | _ => destruct x end
  | |- match ?x with Some _ => _ | None => None end = _ =>
      match x with context [match option_map _ ?y with Some _ => _ | None => None end] => destruct y
                 | context [match ?y with Some _ => _ | None => None end] => destruct y end
  end; cbn [option_map]; cbn iota beta; try reflexivity).

Lemma plain_push_front s n : plain (t_push_front s n) = unchecked_push_front s n.
Proof. unfold t_push_front, unchecked_push_front. go. Qed.
Lemma plain_push_back s n : plain (t_push_back s n) = unchecked_push_back s n.
Proof. unfold t_push_back, unchecked_push_back. go. Qed.
Lemma plain_insert s it n : plain (t_insert s it n) = unchecked_insert s it n.
Proof.
  unfold t_insert, unchecked_insert. rewrite plain_bind.
  assert (T : forall h tl,
    plain (q <~ t_prev h n;;
           if is_null q then pure {| head := n; tail := tl; heap := h |}
           else q <~ t_prev h n;; h <~ t_set_next h q n;; pure {| head := head s; tail := tl; heap := h |}) =
    (nd <- get h n;;
     if is_null (prev nd) then Some {| head := n; tail := tl; heap := h |}
     else h <- set_next h (prev nd) n;; Some {| head := head s; tail := tl; heap := h |})).
  { intros h tl. plain_step. destruct (get h n) as [nd|] eqn:G; [|reflexivity]. cbn [option_map].
    destruct (is_null (prev nd)); [reflexivity|]. plain_step. rewrite G. cbn [option_map].
    rewrite plain_bind, plain_set_next. destruct (set_next h (prev nd) n); reflexivity. }
  destruct (is_null it); plain_step.
  - destruct (set_prev (heap s) n (tail s)) as [h|]; [|reflexivity]. apply T.
  - destruct (set_next (heap s) n it) as [h|]; [|reflexivity]. plain_step.
    destruct (get h it) as [p|]; [|reflexivity]. plain_step.
    destruct (set_prev h n (prev p)) as [h1|]; [|reflexivity]. plain_step.
    destruct (set_prev h1 it n) as [h2|]; [|reflexivity]. apply T.
Qed.
Lemma plain_valid h n : plain (t_valid h n) = valid_for_push h n.
Proof.
  unfold t_valid, valid_for_push. rewrite plain_bind, plain_prev. destruct (get h n) as [nd|] eqn:G; [|reflexivity].
  cbn [option_map]. destruct (is_null (prev nd)); [|reflexivity]. rewrite plain_bind, plain_next, G. reflexivity.
Qed.
Lemma plain_on_pop pol h n : plain (t_on_pop pol h n) = on_pop pol h n.
Proof. destruct pol; unfold t_on_pop, on_pop; [|reflexivity]. go. Qed.
Lemma plain_clear_loop fuel : forall h p, plain (t_clear_loop fuel h p) = clear_loop fuel h p.
Proof.
  induction fuel as [|fuel IH]; intros h [a|]; try reflexivity. cbn [t_clear_loop clear_loop].
  plain_step. destruct (set_prev h (Some a) None); [|reflexivity]. plain_step.
  destruct (get l (Some a)); [|reflexivity]. plain_step. destruct (set_next l (Some a) None); [|reflexivity]. apply IH.
Qed.
Lemma plain_pop_front pol s : plain (t_pop_front pol s) = pop_front pol s.
Proof.
  unfold t_pop_front, pop_front. plain_step. destruct (get (heap s) (head s)); [|reflexivity]. cbn [option_map].
  destruct (is_null (next n)); plain_step; [|destruct (set_prev _ _ _); [|reflexivity]; plain_step];
    rewrite plain_on_pop; destruct (on_pop pol _ _); reflexivity.
Qed.
Lemma plain_pop_back pol s : plain (t_pop_back pol s) = pop_back pol s.
Proof.
  unfold t_pop_back, pop_back. plain_step. destruct (get (heap s) (tail s)); [|reflexivity]. cbn [option_map].
  destruct (is_null (prev n)); plain_step; [|destruct (set_next _ _ _); [|reflexivity]; plain_step];
    rewrite plain_on_pop; destruct (on_pop pol _ _); reflexivity.
Qed.
Lemma plain_clear pol s : plain (t_clear pol s) = clear pol s.
Proof.
  unfold t_clear, clear. plain_step.
  assert (E : plain (t_on_clear pol (heap s) (head s)) = on_clear pol (heap s) (head s))
    by (destruct pol; [apply plain_clear_loop|reflexivity]).
  rewrite E. destruct (on_clear pol (heap s) (head s)); reflexivity.
Qed.
Lemma plain_remove pol s n : plain (t_remove pol s n) = remove pol s n.
Proof.
  unfold t_remove, remove. plain_step. destruct (get (heap s) n) as [nd|] eqn:G; [|reflexivity]. plain_step.
  rewrite G. plain_step.
  destruct (is_null (prev nd)); plain_step; [|destruct (set_next _ _ _); [|reflexivity]; plain_step];
    (destruct (is_null (next nd)); plain_step; [|destruct (set_prev _ _ _); [|reflexivity]; plain_step]);
    rewrite plain_on_pop; destruct (on_pop pol _ _); reflexivity.
Qed.
Lemma plain_walk t_f f : (forall h p, plain (t_f h p) = option_map f (get h p)) ->
  forall fuel h p, plain (t_walk t_f fuel h p) = walk f fuel h p.
Proof.
  intros E. induction fuel as [|fuel IH]; intros h [a|]; try reflexivity. cbn [t_walk walk].
  plain_step. rewrite E. destruct (get h (Some a)) as [nd|]; [|reflexivity]. cbn [option_map]. plain_step. rewrite IH.
  destruct (walk f fuel h (f nd)); reflexivity.
Qed.
Lemma fst_ret {S} (r : traced (S * l_out)) : fst (t_ret r) = ret (plain r).
Proof. destruct r as [[t [s o]]|]; reflexivity. Qed.
Lemma fst_check pol hd s n body : fst (t_check pol hd s n body) = with_check pol hd s n (plain body).
Proof.
  unfold t_check, with_check. destruct pol; [|destruct body as [[t s']|]; reflexivity].
  rewrite <- plain_valid. destruct (t_valid (heap s) (Some n)) as [[t [|]]|]; cbn [plain option_map snd]; try reflexivity.
  - destruct body as [[t' s']|]; reflexivity.
  - destruct hd; [|reflexivity]. destruct body as [[t' s']|]; reflexivity.
Qed.
Lemma t_step_same pol hd s op : fst (t_step pol hd s op) = l_step pol hd s op.
Proof.
  destruct op as [n|n|it n| | |n| | | | | | |n]; cbn [t_step l_step]; rewrite ?fst_check, ?fst_ret; try reflexivity.
  - rewrite plain_push_front. reflexivity.
  - rewrite plain_push_back. reflexivity.
  - destruct (is_null (head s)); [rewrite plain_push_back|rewrite plain_insert]; reflexivity.
  - rewrite plain_bind, plain_pop_front. destruct (pop_front pol s) as [[s' [a|]]|]; reflexivity.
  - rewrite plain_bind, plain_pop_back. destruct (pop_back pol s) as [[s' [a|]]|]; reflexivity.
  - rewrite plain_bind, plain_remove. destruct (remove pol s (Some n)); reflexivity.
  - rewrite plain_bind, plain_clear. destruct (clear pol s); reflexivity.
  - destruct (head s) as [a|]; [|reflexivity]. destruct (get (heap s) (Some a)); reflexivity.
  - destruct (tail s) as [a|]; [|reflexivity]. destruct (get (heap s) (Some a)); reflexivity.
  - rewrite plain_bind, (plain_walk _ next plain_next). destruct (walk _ _ _ _); reflexivity.
  - rewrite plain_bind, (plain_walk _ prev plain_prev). destruct (walk _ _ _ _); reflexivity.
  - plain_step. destruct (get (heap s) (Some n)) eqn:G; [|reflexivity]. plain_step. rewrite G. reflexivity.
Qed.

(** The forward list. *)
Lemma plain_fpush_front s n : plain (ft_push_front s n) = f_push_front s n.
Proof. unfold ft_push_front, f_push_front. go. Qed.
Lemma plain_fpush_back s n : plain (ft_push_back s n) = f_push_back s n.
Proof. unfold ft_push_back, f_push_back. go. Qed.
Lemma plain_fon_pop pol h n : plain (ft_on_pop pol h n) = f_on_pop pol h n.
Proof. destruct pol; [apply plain_fset|reflexivity]. Qed.
Lemma plain_fpop pol s : plain (ft_pop_front pol s) = f_pop_front pol s.
Proof.
  unfold ft_pop_front, f_pop_front. plain_step. destruct (get_next (nexts s) (fhead s)); [|reflexivity]. plain_step.
  rewrite plain_fon_pop. destruct (f_on_pop pol _ _); reflexivity.
Qed.
Lemma plain_fclear_loop fuel : forall h p, plain (ft_clear_loop fuel h p) = f_clear_loop fuel h p.
Proof.
  induction fuel as [|fuel IH]; intros h [a|]; try reflexivity. cbn [ft_clear_loop f_clear_loop].
  plain_step. destruct (get_next h (Some a)); [|reflexivity]. plain_step.
  destruct (put_next h (Some a) None); [|reflexivity]. apply IH.
Qed.
Lemma plain_fclear pol s : plain (ft_clear pol s) = f_clear pol s.
Proof.
  unfold ft_clear, f_clear. plain_step.
  assert (E : plain (ft_on_clear pol (nexts s) (fhead s)) = f_on_clear pol (nexts s) (fhead s))
    by (destruct pol; [apply plain_fclear_loop|reflexivity]).
  rewrite E. destruct (f_on_clear pol (nexts s) (fhead s)); reflexivity.
Qed.
Lemma plain_fwalk fuel : forall h p, plain (ft_walk fuel h p) = f_walk fuel h p.
Proof.
  induction fuel as [|fuel IH]; intros h [a|]; try reflexivity. cbn [ft_walk f_walk].
  plain_step. destruct (get_next h (Some a)) as [x|]; [|reflexivity]. plain_step. rewrite IH.
  destruct (f_walk fuel h x); reflexivity.
Qed.
Lemma fst_fret r : fst (ft_ret r) = ret (plain r).
Proof. destruct r as [[t [s o]]|]; reflexivity. Qed.
Lemma fst_fcheck pol hd s n body : fst (ft_check pol hd s n body) = f_check pol hd s n (plain body).
Proof.
  assert (V : plain (ft_valid (nexts s) (Some n)) = f_valid (nexts s) (Some n)).
  { unfold ft_valid, f_valid. go. }
  unfold ft_check, f_check. destruct pol; [|destruct body as [[t s']|]; reflexivity].
  rewrite <- V. destruct (ft_valid (nexts s) (Some n)) as [[t [|]]|]; cbn [plain option_map snd]; try reflexivity.
  - destruct body as [[t' s']|]; reflexivity.
  - destruct hd; [|reflexivity]. destruct body as [[t' s']|]; reflexivity.
Qed.
Lemma ft_step_same pol hd s op : fst (ft_step pol hd s op) = f_step pol hd s op.
Proof.
  destruct op as [n|n| | | | | | |n]; cbn [ft_step f_step]; rewrite ?fst_fcheck, ?fst_fret; try reflexivity.
  - rewrite plain_fpush_front. reflexivity.
  - rewrite plain_fpush_back. reflexivity.
  - rewrite plain_bind, plain_fpop. destruct (f_pop_front pol s) as [[s' [a|]]|]; reflexivity.
  - rewrite plain_bind, plain_fclear. destruct (f_clear pol s); reflexivity.
  - destruct (fhead s) as [a|]; [|reflexivity]. destruct (get_next (nexts s) (Some a)); reflexivity.
  - destruct (ftail s) as [a|]; [|reflexivity]. destruct (get_next (nexts s) (Some a)); reflexivity.
  - rewrite plain_bind, plain_fwalk. destruct (f_walk _ _ _); reflexivity.
  - rewrite plain_bind, plain_fnext. destruct (get_next (nexts s) (Some n)); reflexivity.
Qed.

(** ** How many accesses *)
Definition costs {A} (k : nat) (r : traced A) : Prop := forall t x, r = Some (t, x) -> (length t <= k)%nat.
Lemma c_pure {A} (a : A) : costs 0 (pure a).
Proof. intros t x E. injection E as <- <-. cbn. lia. Qed.
Lemma c_bind {A B} i j k (a : traced A) (f : A -> traced B) :
  costs i a -> (forall x, costs j (f x)) -> (i + j <= k)%nat -> costs k (tbind a f).
Proof.
  intros Ha Hf L t y E. unfold tbind in E. destruct a as [[t1 x]|]; [|discriminate].
  destruct (f x) as [[t2 z]|] eqn:F; [|discriminate]. injection E as <- <-.
  specialize (Ha t1 x eq_refl). specialize (Hf x t2 z F). rewrite app_length. lia.
Qed.
Lemma c_weak {A} i k (r : traced A) : costs i r -> (i <= k)%nat -> costs k r.
Proof. intros H L t x E. specialize (H t x E). lia. Qed.
Lemma c_none {A} k : costs k (@None (list access * A)).
Proof. intros t x E. discriminate. Qed.
Lemma c_if {A} k (b : bool) (x y : traced A) : costs k x -> costs k y -> costs k (if b then x else y).
Proof. destruct b; auto. Qed.
Ltac prim := intros t x E; match goal with p : ptr |- _ => destruct p as [a|]; [|discriminate E] end; cbv [t_prev t_next t_set_prev t_set_next ft_next ft_set] in E;
  match type of E with match ?y with _ => _ end = _ => destruct y; [|discriminate E] end; injection E as <- <-; cbn; lia.
Lemma c_prev h p : costs 1 (t_prev h p).
Proof. prim. Qed.
Lemma c_next h p : costs 1 (t_next h p).
Proof. prim. Qed.
Lemma c_set_prev h p v : costs 1 (t_set_prev h p v).
Proof.
  intros t x E. unfold t_set_prev in E. destruct p as [a|]; [|discriminate]. destruct (set_prev h (Some a) v); [|discriminate].
  injection E as <- <-. cbn. lia.
Qed.
Lemma c_set_next h p v : costs 1 (t_set_next h p v).
Proof.
  intros t x E. unfold t_set_next in E. destruct p as [a|]; [|discriminate]. destruct (set_next h (Some a) v); [|discriminate].
  injection E as <- <-. cbn. lia.
Qed.
Lemma c_fnext h p : costs 1 (ft_next h p).
Proof.
  intros t x E. unfold ft_next in E. destruct p as [a|]; [|discriminate]. destruct (get_next h (Some a)); [|discriminate].
  injection E as <- <-. cbn. lia.
Qed.
Lemma c_fset h p v : costs 1 (ft_set h p v).
Proof.
  intros t x E. unfold ft_set in E. destruct p as [a|]; [|discriminate]. destruct (put_next h (Some a) v); [|discriminate].
  injection E as <- <-. cbn. lia.
Qed.
Ltac at_most k := eapply (c_weak k); [|lia].
(** A conditional first access. *)
Lemma c_maybe {A} (b : bool) (a : A) (r : traced A) : costs 1 r -> costs 1 (if b then pure a else r).
Proof. intros H. destruct b; [|exact H]. apply (c_weak 0); [apply c_pure|lia]. Qed.
Ltac bind i j := apply (c_bind i j); [|intros|lia].
Lemma c_push_front s n : costs 3 (t_push_front s n).
Proof.
  unfold t_push_front. bind 1%nat 2%nat; [apply c_maybe, c_set_prev|]. bind 1%nat 1%nat; [apply c_set_next|].
  bind 1%nat 0%nat; [apply c_set_prev|apply c_pure].
Qed.
Lemma c_push_back s n : costs 3 (t_push_back s n).
Proof.
  unfold t_push_back. bind 1%nat 2%nat; [apply c_maybe, c_set_next|]. bind 1%nat 1%nat; [apply c_set_prev|].
  bind 1%nat 0%nat; [apply c_set_next|apply c_pure].
Qed.
Lemma c_insert s it n : costs 7 (t_insert s it n).
Proof.
  unfold t_insert. bind 4%nat 3%nat.
  - apply c_if.
    + bind 1%nat 3%nat; [apply c_set_prev|]. apply (c_weak 0); [apply c_pure|lia].
    + bind 1%nat 3%nat; [apply c_set_next|]. bind 1%nat 2%nat; [apply c_prev|]. bind 1%nat 1%nat; [apply c_set_prev|].
      bind 1%nat 0%nat; [apply c_set_prev|apply c_pure].
  - destruct x as [h tl]. bind 1%nat 2%nat; [apply c_prev|]. apply c_if; [apply (c_weak 0); [apply c_pure|lia]|].
    bind 1%nat 1%nat; [apply c_prev|]. bind 1%nat 0%nat; [apply c_set_next|apply c_pure].
Qed.
Lemma c_valid h n : costs 2 (t_valid h n).
Proof.
  unfold t_valid. bind 1%nat 1%nat; [apply c_prev|]. apply c_if; [|apply (c_weak 0); [apply c_pure|lia]].
  bind 1%nat 0%nat; [apply c_next|apply c_pure].
Qed.
Lemma c_on_pop pol h n : costs 2 (t_on_pop pol h n).
Proof.
  destruct pol; cbn [t_on_pop]; [|apply (c_weak 0); [apply c_pure|lia]].
  bind 1%nat 1%nat; [apply c_set_prev|apply c_set_next].
Qed.
Lemma c_pop_front pol s : costs 4 (t_pop_front pol s).
Proof.
  unfold t_pop_front. bind 1%nat 3%nat; [apply c_next|]. bind 1%nat 2%nat; [apply c_maybe, c_set_prev|].
  bind 2%nat 0%nat; [apply c_on_pop|apply c_pure].
Qed.
Lemma c_pop_back pol s : costs 4 (t_pop_back pol s).
Proof.
  unfold t_pop_back. bind 1%nat 3%nat; [apply c_prev|]. bind 1%nat 2%nat; [apply c_maybe, c_set_next|].
  bind 2%nat 0%nat; [apply c_on_pop|apply c_pure].
Qed.
Lemma c_remove pol s n : costs 6 (t_remove pol s n).
Proof.
  unfold t_remove. bind 1%nat 5%nat; [apply c_next|]. bind 1%nat 4%nat; [apply c_prev|].
  bind 1%nat 3%nat; [apply c_maybe, c_set_next|]. bind 1%nat 2%nat; [apply c_maybe, c_set_prev|].
  bind 2%nat 0%nat; [apply c_on_pop|apply c_pure].
Qed.
Lemma c_ret {S} k (r : traced (S * l_out)) : costs k r -> (length (snd (t_ret r)) <= k)%nat.
Proof. intros H. destruct r as [[t [s o]]|]; cbn; [exact (H t _ eq_refl)|lia]. Qed.
Lemma c_check pol hd s n k body : costs k body -> (length (snd (t_check pol hd s n body)) <= k + 2)%nat.
Proof.
  intros H. unfold t_check.
  assert (G : forall t ps, (length t <= 2)%nat ->
    (length (snd (match body with Some (t', s') => (Done s' LUnit ps, t ++ t') | None => (@Undef l_panic ilist l_out, []) end)) <= k + 2)%nat).
  { intros t ps L. destruct body as [[t' s']|]; cbn [snd]; [|cbn; lia]. rewrite app_length. specialize (H t' s' eq_refl). lia. }
  destruct pol; [|apply G; cbn; lia]. destruct (t_valid (heap s) (Some n)) as [[t b]|] eqn:V; [|cbn; lia].
  pose proof (c_valid _ _ _ _ V) as L. destruct b; [apply G; exact L|]. destruct hd; [apply G; exact L|]. cbn [snd]. lia.
Qed.
Lemma t_step_bounded pol hd s op : long op = false -> (length (snd (t_step pol hd s op)) <= 9)%nat.
Proof.
  assert (L : forall a b c : nat, (a <= b)%nat -> (b <= c)%nat -> (a <= c)%nat) by lia.
  destruct op as [n|n|it n| | |n| | | | | | |n]; intros Hl; try discriminate Hl; cbn [t_step].
  - eapply L; [apply c_check, c_push_front|lia].
  - eapply L; [apply c_check, c_push_back|lia].
  - eapply L; [apply (c_check pol hd s n 7)|lia]. apply c_if; [apply (c_weak 3); [apply c_push_back|lia]|apply c_insert].
  - eapply L; [apply (c_ret 4)|lia]. bind 4%nat 0%nat; [apply c_pop_front|].
    destruct x as [s' [a|]]; [apply c_pure|apply c_none].
  - eapply L; [apply (c_ret 4)|lia]. bind 4%nat 0%nat; [apply c_pop_back|].
    destruct x as [s' [a|]]; [apply c_pure|apply c_none].
  - eapply L; [apply (c_ret 6)|lia]. bind 6%nat 0%nat; [apply c_remove|apply c_pure].
  - cbn. lia.
  - destruct (head s) as [a|]; [|cbn; lia]. destruct (get (heap s) (Some a)); cbn; lia.
  - destruct (tail s) as [a|]; [|cbn; lia]. destruct (get (heap s) (Some a)); cbn; lia.
  - eapply L; [apply (c_ret 2)|lia]. bind 1%nat 1%nat; [apply c_prev|]. bind 1%nat 0%nat; [apply c_next|apply c_pure].
Qed.

Lemma c_fret k r : costs k r -> (length (snd (ft_ret r)) <= k)%nat.
Proof. intros H. destruct r as [[t [s o]]|]; cbn; [exact (H t _ eq_refl)|lia]. Qed.
Lemma c_fvalid h n : costs 1 (ft_valid h n).
Proof. unfold ft_valid. bind 1%nat 0%nat; [apply c_fnext|apply c_pure]. Qed.
Lemma c_fcheck pol hd s n k body : costs k body -> (length (snd (ft_check pol hd s n body)) <= k + 1)%nat.
Proof.
  intros H. unfold ft_check.
  assert (G : forall t ps, (length t <= 1)%nat ->
    (length (snd (match body with Some (t', s') => (Done s' FUnit ps, t ++ t') | None => (@Undef l_panic flist f_out, []) end)) <= k + 1)%nat).
  { intros t ps L. destruct body as [[t' s']|]; cbn [snd]; [|cbn; lia]. rewrite app_length. specialize (H t' s' eq_refl). lia. }
  destruct pol; [|apply G; cbn; lia]. destruct (ft_valid (nexts s) (Some n)) as [[t b]|] eqn:V; [|cbn; lia].
  pose proof (c_fvalid _ _ _ _ V) as L. destruct b; [apply G; exact L|]. destruct hd; [apply G; exact L|]. cbn [snd]. lia.
Qed.
Lemma ft_step_bounded pol hd s op : f_long op = false -> (length (snd (ft_step pol hd s op)) <= 3)%nat.
Proof.
  assert (L : forall a b c : nat, (a <= b)%nat -> (b <= c)%nat -> (a <= c)%nat) by lia.
  destruct op as [n|n| | | | | | |n]; intros Hl; try discriminate Hl; cbn [ft_step].
  - eapply L; [apply (c_fcheck pol hd s n 1)|lia]. unfold ft_push_front. bind 1%nat 0%nat; [apply c_fset|apply c_pure].
  - eapply L; [apply (c_fcheck pol hd s n 2)|lia]. unfold ft_push_back. bind 1%nat 1%nat; [apply c_maybe, c_fset|].
    bind 1%nat 0%nat; [apply c_fset|apply c_pure].
  - eapply L; [apply (c_fret 2)|lia]. bind 2%nat 0%nat; [|destruct x as [s' [a|]]; [apply c_pure|apply c_none]].
    unfold ft_pop_front. bind 1%nat 1%nat; [apply c_fnext|]. bind 1%nat 0%nat; [|apply c_pure].
    destruct pol; [apply c_fset|]. apply (c_weak 0); [apply c_pure|lia].
  - cbn. lia.
  - destruct (fhead s) as [a|]; [|cbn; lia]. destruct (get_next (nexts s) (Some a)); cbn; lia.
  - destruct (ftail s) as [a|]; [|cbn; lia]. destruct (get_next (nexts s) (Some a)); cbn; lia.
  - eapply L; [apply (c_fret 1)|lia]. bind 1%nat 0%nat; [apply c_fnext|apply c_pure].
Qed.
