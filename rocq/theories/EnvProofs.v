From Verif Require Import Base BaseLemmas TupleModel TupleProofs EnvModel EnvSpec.
From Coq Require Import Permutation.

Section Proofs.
Context {V Q : Type}.
Variable kind : V -> Q.
Variable same : Q -> Q -> bool.
Notation valid := (valid kind same).
Notation ask := (ask kind same).
Notation first_binding := (first_binding kind same).

Fixpoint all_bindings (l : list (entry V)) : list (V * V) := match l with [] => [] | x :: r => bindings x ++ all_bindings r end.
Lemma bindings_env es : bindings (Env es) = all_bindings es.
Proof. cbn [bindings]. induction es as [|x r IH]; [reflexivity|]. cbn [all_bindings]. rewrite <- IH. reflexivity. Qed.
Lemma valid_env q es : valid q (Env es) = existsb (valid q) es.
Proof. cbn [EnvModel.valid]. induction es as [|x r IH]; [reflexivity|]. cbn [existsb]. rewrite <- IH. reflexivity. Qed.
Fixpoint ask_at (q : Q) (l : list (entry V)) (i : nat) : option V :=
  match l, i with [], _ => None | x :: _, 0 => ask q x | _ :: r, S i' => ask_at q r i' end.
Lemma ask_env q es : ask q (Env es) = if existsb (valid q) es then ask_at q es (mp_find_if (valid q) es) else None.
Proof.
  cbn [EnvModel.ask]. destruct (existsb (valid q) es); [|reflexivity]. generalize (mp_find_if (valid q) es). induction es as [|x r IH]; intros [|i]; try reflexivity. apply IH.
Qed.
Lemma first_binding_app q a b : first_binding q (a ++ b) = match first_binding q a with Some v => Some v | None => first_binding q b end.
Proof.
  unfold EnvSpec.first_binding. induction a as [|kv a IH]; [reflexivity|]. cbn [app find]. destruct (same q (kind (fst kv))); [reflexivity|exact IH].
Qed.
Definition has {X} (o : option X) : bool := match o with Some _ => true | None => false end.
Lemma ask_first : forall n e q, (fix size (e : entry V) := match e with CtProp _ _ => 1 | Env es => S ((fix go l := match l with [] => 0 | x :: r => size x + go r end) es) end) e < n ->
  ask q e = first_binding q (bindings e) /\ valid q e = has (first_binding q (bindings e)).
Proof.
  set (size := fix size (e : entry V) := match e with CtProp _ _ => 1 | Env es => S ((fix go l := match l with [] => 0 | x :: r => size x + go r end) es) end).
  induction n as [|n IH]; intros e q Hn; [lia|]. destruct e as [k v|es].
  - cbn. unfold EnvSpec.first_binding. cbn. destruct (same q (kind k)); split; reflexivity.
  - rewrite ask_env, valid_env, bindings_env. change (size (Env es)) with (S ((fix go l := match l with [] => 0 | x :: r => size x + go r end) es)) in Hn.
    assert (Hes : (fix go (l : list (entry V)) := match l with [] => 0 | x :: r => size x + go r end) es < n) by lia. clear Hn.
    induction es as [|x r IHr]; [split; reflexivity|]. 
    destruct (IH x q) as [A1 A2]; [lia|]. destruct IHr as [B1 B2]; [lia|]. cbn [existsb mp_find_if all_bindings]. rewrite first_binding_app.
    destruct (valid q x) eqn:Ev; cbn [orb ask_at].
    + rewrite <- A1. rewrite <- A1 in A2. destruct (ask q x); [split; reflexivity|discriminate].
    + destruct (first_binding q (bindings x)); [discriminate|]. split; assumption.
Qed.
Lemma query_ok es q : query kind same es q = first_binding q (bindings (Env es)).
Proof. unfold query. eapply ask_first. apply Nat.lt_succ_diag_r. Qed.
Lemma query_or_ok es q d : query_or kind same es q d = match first_binding q (bindings (Env es)) with Some v => v | None => d end.
Proof. unfold query_or. rewrite (proj1 (ask_first _ (Env es) q (Nat.lt_succ_diag_r _))). reflexivity. Qed.

(** ** Flat environments *)
Variable same_ok : forall x y, same x y = true <-> x = y.
Lemma existsb_map' {X} (f : X -> bool) l : existsb (fun b => b) (map f l) = existsb f l.
Proof. induction l as [|x l IH]; [reflexivity|]. cbn. rewrite IH. reflexivity. Qed.
Definition flat (bs : list (V * V)) : list (entry V) := map (fun kv => CtProp (fst kv) (snd kv)) bs.
Lemma bindings_flat bs : bindings (Env (flat bs)) = bs.
Proof. rewrite bindings_env. induction bs as [|[k v] bs IH]; [reflexivity|]. cbn [flat map all_bindings bindings fst snd app]. f_equal. exact IH. Qed.
Fixpoint uniq (seen l : list (V * V)) : list (V * V) :=
  match l with [] => seen | kv :: r => if existsb (fun s => same (kind (fst s)) (kind (fst kv))) seen then uniq seen r else uniq (seen ++ [kv]) r end.
Lemma unique_flat l : forall seen, mp_unique_if kind same (flat seen) (flat l) = Some (flat (uniq seen l)).
Proof.
  induction l as [|kv l IH]; intros seen; [reflexivity|]. cbn [flat map mp_unique_if uniq]. fold (flat l).
  assert (E : mapo (fun s => queries_equal kind same s (CtProp (fst kv) (snd kv))) (flat seen) = Some (map (fun s => same (kind (fst s)) (kind (fst kv))) seen)).
  { clear. induction seen as [|s seen IH]; [reflexivity|]. cbn [flat map mapo]. fold (flat seen). rewrite IH. reflexivity. }
  rewrite E. rewrite existsb_map'. destruct (existsb _ seen); [apply IH|]. specialize (IH (seen ++ [kv])). unfold flat in IH at 1. rewrite map_app in IH. exact IH.
Qed.
Lemma first_none q bs : first_binding q bs = None <-> forall kv, In kv bs -> kind (fst kv) <> q.
Proof.
  unfold EnvSpec.first_binding. induction bs as [|kv bs IH]; [cbn; tauto|]. cbn [find]. destruct (same q (kind (fst kv))) eqn:E.
  - split; [discriminate|]. intros H. apply same_ok in E. destruct (H kv (or_introl eq_refl)). congruence.
  - rewrite IH. split; [|intros H; intros; apply H; right; assumption]. intros H kv' [<-|Hin]; [|apply H; exact Hin]. intros K. symmetry in K. apply same_ok in K. congruence.
Qed.
Lemma uniq_first q l : forall seen, first_binding q (uniq seen l) = first_binding q (seen ++ l).
Proof.
  induction l as [|kv l IH]; intros seen; cbn [uniq]; [rewrite app_nil_r; reflexivity|]. destruct (existsb _ seen) eqn:E.
  - rewrite IH, !first_binding_app. destruct (first_binding q seen) eqn:F; [reflexivity|]. rewrite (first_binding_app q [kv] l : first_binding q (kv :: l) = _).
    assert (K : first_binding q [kv] = None); [|rewrite K; reflexivity]. apply first_none. intros kv' [<-|[]] Hk. 
    apply existsb_exists in E. destruct E as [s [Hs E]]. apply same_ok in E. rewrite first_none in F. apply (F s Hs). congruence.
  - rewrite IH, <- app_assoc. reflexivity.
Qed.
Definition distinct (bs : list (V * V)) : Prop := NoDup (map (fun kv => kind (fst kv)) bs).
Lemma uniq_distinct l : forall seen, distinct seen -> distinct (uniq seen l).
Proof.
  induction l as [|kv l IH]; intros seen D; cbn [uniq]; [exact D|]. destruct (existsb _ seen) eqn:E; [apply IH; exact D|]. apply IH.
  unfold distinct. rewrite map_app. cbn [map]. apply (Permutation_NoDup (l := kind (fst kv) :: map (fun kv => kind (fst kv)) seen)); [apply Permutation_cons_append|]. constructor; [|exact D]. intros Hin. apply in_map_iff in Hin. destruct Hin as [s [Hs Hin]].
  assert (existsb (fun s => same (kind (fst s)) (kind (fst kv))) seen = true) by (apply existsb_exists; exists s; split; [exact Hin|apply same_ok; exact Hs]). congruence.
Qed.
Lemma for_each_pair_ok args : for_each_pair (length args / 2) args = Some (flat (pairs args)).
Proof.
  assert (H : length (pairs args) = length args / 2 /\ forall i, i < length args / 2 -> exists k v, nth_error args (2 * i) = Some k /\ nth_error args (2 * i + 1) = Some v /\ nth_error (pairs args) i = Some (k, v)).
  { assert (G : forall n (args : list V), length args <= n -> length (pairs args) = length args / 2 /\ forall i, i < length args / 2 -> exists k v, nth_error args (2 * i) = Some k /\ nth_error args (2 * i + 1) = Some v /\ nth_error (pairs args) i = Some (k, v)).
    { clear. induction n as [|n IH]; intros args Hn.
      - destruct args; [|cbn in Hn; lia]. cbn. split; [reflexivity|intros i Hi; lia].
      - destruct args as [|k [|v r]]; [cbn; split; [reflexivity|intros i Hi; lia]|cbn; split; [reflexivity|intros i Hi; lia]|]. cbn [length] in *. destruct (IH r) as [IH1 IH2]; [lia|].
        replace (S (S (length r)) / 2) with (S (length r / 2)) by (change (S (S (length r))) with (2 + length r); rewrite Nat.add_comm; replace (length r + 2) with (length r + 1 * 2) by lia; rewrite Nat.div_add by lia; lia).
        split; [cbn [pairs length]; lia|]. intros [|i] Hi; [exists k, v; repeat split|]. destruct (IH2 i) as [k' [v' [H1 [H2 H3]]]]; [lia|]. exists k', v'.
        replace (2 * S i) with (S (S (2 * i))) by lia. split; [exact H1|]. split; [exact H2|exact H3]. }
    apply (G (length args)). lia. }
  destruct H as [H1 H2]. unfold for_each_pair. apply pack_ok; [unfold flat; rewrite map_length; exact H1|].
  intros i Hi. destruct (H2 i Hi) as [k [v [A [B C]]]]. rewrite A, B. unfold flat. rewrite nth_error_map, C. reflexivity.
Qed.
Lemma extend_flat bs args : extend_env kind same (flat bs) args = Some (flat (uniq [] (pairs args ++ bs))).
Proof. unfold extend_env. rewrite for_each_pair_ok. unfold flat at 1 2. rewrite <- map_app. apply (unique_flat _ []). Qed.
Lemma append_flat bss : append_env kind same (map flat bss) = Some (flat (uniq [] (rev (concat bss)))).
Proof. unfold append_env. rewrite <- (unique_flat _ []). change (flat []) with (@nil (entry V)). f_equal. unfold flat. rewrite map_rev, concat_map. reflexivity. Qed.
Fixpoint built_ok es (H : built kind same es) {struct H} : exists bs, es = flat bs /\ distinct bs.
Proof.
  destruct H as [|es args es' H He|ess es' H He].
  - exists []. split; [reflexivity|constructor].
  - destruct (built_ok es H) as [bs [-> D]]. rewrite extend_flat in He. injection He as <-. eexists. split; [reflexivity|]. apply uniq_distinct. constructor.
  - assert (G : exists bss, ess = map flat bss).
    { clear He. induction H as [|x l Hx _ IH]; [exists []; reflexivity|]. destruct (built_ok x Hx) as [bs [-> _]]. destruct IH as [bss ->]. exists (bs :: bss). reflexivity. }
    destruct G as [bss ->]. rewrite append_flat in He. injection He as <-. eexists. split; [reflexivity|]. apply uniq_distinct. constructor.
Qed.
Lemma built_compiles es args : built kind same es -> exists es', extend_env kind same es args = Some es'.
Proof. intros H. destruct (built_ok es H) as [bs [-> _]]. rewrite extend_flat. eauto. Qed.
Lemma built_flats ess : Forall (built kind same) ess -> exists bss, ess = map flat bss /\ Forall distinct bss.
Proof.
  induction 1 as [|x l Hx _ [bss [-> IH]]]; [exists []; split; [reflexivity|constructor]|]. destruct (built_ok x Hx) as [bs [-> D]]. exists (bs :: bss). split; [reflexivity|constructor; assumption].
Qed.
Lemma append_compiles ess : Forall (built kind same) ess -> exists es', append_env kind same ess = Some es'.
Proof. intros H. destruct (built_flats ess H) as [bss [-> _]]. rewrite append_flat. eauto. Qed.
Lemma extend_ok es args es' q : built kind same es -> extend_env kind same es args = Some es' ->
  query kind same es' q = match first_binding q (pairs args) with Some v => Some v | None => query kind same es q end.
Proof.
  intros H E. destruct (built_ok es H) as [bs [-> D]]. rewrite extend_flat in E. injection E as <-. rewrite !query_ok, !bindings_flat, uniq_first. cbn [app]. apply first_binding_app.
Qed.
Lemma rev_distinct q bs : distinct bs -> first_binding q (rev bs) = first_binding q bs.
Proof.
  induction bs as [|kv bs IH]; intros D; [reflexivity|]. unfold distinct in D. cbn [map] in D. apply NoDup_cons_iff in D. destruct D as [Hn D]. cbn [rev]. rewrite first_binding_app, IH by exact D.
  rewrite (first_binding_app q [kv] bs : first_binding q (kv :: bs) = _). destruct (first_binding q [kv]) eqn:E1; [|destruct (first_binding q bs); reflexivity].
  assert (E2 : first_binding q bs = None); [|rewrite E2; reflexivity]. apply first_none. intros kv' Hin K. apply Hn. apply in_map_iff. exists kv'. split; [|exact Hin]. rewrite K.
  unfold EnvSpec.first_binding in E1. cbn [find] in E1. destruct (same q (kind (fst kv))) eqn:S; [apply same_ok in S; exact S|discriminate].
Qed.
Lemma last_acc q ess : forall acc, List.fold_left (fun acc es => match first_binding q (bindings (Env es)) with Some v => Some v | None => acc end) ess acc
  = match last_answer kind same q ess with Some v => Some v | None => acc end.
Proof.
  unfold last_answer. induction ess as [|es ess IH]; intros acc; [reflexivity|]. cbn [List.fold_left]. rewrite IH. symmetry. rewrite IH.
  match goal with |- context [List.fold_left ?f ess None] => destruct (List.fold_left f ess None) end; [reflexivity|]. destruct (first_binding q (bindings (Env es))); reflexivity.
Qed.
Lemma append_ok ess es' q : Forall (built kind same) ess -> append_env kind same ess = Some es' -> query kind same es' q = last_answer kind same q ess.
Proof.
  intros H E. destruct (built_flats ess H) as [bss [-> D]]. rewrite append_flat in E. injection E as <-. rewrite query_ok, bindings_flat, uniq_first. cbn [app]. clear H.
  induction D as [|bs bss D _ IH]; [reflexivity|]. cbn [concat map]. rewrite rev_app_distr, first_binding_app, IH. unfold last_answer at 2. cbn [List.fold_left]. rewrite last_acc, bindings_flat.
  rewrite rev_distinct by exact D. destruct (last_answer kind same q (map flat bss)); [reflexivity|]. destruct (first_binding q bs); reflexivity.
Qed.
Lemma odd_dropped es args x : Nat.even (length args) = true -> extend_env kind same es (args ++ [x]) = extend_env kind same es args.
Proof.
  intros H. unfold extend_env. rewrite !for_each_pair_ok. 
  assert (P : pairs (args ++ [x]) = pairs args); [|rewrite P; reflexivity].
  assert (G : forall n (args : list V), length args <= n -> Nat.even (length args) = true -> pairs (args ++ [x]) = pairs args).
  { clear. induction n as [|n IH]; intros [|k [|v r]] Hn He; try reflexivity; try discriminate He; cbn [length] in Hn; [lia|]. cbn [app pairs]. rewrite IH; [reflexivity|lia|exact He]. }
  apply (G (length args)); [lia|exact H].
Qed.
End Proofs.
