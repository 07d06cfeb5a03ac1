(** C43 environments. *)
From Verif Require Import Base BaseLemmas TupleSpec EnvModel EnvSpec EnvProofs.

(** Any environment, nested ones and hand-made ones with repeated queries included. *)
Theorem C43_query : forall V Q (kind : V -> Q) same es q,
  query kind same es q = first_binding kind same q (bindings (Env es)).
Proof. intros V Q. exact query_ok. Qed.
Print Assumptions C43_query.
Theorem C43_query_default : forall V Q (kind : V -> Q) same es q d,
  query_or kind same es q d = match first_binding kind same q (bindings (Env es)) with Some v => v | None => d end.
Proof. intros V Q kind same es q d. now rewrite query_or_ok. Qed.
Print Assumptions C43_query_default.
Theorem C43_extend : forall V Q (kind : V -> Q) same es args, decides same -> built kind same es ->
  exists es', extend_env kind same es args = Some es' /\
  forall q, query kind same es' q = match first_binding kind same q (pairs args) with Some v => Some v | None => query kind same es q end.
Proof.
  intros V Q kind same es args D B. destruct (built_compiles kind same D es args B) as [es' E]. exists es'. split; [exact E|]. intros q. exact (extend_ok kind same D es args es' q B E).
Qed.
Print Assumptions C43_extend.
(** make_env_t of queries and values, in turn: the first value given for a query. *)
Theorem C43_make : forall V Q (kind : V -> Q) same args, decides same ->
  exists es, make_env kind same args = Some es /\ built kind same es /\
  forall q, query kind same es q = first_binding kind same q (pairs args).
Proof.
  intros V Q kind same args D. destruct (C43_extend V Q kind same [] args D (built_empty kind same)) as (es & E & H). exists es. split; [exact E|].
  split; [exact (built_extend kind same [] args es (built_empty kind same) E)|]. intros q. rewrite H. destruct (first_binding kind same q (pairs args)); reflexivity.
Qed.
Print Assumptions C43_make.
Theorem C43_append : forall V Q (kind : V -> Q) same ess, decides same -> Forall (built kind same) ess ->
  exists es', append_env kind same ess = Some es' /\ forall q, query kind same es' q = last_answer kind same q ess.
Proof.
  intros V Q kind same ess D B. destruct (append_compiles kind same D ess B) as [es' E]. exists es'. split; [exact E|]. intros q. exact (append_ok kind same D ess es' q B E).
Qed.
Print Assumptions C43_append.
(** A hand-made environment with a repeated query: appending it to nothing changes its answer. *)
Theorem C43_append_handmade_refuted : forall V Q (kind : V -> Q) same k v1 v2, decides same -> v1 <> v2 ->
  exists es', append_env kind same [[CtProp k v1; CtProp k v2]] = Some es' /\
  query kind same [CtProp k v1; CtProp k v2] (kind k) = Some v1 /\ query kind same es' (kind k) = Some v2.
Proof.
  intros V Q kind same k v1 v2 D _. assert (E : same (kind k) (kind k) = true) by (apply D; reflexivity).
  exists [CtProp k v2]. unfold append_env, query. cbn. rewrite !E. cbn. rewrite ?E. repeat split.
Qed.
Print Assumptions C43_append_handmade_refuted.
(** An odd number of arguments compiles: the last one is dropped. *)
Theorem C43_odd_arguments_dropped : forall V Q (kind : V -> Q) same es args x, decides same -> Nat.even (length args) = true ->
  extend_env kind same es (args ++ [x]) = extend_env kind same es args.
Proof. intros V Q kind same es args x D H. apply odd_dropped; assumption. Qed.
Print Assumptions C43_odd_arguments_dropped.
(** FINDING: ct_prop::query takes the query by value, so a query whose type converts to that of another, as a
    class derived from it does, is answered by a property of the other if that comes first, although
    the environment has a property for the query itself; [converts] decides who answers, [same] what is
    dropped as a repetition. In the other order it is answered by its own. *)
Theorem C43_derived_query_refuted : forall V Q (kind : V -> Q) same (converts : Q -> Q -> bool) base w derived v, decides same ->
  kind base <> kind derived -> converts (kind derived) (kind base) = true -> converts (kind derived) (kind derived) = true ->
  (exists es, make_env kind same [base; w; derived; v] = Some es /\ In (CtProp derived v) es /\
   query kind converts es (kind derived) = Some w) /\
  (exists es, make_env kind same [derived; v; base; w] = Some es /\ query kind converts es (kind derived) = Some v) /\
  (forall es, query kind converts (CtProp base w :: es) (kind derived) = Some w).
Proof.
  intros V Q kind same converts base w derived v D N C R.
  assert (A : same (kind base) (kind derived) = false) by (destruct (same (kind base) (kind derived)) eqn:E; [apply D in E; contradiction|reflexivity]).
  assert (B : same (kind derived) (kind base) = false) by (destruct (same (kind derived) (kind base)) eqn:E; [apply D in E; congruence|reflexivity]).
  split; [|split].
  - exists [CtProp base w; CtProp derived v]. unfold make_env, extend_env, query. cbn. rewrite A. cbn. rewrite ?C. cbn. rewrite ?C. auto 6.
  - exists [CtProp derived v; CtProp base w]. unfold make_env, extend_env, query. cbn. rewrite B. cbn. rewrite ?R. cbn. rewrite ?R. auto 6.
  - intros es. unfold query. cbn. rewrite ?C. cbn. now rewrite ?C.
Qed.
Print Assumptions C43_derived_query_refuted.
(** Values are (type, value). *)
Example C43_example : exists e1 e2 e3,
  make_env (@fst nat nat) Nat.eqb [(1, 0); (9, 10); (2, 0); (9, 20)] = Some e1 /\
  extend_env (@fst nat nat) Nat.eqb e1 [(1, 0); (9, 11)] = Some e2 /\
  append_env (@fst nat nat) Nat.eqb [e2; e1] = Some e3 /\
  query (@fst nat nat) Nat.eqb e2 1 = Some (9, 11) /\ query (@fst nat nat) Nat.eqb e2 2 = Some (9, 20) /\
  query (@fst nat nat) Nat.eqb e3 1 = Some (9, 10) /\ query (@fst nat nat) Nat.eqb e3 3 = None /\
  built (@fst nat nat) Nat.eqb e3.
Proof.
  set (p1 := CtProp (1, 0) (9, 10)). set (p2 := CtProp (2, 0) (9, 20)). set (p3 := CtProp (1, 0) (9, 11)).
  exists [p1; p2], [p3; p2], [p2; p1]. do 7 (split; [reflexivity|]).
  assert (B1 : built (@fst nat nat) Nat.eqb [p1; p2]) by (apply (built_extend _ _ [] [(1, 0); (9, 10); (2, 0); (9, 20)]); [apply built_empty|reflexivity]).
  apply (built_append _ _ [[p3; p2]; [p1; p2]]); [|reflexivity]. apply Forall_cons; [|apply Forall_cons; [exact B1|apply Forall_nil]].
  apply (built_extend _ _ [p1; p2] [(1, 0); (9, 11)]); [exact B1|reflexivity].
Qed.
Example C43_nested_example : query (@fst nat nat) Nat.eqb [CtProp (1, 0) (9, 1); Env [CtProp (1, 0) (9, 2); CtProp (2, 0) (9, 3)]] 2 = Some (9, 3).
Proof. reflexivity. Qed.
Example C43_derived_query_example :
  query (@fst nat nat) (fun q k => Nat.eqb q k || Nat.eqb q 2 && Nat.eqb k 1) [CtProp (1, 0) (9, 10); CtProp (2, 0) (9, 20)] 2 = Some (9, 10).
Proof. reflexivity. Qed.
