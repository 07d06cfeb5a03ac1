(** What a user expects of environments: lists of bindings in which the first one counts. *)
From Verif Require Import Base EnvModel.

Section Spec.
Context {V Q : Type}.
Variable kind : V -> Q.
Variable same : Q -> Q -> bool.

(** The bindings of an environment, innermost first; nested environments in place. *)
Fixpoint bindings (e : entry V) : list (V * V) :=
  match e with
  | CtProp k v => [(k, v)]
  | Env es => (fix all l := match l with [] => [] | x :: r => bindings x ++ all r end) es
  end.
(** The value of the first binding of [q]. *)
Definition first_binding (q : Q) (bs : list (V * V)) : option V :=
  match find (fun kv => same q (kind (fst kv))) bs with Some kv => Some (snd kv) | None => None end.
(** The pairs query, value, query, value, ... of make_env_t's arguments. *)
Fixpoint pairs (args : list V) : list (V * V) :=
  match args with k :: v :: r => (k, v) :: pairs r | _ => [] end.
(** Environments made with the library: make_env_t is extending the empty one. *)
Inductive built : list (entry V) -> Prop :=
| built_empty : built []
| built_extend es args es' : built es -> extend_env kind same es args = Some es' -> built es'
| built_append ess es' : Forall built ess -> append_env kind same ess = Some es' -> built es'.
(** The answer of the last of several environments that has one. *)
Definition last_answer (q : Q) (ess : list (list (entry V))) : option V :=
  List.fold_left (fun acc es => match first_binding q (bindings (Env es)) with Some v => Some v | None => acc end) ess None.
End Spec.
