(** Model of include/stdx/env.hpp.

    Values are template arguments; the query of a property is the type of its query value
    ([kind]).  A query is asked by calling [e.query(q)] on the environment: the model is for
    query objects whose call operator does this (as the tag-invocable queries in the
    documentation do), and for query types of which none converts to another; for those that do,
    [valid] and [ask] are used with the conversions in place of [same].  [None]: does not compile. *)
From Verif Require Import Base TupleModel.
Open Scope ub_scope.

Section Env.
Context {V Q : Type}.
Variable kind : V -> Q.                      (* std::remove_cvref_t<decltype(v)> *)
Variable same : Q -> Q -> bool.              (* std::is_same *)

(** ct_prop (env.hpp:12-18) and env (32-40); an env may hold further envs. *)
Inductive entry := CtProp (query value : V) | Env (entries : list entry).

(** valid_query_for, valid_query_over, has_query: env.hpp:20-29. *)
Fixpoint valid (q : Q) (e : entry) : bool :=
  match e with
  | CtProp k _ => same q (kind k)
  | Env es => (fix any l := match l with [] => false | x :: r => valid q x || any r end) es
  end.
(** mp_find_if: the first index, or the size. *)
Fixpoint mp_find_if (p : entry -> bool) (l : list entry) : nat :=
  match l with [] => 0 | x :: r => if p x then 0 else S (mp_find_if p r) end.
(** env.hpp:15-17 and 33-39. *)
Fixpoint ask (q : Q) (e : entry) : option V :=
  match e with
  | CtProp k v => if same q (kind k) then Some v else None
  | Env es =>
      if existsb (valid q) es then
        (fix at_ (l : list entry) (i : nat) : option V :=
           match l, i with [], _ => None | x :: _, 0 => ask q x | _ :: r, S i' => at_ r i' end) es (mp_find_if (valid q) es)
      else None
  end.
(** query<Env>(q): env.hpp:93-95, and with a default: 97-104. *)
Definition query (es : list entry) (q : Q) : option V := ask q (Env es).
Definition query_or (es : list entry) (q : Q) (d : V) : V := match ask q (Env es) with Some v => v | None => d end.

(** queries_equal: env.hpp:62-63; an env has no query_t. *)
Definition query_t (e : entry) : option Q := match e with CtProp k _ => Some (kind k) | Env _ => None end.
Definition queries_equal (a b : entry) : option bool := x <- query_t a;; y <- query_t b;; Some (same x y).
(** mp_unique_if: drops an element equal to one before it. *)
Fixpoint mp_unique_if (seen : list entry) (l : list entry) : option (list entry) :=
  match l with
  | [] => Some seen
  | x :: r => bs <- mapo (fun s => queries_equal s x) seen;;
              if existsb (fun b => b) bs then mp_unique_if seen r else mp_unique_if (seen ++ [x]) r
  end.
(** for_each_pair: env.hpp:65-70. *)
Definition for_each_pair (n : nat) (args : list V) : option (list entry) :=
  pack n (fun i => k <- nth_error args (2 * i);; v <- nth_error args (2 * i + 1);; Some (CtProp k v)).
(** make_env and extend_env_t: env.hpp:72-83. *)
Definition extend_env (es : list entry) (args : list V) : option (list entry) :=
  new_env <- for_each_pair (length args / 2) args;; mp_unique_if [] (new_env ++ es).
(** append_env_t: env.hpp:85-88. *)
Definition append_env (ess : list (list entry)) : option (list entry) := mp_unique_if [] (rev (concat ess)).
(** make_env_t: env.hpp:90-91. *)
Definition make_env (args : list V) : option (list entry) := extend_env [] args.
End Env.
Arguments entry : clear implicits.
