(** What a user expects if calls are refused by an exception: they did nothing. *)
From Verif Require Import Base CxQueueModel CxQueueSpec IntrusiveListModel PoolModel MixModel MixSpec CaughtModel.
Open Scope N_scope.

(** A FIFO list with a policy: the policy is told how many elements there are.  [None]: the
    policy lets through what cannot be done. *)
Definition fifo_with {A W} (pol : overflow_policy W) (cap : N) (s : W * list A) (op : q_op A) : option ((W * list A) * option (q_out A)) :=
  let '(w, l) := s in
  let '(w', allowed) :=
    match op with
    | Push _ | PushSet _ _ => on_push pol w (len l) cap
    | Pop | Front | Back | SetFront _ | SetBack _ => on_pop pol w (len l)
    | Clear | Size | Empty | Full => (w, true)
    end in
  if allowed
  then match fifo_step cap l op with Some (l', o) => Some ((w', l'), Some o) | None => None end
  else Some ((w', l), None).

(** The policy lets nothing through that cannot be done: it may well refuse more. *)
Definition protects {W} (pol : overflow_policy W) (cap : N) : Prop :=
  (forall w, snd (on_push pol w cap cap) = false) /\ (forall w, snd (on_pop pol w 0) = false).

(** A FIFO list of which a call that cannot be done is refused. *)
Definition fifo_refuse {A} (cap : N) (l : list A) (op : q_op A) : option (list A * option (q_out A)) :=
  match fifo_step cap l op with
  | Some (l', o) => Some (l', Some o)
  | None => Some (l, None)
  end.

(** Lists over shared nodes: a call is as for plain lists, or it puts a node into a list although
    the node is visibly in one; then it is refused and nothing changes. *)
Inductive lists_refuse (kinds : list kind) (nodes : N) : list (list N) -> list (N * l_op) -> list (list N) -> list (option l_out) -> Prop :=
| done ls : lists_refuse kinds nodes ls [] ls []
| accepted ls op ls1 x ops ls2 xs :
    mix_lists kinds nodes ls op = Some (ls1, x) -> lists_refuse kinds nodes ls1 ops ls2 xs ->
    lists_refuse kinds nodes ls (op :: ops) ls2 (Some x :: xs)
| refused ls i k op n j kj l ops ls2 xs :
    rd kinds i = Some k -> n < nodes ->
    op = LPushFront n \/ op = LPushBack n \/ k = Double /\ (exists it, op = LInsert it n) ->
    rd kinds j = Some kj -> rd ls j = Some l -> noticed kj l n ->
    lists_refuse kinds nodes ls ops ls2 xs ->
    lists_refuse kinds nodes ls ((i, op) :: ops) ls2 (None :: xs).
