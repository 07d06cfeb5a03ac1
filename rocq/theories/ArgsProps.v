(** C46 for_each_n_args and the binders. *)
From Verif Require Import Base BaseLemmas TupleModel TupleSpec ArgsModel ArgsProofs.

(** The arguments are cut into consecutive batches and the function is called on each in
    order; N = 0 stands for the arity of the function. *)
Theorem C46_batches : forall W A R (f : W -> list A -> W * R) n arity w args,
  let c := if n =? 0 then arity else n in
  c > 0 -> length args mod c = 0 ->
  exists bs w' rs, for_each_n_args f n arity w args = Some w' /\
    concat bs = args /\ Forall (fun b => length b = c) bs /\ calls f w bs w' rs.
Proof. intros W A R f n arity w args c. apply batches_ok. Qed.
Print Assumptions C46_batches.
Theorem C46_batches_unique : forall A c (bs ds : list (list A)), c > 0 -> concat bs = concat ds ->
  Forall (fun b => length b = c) bs -> Forall (fun b => length b = c) ds -> bs = ds.
Proof. intros A c bs ds. apply (cuts_unique (W := unit) (R := unit) (fun w _ => (w, tt))). Qed.
Print Assumptions C46_batches_unique.
(** Otherwise it does not compile. *)
Theorem C46_uneven : forall W A R (f : W -> list A -> W * R) n arity w args,
  let c := if n =? 0 then arity else n in
  c = 0 \/ length args mod c <> 0 -> for_each_n_args f n arity w args = None.
Proof. intros W A R f n arity w args c. apply batches_bad. Qed.
Print Assumptions C46_uneven.
Theorem C46_bind : forall W A R (f : W -> list A -> W * R) bound w args,
  bind_front f bound w args = Some (f w (bound ++ args)) /\ bind_back f bound w args = Some (f w (args ++ bound)).
Proof. intros W A R f bound w args. split; [apply bind_front_ok|apply bind_back_ok]. Qed.
Print Assumptions C46_bind.
Example C46_example : for_each_n_args (fun w b => (w ++ [b], tt)) 2 9 [] [1; 2; 3; 4; 5; 6] = Some [[1; 2]; [3; 4]; [5; 6]] /\
  for_each_n_args (fun w b => (w ++ [b], tt)) 0 3 [] [1; 2; 3; 4; 5; 6] = Some [[1; 2; 3]; [4; 5; 6]] /\
  for_each_n_args (fun w b => (w ++ [b], tt)) 4 3 [] [1; 2; 3; 4; 5; 6] = None /\
  bind_front (fun w xs => (w, xs)) [1; 2] tt [3] = Some (tt, [1; 2; 3]) /\ bind_back (fun w xs => (w, xs)) [1; 2] tt [3] = Some (tt, [3; 1; 2]).
Proof. repeat split. Qed.
