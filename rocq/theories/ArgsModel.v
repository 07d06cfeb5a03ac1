(** Model of include/stdx/for_each_n_args.hpp and of the binders in include/stdx/functional.hpp.

    [None]: does not compile.  Functions work on a world, so the order of calls is observable. *)
From Verif Require Import Base TupleModel.
Open Scope ub_scope.

Section Args.
Context {W A R : Type}.
Variable f : W -> list A -> W * R.

(** exec: for_each_n_args.hpp:24-27. *)
Definition exec (columns : nat) (t : list A) (row_index : nat) : option (list A) :=
  pack columns (fun c => get t (row_index + c)).
(** for_each_n_args.hpp:19-21. *)
Definition apply_rows (rows columns : nat) (w : W) (t : list A) : option W :=
  calls <- pack rows (fun r => exec columns t (r * columns));; Some (fst (effects f w calls)).
(** for_each_n_args.hpp:31-50; [n] is the template argument N, [arity] that of the function.
    A remainder by 0 is not a constant expression. *)
Definition for_each_n_args (n arity : nat) (w : W) (args : list A) : option W :=
  let batch_size := if n =? 0 then arity else n in
  if batch_size =? 0 then None
  else if length args mod batch_size =? 0 then apply_rows (length args / batch_size) batch_size w args
  else None.

(** bind_front_t: functional.hpp:41-54 and 67-82 (the two differ in where f is kept). *)
Definition bind_front (bound : list A) (w : W) (args : list A) : option (W * R) :=
  bs <- pack (length bound) (get bound);; Some (f w (bs ++ args)).
(** bind_back_t: functional.hpp:97-110 and 123-138. *)
Definition bind_back (bound : list A) (w : W) (args : list A) : option (W * R) :=
  bs <- pack (length bound) (get bound);; Some (f w (args ++ bs)).
End Args.
