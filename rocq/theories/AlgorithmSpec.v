(** What the iterator algorithms do, as folds over positions. *)
From Verif Require Import Base AlgorithmModel.

(** The iterator [i] positions further on. *)
Definition shift (i : nat) (it : iter) : iter := (fst it, (snd it + N.of_nat i)%N).
(** Every range has at least [n] elements from its iterator on. *)
Definition available (size_of : N -> N) (n : nat) (its : list iter) : Prop :=
  Forall (fun it => (snd it + N.of_nat n <= size_of (fst it))%N) its.
(** The arguments of the [i]-th call: the [i]-th element of every range. *)
Definition args (its : list iter) (i : nat) : list iter := map (shift i) its.
(** The effect of the calls for positions 0, 1, ..., n-1, in that order. *)
Definition calls {W B} (op : W -> list iter -> W * B) (its : list iter) (n : nat) (w : W) : W :=
  fold_left (fun w i => fst (op w (args its i))) (seq 0 n) w.
(** ... with the result of the [i]-th call stored at the [i]-th position from [d]. *)
Definition stores {W B} (op : W -> list iter -> W * B) (store : W -> iter -> B -> W) (its : list iter) (d : iter) (n : nat) (w : W) : W :=
  fold_left (fun w i => store (fst (op w (args its i))) (shift i d) (snd (op w (args its i)))) (seq 0 n) w.
(** ... with the results combined from the left. *)
Definition reduces {W B T} (top : W -> list iter -> W * B) (rop : W -> T -> B -> W * T) (its : list iter) (n : nat) (w : W) (init : T) : W * T :=
  fold_left (fun s i => rop (fst (top (fst s) (args its i))) (snd s) (snd (top (fst s) (args its i)))) (seq 0 n) (w, init).

(** Worlds that are just the elements, and functions of the values of the arguments. *)
Definition elements (A : Type) := N -> N -> A.
Definition put {A} (m : elements A) (it : iter) (v : A) : elements A :=
  fun r i => if (r =? fst it)%N && (i =? snd it)%N then v else m r i.
Definition pure_op {A B} (f : list A -> B) : elements A -> list iter -> elements A * B :=
  fun m l => (m, f (map (fun it => m (fst it) (snd it)) l)).
(** Writing from [d] on does not overwrite elements of a range before they are read. *)
Definition reads_first (d : iter) (n : nat) (it : iter) : Prop :=
  fst it <> fst d \/ (snd d <= snd it)%N \/ (snd it + N.of_nat n <= snd d)%N.
