(** Model of include/stdx/algorithm.hpp and of transform_reduce in include/stdx/numeric.hpp.

    There are any number of containers; [size_of r] is the number of elements of container
    [r].  An iterator is a container and a position in it; it may be dereferenced and
    incremented only before the end, otherwise the behaviour is undefined ([None]).  Functions
    get references (container, position) and work on a world [W] that holds every element,
    their own state and anything else, so they may change elements and have side effects; they
    cannot change the size of a container.  Loops are cut off after more iterations than the
    container has elements, which no defined execution reaches.  A count [n] is a mathematical
    integer (decrementing it does not overflow). *)
From Verif Require Import Base.
Open Scope ub_scope.

Definition iter := (N * N)%type.

Section Algorithm.
Context {W B T : Type}.
Variable size_of : N -> N.
Variable op : W -> list iter -> W * B.
Variable store : W -> iter -> B -> W.         (* *it = b *)

Definition deref (it : iter) : option iter := if (snd it <? size_of (fst it))%N then Some it else None.
Definition next (it : iter) : option iter := if (snd it <? size_of (fst it))%N then Some (fst it, snd it + 1)%N else None.
Fixpoint all {X} (f : iter -> option X) (l : list iter) : option (list X) :=
  match l with [] => Some [] | x :: r => y <- f x;; ys <- all f r;; Some (y :: ys) end.
Definition iter_eq (x y : iter) : bool := (fst x =? fst y)%N && (snd x =? snd y)%N.
Definition fuel (first : iter) : nat := S (N.to_nat (size_of (fst first))).

(** algorithm.hpp:17-28 (the body of the loop, and the loop). *)
Definition transform_body (w : W) (d first : iter) (firsts : list iter) : option (W * iter * iter * list iter) :=
  args <- all deref (first :: firsts);;
  let (w1, b) := op w args in
  dr <- deref d;;
  let w2 := store w1 dr b in
  f <- next first;; fs <- all next firsts;; d' <- next d;; Some (w2, d', f, fs).
Fixpoint transform_loop (k : nat) (w : W) (d first last : iter) (firsts : list iter) : option (W * iter * iter * list iter) :=
  if iter_eq first last then Some (w, d, first, firsts)
  else match k with
       | O => None
       | S k' => x <- transform_body w d first firsts;;
                 let '(w', d', f, fs) := x in transform_loop k' w' d' f last fs
       end.
Definition transform (w : W) (first last d : iter) (firsts : list iter) := transform_loop (fuel first) w d first last firsts.

(** algorithm.hpp:30-41. *)
Fixpoint transform_n_loop (k : nat) (w : W) (d first : iter) (n : Z) (firsts : list iter) : option (W * iter * iter * list iter) :=
  if (n >? 0)%Z then
    match k with
    | O => None
    | S k' => x <- transform_body w d first firsts;;
              let '(w', d', f, fs) := x in transform_n_loop k' w' d' f (n - 1) fs
    end
  else Some (w, d, first, firsts).
Definition transform_n (w : W) (first : iter) (n : Z) (d : iter) (firsts : list iter) := transform_n_loop (fuel first) w d first n firsts.

(** algorithm.hpp:46-55. *)
Definition each_body (w : W) (first : iter) (firsts : list iter) : option (W * iter * list iter) :=
  args <- all deref (first :: firsts);;
  let w1 := fst (op w args) in
  f <- next first;; fs <- all next firsts;; Some (w1, f, fs).
Fixpoint for_each_loop (k : nat) (w : W) (first last : iter) (firsts : list iter) : option (W * iter * list iter) :=
  if iter_eq first last then Some (w, first, firsts)
  else match k with
       | O => None
       | S k' => x <- each_body w first firsts;; let '(w', f, fs) := x in for_each_loop k' w' f last fs
       end.
(** The result holds the advanced iterators of the further ranges only. *)
Definition for_each (w : W) (first last : iter) (firsts : list iter) : option (W * list iter) :=
  x <- for_each_loop (fuel first) w first last firsts;; Some (fst (fst x), snd x).

(** algorithm.hpp:57-67. *)
Fixpoint for_each_n_loop (k : nat) (w : W) (first : iter) (n : Z) (firsts : list iter) : option (W * iter * list iter) :=
  if (n >? 0)%Z then
    match k with
    | O => None
    | S k' => x <- each_body w first firsts;; let '(w', f, fs) := x in for_each_n_loop k' w' f (n - 1) fs
    end
  else Some (w, first, firsts).
Definition for_each_n (w : W) (first : iter) (n : Z) (firsts : list iter) := for_each_n_loop (fuel first) w first n firsts.

(** algorithm.hpp:75-81: advance by [n] but not past the end. *)
Fixpoint advance_upto (k : nat) (adv last : iter) (n : Z) : option iter :=
  if (0 <? n)%Z then
    if iter_eq adv last then Some adv
    else match k with
         | O => None
         | S k' => a <- next adv;; advance_upto k' a last (n - 1)
         end
  else Some adv.
(** algorithm.hpp:83-88. *)
Fixpoint lag_loop (k : nat) (w : W) (adv first last : iter) (firsts : list iter) : option (W * iter * list iter) :=
  if iter_eq adv last then Some (w, first, firsts)
  else match k with
       | O => None
       | S k' => x <- each_body w first firsts;; let '(w', f, fs) := x in
                 a <- next adv;; lag_loop k' w' a f last fs
       end.
(** algorithm.hpp:70-89: forward iterators. *)
Definition butlastn_forward (w : W) (first last : iter) (n : Z) (firsts : list iter) : option (W * iter * list iter) :=
  adv <- advance_upto (fuel first) first last n;; lag_loop (fuel first) w adv first last firsts.
(** std::ptrdiff_t: conversion to it, and the values it can hold. *)
Definition to_ptrdiff (n : Z) : Z := ((n + 2 ^ 63) mod 2 ^ 64 - 2 ^ 63)%Z.
Definition ptrdiff (n : Z) : option Z := if ((- 2 ^ 63 <=? n) && (n <? 2 ^ 63))%Z then Some n else None.
(** algorithm.hpp:91-97: random access iterators. *)
Definition butlastn_random (w : W) (first last : iter) (n : Z) (firsts : list iter) : option (W * iter * list iter) :=
  sz <- ptrdiff (Z.of_N (snd last) - Z.of_N (snd first))%Z;;
  m <- ptrdiff (sz - to_ptrdiff n)%Z;;
  for_each_n w first m firsts.
(** algorithm.hpp:100-106, 108-112. *)
Definition for_each_butlastn (random : bool) := if random then butlastn_random else butlastn_forward.
Definition for_each_butlast (random : bool) (w : W) (first last : iter) (firsts : list iter) :=
  for_each_butlastn random w first last 1 firsts.
End Algorithm.

(** algorithm.hpp:114-126; the operations return nothing of interest. *)
Definition initial_medial_final {W} (size_of : N -> N) (iop mop fop : W -> list iter -> W * unit) (random : bool)
  (w : W) (first last : iter) : option W :=
  if iter_eq first last then Some w
  else
    x <- deref size_of first;;
    let w1 := fst (iop w [x]) in
    f <- next size_of first;;
    r <- for_each_butlast size_of mop random w1 f last [];;
    let '(w2, it, _) := r in
    if iter_eq it last then Some w2
    else y <- deref size_of it;; Some (fst (fop w2 [y])).

Section Numeric.
Context {W B T : Type}.
Variable size_of : N -> N.
Variable top : W -> list iter -> W * B.
Variable rop : W -> T -> B -> W * T.

Definition reduce_body (w : W) (init : T) (first : iter) (firsts : list iter) : option (W * T * iter * list iter) :=
  args <- all (deref size_of) (first :: firsts);;
  let (w1, b) := top w args in
  let (w2, t) := rop w1 init b in
  f <- next size_of first;; fs <- all (next size_of) firsts;; Some (w2, t, f, fs).
(** numeric.hpp:12-22. *)
Fixpoint reduce_loop (k : nat) (w : W) (init : T) (first last : iter) (firsts : list iter) : option (W * T) :=
  if iter_eq first last then Some (w, init)
  else match k with
       | O => None
       | S k' => x <- reduce_body w init first firsts;; let '(w', t, f, fs) := x in reduce_loop k' w' t f last fs
       end.
Definition transform_reduce (w : W) (first last : iter) (init : T) (firsts : list iter) := reduce_loop (fuel size_of first) w init first last firsts.
(** numeric.hpp:24-34: the loop runs while n-- != 0. *)
Fixpoint reduce_n_loop (k : nat) (w : W) (init : T) (first : iter) (n : Z) (firsts : list iter) : option (W * T) :=
  if (n =? 0)%Z then Some (w, init)
  else match k with
       | O => None
       | S k' => x <- reduce_body w init first firsts;; let '(w', t, f, fs) := x in reduce_n_loop k' w' t f (n - 1) fs
       end.
Definition transform_reduce_n (w : W) (first : iter) (n : Z) (init : T) (firsts : list iter) := reduce_n_loop (fuel size_of first) w init first n firsts.
End Numeric.
