(** Model of the algorithms when a function given to them throws: include/stdx/algorithm.hpp,
    transform_reduce in include/stdx/numeric.hpp, the tuple algorithms of
    include/stdx/tuple_algorithms.hpp and tuple.hpp, for_each_n_args.hpp, make_array of array.hpp
    and template_for_each of type_traits.hpp.  None of them catches anything.

    A call gives the world after it and its result, or no result if it throws.  Iterators do not
    throw.  The results of earlier calls that a braced initializer has already built are destroyed
    in reverse order [except.ctor]; [drop] is what a destructor does.  [None]: undefined behaviour,
    or a program that does not compile. *)
From Verif Require Import Base AlgorithmModel.
From Verif Require TupleModel ArgsModel.
Open Scope ub_scope.

Inductive ended (A : Type) := Returned (a : A) | Threw.
Arguments Returned {A}. Arguments Threw {A}.
(** What comes next is done only if what came before has returned. *)
Definition next_if {W A C} (x : option (W * ended A)) (k : W -> A -> option (W * ended C)) : option (W * ended C) :=
  match x with
  | Some (w, Returned a) => k w a
  | Some (w, Threw) => Some (w, Threw)
  | None => None
  end.
Definition called {W B} (r : W * option B) : option (W * ended B) :=
  Some (fst r, match snd r with Some b => Returned b | None => Threw end).

(** ** algorithm.hpp *)
Section Algorithm.
Context {W B : Type}.
Variable size_of : N -> N.
Variable op : W -> list iter -> W * option B.
Variable store : W -> iter -> B -> W * option unit.     (* *it = b *)

(** algorithm.hpp:17-28: the right side of the assignment is evaluated first. *)
Definition transform_body (w : W) (d first : iter) (firsts : list iter) : option (W * ended (iter * iter * list iter)) :=
  args <- all (deref size_of) (first :: firsts);;
  next_if (called (op w args)) (fun w1 b =>
    dr <- deref size_of d;;
    next_if (called (store w1 dr b)) (fun w2 _ =>
      f <- next size_of first;; fs <- all (next size_of) firsts;; d' <- next size_of d;; Some (w2, Returned (d', f, fs)))).
Fixpoint transform_loop (k : nat) (w : W) (d first last : iter) (firsts : list iter) : option (W * ended (iter * iter * list iter)) :=
  if iter_eq first last then Some (w, Returned (d, first, firsts))
  else match k with
       | O => None
       | S k' => next_if (transform_body w d first firsts) (fun w' x => let '(d', f, fs) := x in transform_loop k' w' d' f last fs)
       end.
Definition transform (w : W) (first last d : iter) (firsts : list iter) := transform_loop (fuel size_of first) w d first last firsts.
(** algorithm.hpp:30-41. *)
Fixpoint transform_n_loop (k : nat) (w : W) (d first : iter) (n : Z) (firsts : list iter) : option (W * ended (iter * iter * list iter)) :=
  if (n >? 0)%Z then
    match k with
    | O => None
    | S k' => next_if (transform_body w d first firsts) (fun w' x => let '(d', f, fs) := x in transform_n_loop k' w' d' f (n - 1) fs)
    end
  else Some (w, Returned (d, first, firsts)).
Definition transform_n (w : W) (first : iter) (n : Z) (d : iter) (firsts : list iter) := transform_n_loop (fuel size_of first) w d first n firsts.

(** algorithm.hpp:46-55. *)
Definition each_body (w : W) (first : iter) (firsts : list iter) : option (W * ended (iter * list iter)) :=
  args <- all (deref size_of) (first :: firsts);;
  next_if (called (op w args)) (fun w1 _ =>
    f <- next size_of first;; fs <- all (next size_of) firsts;; Some (w1, Returned (f, fs))).
Fixpoint for_each_loop (k : nat) (w : W) (first last : iter) (firsts : list iter) : option (W * ended (iter * list iter)) :=
  if iter_eq first last then Some (w, Returned (first, firsts))
  else match k with
       | O => None
       | S k' => next_if (each_body w first firsts) (fun w' x => for_each_loop k' w' (fst x) last (snd x))
       end.
(** The result holds the advanced iterators of the further ranges only. *)
Definition for_each (w : W) (first last : iter) (firsts : list iter) : option (W * ended (list iter)) :=
  next_if (for_each_loop (fuel size_of first) w first last firsts) (fun w x => Some (w, Returned (snd x))).
(** algorithm.hpp:57-67. *)
Fixpoint for_each_n_loop (k : nat) (w : W) (first : iter) (n : Z) (firsts : list iter) : option (W * ended (iter * list iter)) :=
  if (n >? 0)%Z then
    match k with
    | O => None
    | S k' => next_if (each_body w first firsts) (fun w' x => for_each_n_loop k' w' (fst x) (n - 1) (snd x))
    end
  else Some (w, Returned (first, firsts)).
Definition for_each_n (w : W) (first : iter) (n : Z) (firsts : list iter) := for_each_n_loop (fuel size_of first) w first n firsts.
(** algorithm.hpp:83-88. *)
Fixpoint lag_loop (k : nat) (w : W) (adv first last : iter) (firsts : list iter) : option (W * ended (iter * list iter)) :=
  if iter_eq adv last then Some (w, Returned (first, firsts))
  else match k with
       | O => None
       | S k' => next_if (each_body w first firsts) (fun w' x => a <- next size_of adv;; lag_loop k' w' a (fst x) last (snd x))
       end.
(** algorithm.hpp:70-89. *)
Definition butlastn_forward (w : W) (first last : iter) (n : Z) (firsts : list iter) : option (W * ended (iter * list iter)) :=
  adv <- advance_upto size_of (fuel size_of first) first last n;; lag_loop (fuel size_of first) w adv first last firsts.
(** algorithm.hpp:91-97. *)
Definition butlastn_random (w : W) (first last : iter) (n : Z) (firsts : list iter) : option (W * ended (iter * list iter)) :=
  sz <- ptrdiff (Z.of_N (snd last) - Z.of_N (snd first))%Z;;
  m <- ptrdiff (sz - to_ptrdiff n)%Z;;
  for_each_n w first m firsts.
(** algorithm.hpp:100-112. *)
Definition for_each_butlastn (random : bool) := if random then butlastn_random else butlastn_forward.
Definition for_each_butlast (random : bool) (w : W) (first last : iter) (firsts : list iter) :=
  for_each_butlastn random w first last 1 firsts.
End Algorithm.
(** algorithm.hpp:114-126. *)
Definition initial_medial_final {W} (size_of : N -> N) (iop mop fop : W -> list iter -> W * option unit) (random : bool)
  (w : W) (first last : iter) : option (W * ended unit) :=
  if iter_eq first last then Some (w, Returned tt)
  else
    x <- deref size_of first;;
    next_if (called (iop w [x])) (fun w1 _ =>
      f <- next size_of first;;
      next_if (for_each_butlast size_of mop random w1 f last []) (fun w2 r =>
        if iter_eq (fst r) last then Some (w2, Returned tt)
        else y <- deref size_of (fst r);; called (fop w2 [y]))).

Section Numeric.
Context {W B T : Type}.
Variable size_of : N -> N.
Variable top : W -> list iter -> W * option B.
Variable rop : W -> T -> B -> W * option T.
Definition reduce_body (w : W) (init : T) (first : iter) (firsts : list iter) : option (W * ended (T * iter * list iter)) :=
  args <- all (deref size_of) (first :: firsts);;
  next_if (called (top w args)) (fun w1 b =>
    next_if (called (rop w1 init b)) (fun w2 t =>
      f <- next size_of first;; fs <- all (next size_of) firsts;; Some (w2, Returned (t, f, fs)))).
(** numeric.hpp:12-22. *)
Fixpoint reduce_loop (k : nat) (w : W) (init : T) (first last : iter) (firsts : list iter) : option (W * ended T) :=
  if iter_eq first last then Some (w, Returned init)
  else match k with
       | O => None
       | S k' => next_if (reduce_body w init first firsts) (fun w' x => let '(t, f, fs) := x in reduce_loop k' w' t f last fs)
       end.
Definition transform_reduce (w : W) (first last : iter) (init : T) (firsts : list iter) := reduce_loop (fuel size_of first) w init first last firsts.
(** numeric.hpp:24-34. *)
Fixpoint reduce_n_loop (k : nat) (w : W) (init : T) (first : iter) (n : Z) (firsts : list iter) : option (W * ended T) :=
  if (n =? 0)%Z then Some (w, Returned init)
  else match k with
       | O => None
       | S k' => next_if (reduce_body w init first firsts) (fun w' x => let '(t, f, fs) := x in reduce_n_loop k' w' t f (n - 1) fs)
       end.
Definition transform_reduce_n (w : W) (first : iter) (n : Z) (init : T) (firsts : list iter) := reduce_n_loop (fuel size_of first) w init first n firsts.
End Numeric.

(** ** Pack expansions *)
Section Packs.
Context {W X R : Type}.
Variable f : W -> X -> W * option R.
(** (f(xs), ...) *)
Fixpoint comma_fold (w : W) (xs : list X) : W * ended unit :=
  match xs with
  | [] => (w, Returned tt)
  | x :: xs => match f w x with
               | (w', Some _) => comma_fold w' xs
               | (w', None) => (w', Threw)
               end
  end.
(** T{f(xs)...}: the results built so far are destroyed if a call throws, the last one first.
    [built]: those of the calls before, last first. *)
Variable drop : W -> R -> W.
Fixpoint braces (w : W) (built : list R) (xs : list X) : W * ended (list R) :=
  match xs with
  | [] => (w, Returned (rev built))
  | x :: xs => match f w x with
               | (w', Some r) => braces w' (r :: built) xs
               | (w', None) => (fold_left drop built w', Threw)
               end
  end.
End Packs.
(** (... and f(rows)) and (... or f(rows)). *)
Fixpoint until_fold {W X} (stop : bool) (f : W -> X -> W * option bool) (w : W) (xs : list X) : W * ended bool :=
  match xs with
  | [] => (w, Returned (negb stop))
  | x :: xs => match f w x with
               | (w', Some b) => if Bool.eqb b stop then (w', Returned stop) else until_fold stop f w' xs
               | (w', None) => (w', Threw)
               end
  end.

(** ** Tuples *)
Section Tuple.
Context {W E R : Type}.
Variable op : W -> list E -> W * option R.
Variable drop : W -> R -> W.
(** tuple_algorithms.hpp:181-200, without index functions. *)
Definition tuple_transform (w : W) (ts : list (list E)) : option (W * ended (list R)) :=
  rows <- TupleModel.pack (TupleModel.zip_length ts) (TupleModel.args_at ts);; Some (braces op drop w [] rows).
(** tuple_algorithms.hpp:202-225. *)
Definition tuple_for_each (w : W) (ts : list (list E)) : option (W * ended unit) :=
  rows <- TupleModel.pack (TupleModel.zip_length ts) (TupleModel.args_at ts);; Some (comma_fold op w rows).
(** for_each_n_args.hpp:19-27, 31-50. *)
Definition for_each_n_args (n arity : nat) (w : W) (args : list E) : option (W * ended unit) :=
  let batch_size := if n =? 0 then arity else n in
  if batch_size =? 0 then None
  else if length args mod batch_size =? 0 then
    rows <- TupleModel.pack (length args / batch_size) (fun r => ArgsModel.exec batch_size args (r * batch_size));;
    Some (comma_fold op w rows)
  else None.
End Tuple.
(** tuple_algorithms.hpp:227-256. *)
Definition tuple_enumerate {W E R} (op : W -> nat -> list E -> W * option R) (w : W) (ts : list (list E)) : option (W * ended unit) :=
  rows <- TupleModel.pack (TupleModel.zip_length ts) (fun i => r <- TupleModel.args_at ts i;; Some (i, r));;
  Some (comma_fold (fun w ir => op w (fst ir) (snd ir)) w rows).
(** tuple_algorithms.hpp:258-315. *)
Definition tuple_all_of {W E} (f : W -> list E -> W * option bool) (w : W) (ts : list (list E)) : option (W * ended bool) :=
  rows <- TupleModel.pack (TupleModel.zip_length ts) (TupleModel.args_at ts);; Some (until_fold false f w rows).
Definition tuple_any_of {W E} (f : W -> list E -> W * option bool) (w : W) (ts : list (list E)) : option (W * ended bool) :=
  rows <- TupleModel.pack (TupleModel.zip_length ts) (TupleModel.args_at ts);; Some (until_fold true f w rows).
Definition tuple_none_of {W E} (f : W -> list E -> W * option bool) (w : W) (ts : list (list E)) : option (W * ended bool) :=
  next_if (tuple_any_of f w ts) (fun w b => Some (w, Returned (negb b))).

Section Folds.
Context {W V : Type}.
Variable op : W -> V -> V -> W * option V.
(** (init + ... + pack) and (pack + ... + init): tuple.hpp:198-224, 118-135. *)
Fixpoint fold_l (w : W) (acc : V) (l : list V) : W * ended V :=
  match l with
  | [] => (w, Returned acc)
  | x :: l => match op w acc x with (w', Some v) => fold_l w' v l | (w', None) => (w', Threw) end
  end.
Fixpoint fold_r (w : W) (l : list V) (init : V) : W * ended V :=
  match l with
  | [] => (w, Returned init)
  | x :: l => match fold_r w l init with
              | (w', Returned v) => match op w' x v with (w2, Some v') => (w2, Returned v') | (w2, None) => (w2, Threw) end
              | (w', Threw) => (w', Threw)
              end
  end.
Definition tuple_fold_left (w : W) (t : list V) (init : V) : option (W * ended V) :=
  vs <- TupleModel.pack (TupleModel.tuple_size t) (TupleModel.get t);; Some (fold_l w init vs).
Definition tuple_fold_right (w : W) (t : list V) (init : V) : option (W * ended V) :=
  vs <- TupleModel.pack (TupleModel.tuple_size t) (TupleModel.get t);; Some (fold_r w vs init).
(** tuple.hpp:304-317. *)
Definition tuple_join (w : W) (t : list V) : option (W * ended V) :=
  vs <- TupleModel.pack (TupleModel.tuple_size t) (TupleModel.get t);;
  match vs with [] => None | x :: r => Some (fold_l w x r) end.
End Folds.

(** array.hpp:32-41 (the types are those of SeqModel.v and are left out), type_traits.hpp:124-145. *)
Definition make_array {W I R} (f : W -> I -> W * option R) (drop : W -> R -> W) (w : W) (is : list I) : W * ended (list R) := braces f drop w [] is.
Definition template_for_each {W I R} (f : W -> I -> W * option R) (w : W) (l : list I) : W * ended unit := comma_fold f w l.
