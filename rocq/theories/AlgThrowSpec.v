(** What is expected when a function given to an algorithm throws: the calls up to and including
    that one have been made, and nothing else happens. *)
From Verif Require Import Base AlgorithmModel AlgorithmSpec AlgThrowModel.

Definition returns {A} (x : option A) : bool := match x with Some _ => true | None => false end.

Section Rounds.
Context {S : Type}.
(** Round [i]: the state after it, and whether it returned. *)
Variable r : nat -> S -> S * bool.
(** The state after the rounds 0, 1, ..., n-1. *)
Definition after (n : nat) (s : S) : S := fold_left (fun s i => fst (r i s)) (seq 0 n) s.
(** [n] rounds from [s]: if round [k] is the first to throw, the outcome is that of the rounds
    0, ..., k and the exception; if none does, that of all of them. *)
Definition stops {W A} (n : nat) (s : S) (thrown : S -> W) (returned : S -> W * A) (res : option (W * ended A)) : Prop :=
  (forall k, k < n -> (forall i, i < k -> snd (r i (after i s)) = true) -> snd (r k (after k s)) = false ->
     res = Some (thrown (after (1 + k) s), Threw)) /\
  ((forall i, i < n -> snd (r i (after i s)) = true) ->
     res = Some (fst (returned (after n s)), Returned (snd (returned (after n s))))).
End Rounds.

(** A call for each position. *)
Definition each {W B} (op : W -> list iter -> W * option B) (its : list iter) (i : nat) (w : W) : W * bool :=
  let (w1, b) := op w (args its i) in (w1, returns b).
(** ... and then an assignment of the result. *)
Definition each_stored {W B} (op : W -> list iter -> W * option B) (store : W -> iter -> B -> W * option unit)
  (its : list iter) (d : iter) (i : nat) (w : W) : W * bool :=
  match op w (args its i) with
  | (w1, Some b) => let (w2, u) := store w1 (shift i d) b in (w2, returns u)
  | (w1, None) => (w1, false)
  end.
(** ... and then a call to combine the result with what there is. *)
Definition each_reduced {W B T} (top : W -> list iter -> W * option B) (rop : W -> T -> B -> W * option T)
  (its : list iter) (i : nat) (s : W * T) : W * T * bool :=
  match top (fst s) (args its i) with
  | (w1, Some b) => match rop w1 (snd s) b with
                    | (w2, Some t) => (w2, t, true)
                    | (w2, None) => (w2, snd s, false)
                    end
  | (w1, None) => (w1, snd s, false)
  end.
(** The first element, those between, and the last. *)
Definition initial_or_final {W} (iop mop fop : W -> list iter -> W * option unit) (first : iter) (n i : nat) (w : W) : W * bool :=
  let op := if i =? 0 then iop else if i =? n - 1 then fop else mop in
  let (w1, b) := op w [shift i first] in (w1, returns b).

(** ** Tuples *)
(** The [i]-th elements of the tuples, and the number of them: the length of the shortest. *)
Definition row {E} (ts : list (list E)) (i : nat) : list E :=
  flat_map (fun t => match nth_error t i with Some x => [x] | None => [] end) ts.
Definition shortest {E} (ts : list (list E)) (n : nat) : Prop :=
  Forall (fun t => n <= length t) ts /\ Exists (fun t => length t = n) ts.
Definition on_row {W E R} (op : W -> E -> W * option R) (rows : nat -> E) (i : nat) (w : W) : W * bool :=
  let (w1, b) := op w (rows i) in (w1, returns b).
(** Keeping the results, last first. *)
Definition keeping {W E R} (op : W -> E -> W * option R) (rows : nat -> E) (i : nat) (s : W * list R) : W * list R * bool :=
  match op (fst s) (rows i) with
  | (w1, Some r) => (w1, r :: snd s, true)
  | (w1, None) => (w1, snd s, false)
  end.
(** All of them are destroyed, last first. *)
Definition destroyed {W R} (drop : W -> R -> W) (s : W * list R) : W := fold_left drop (snd s) (fst s).
Definition kept {W R} (s : W * list R) : W * list R := (fst s, rev (snd s)).
(** Combining what there is with the next element. *)
Definition combining {W V} (op : W -> V -> V -> W * option V) (l : nat -> V) (i : nat) (s : W * V) : W * V * bool :=
  match op (fst s) (snd s) (l i) with
  | (w1, Some v) => (w1, v, true)
  | (w1, None) => (w1, snd s, false)
  end.
(** A search for the first answer [b]. *)
Definition searches {W E} (f : W -> E -> W * option bool) (rows : nat -> E) (b : bool) (n : nat) (w : W) (res : option (W * ended bool)) : Prop :=
  let before i := after (on_row f rows) i w in
  forall k, k <= n -> (forall i, i < k -> snd (f (before i) (rows i)) = Some (negb b)) ->
  (k = n -> res = Some (before n, Returned (negb b))) /\
  (k < n -> snd (f (before k) (rows k)) = Some b -> res = Some (before (1 + k), Returned b)) /\
  (k < n -> snd (f (before k) (rows k)) = None -> res = Some (before (1 + k), Threw)).
(** The [i]-th batch of [c] arguments. *)
Definition batch {E} (c : nat) (args : list E) (i : nat) : list E := firstn c (skipn (i * c) args).
