(** Model of include/stdx/call_by_need.hpp.

    Functions and arguments are any types; [ok f args] says whether f may be called with these
    arguments (std::invoke_result_t exists; it depends on types only, but any relation is
    allowed here).  [run] calls a function: it may change the world and returns a value or
    nothing (void).  An argument is what a function sees of it; MoveModel takes
    this model at references, to tell copies from moves.  [None]: does not compile. *)
From Verif Require Import Base TupleModel.
Open Scope ub_scope.

(** call_by_need.hpp:19-27. *)
Record call_info := Call { fn_idx : nat; arg_base : nat; arg_len : nat }.
Definition uses_arg (c : call_info) (n : nat) : bool := (arg_base c <=? n) && (n <? arg_base c + arg_len c).

(** call_by_need.hpp:29-34. *)
Definition truncate_array {X} (r : nat) (arr : list X) : option (list X) := pack r (nth_error arr).
(** call_by_need.hpp:36-43. *)
Definition concat2 {X} (a1 a2 : list X) : list X := a1 ++ a2.

Section ByNeed.
Context {F A W : Type}.
Variable ok : F -> list A -> bool.
Variable run : W -> F -> list A -> W * option A.
Variable fs : list F.
Variable args : list A.

(** The arguments Base, ..., Base + Len - 1. *)
Definition arg_slice (base l : nat) : option (list A) := pack l (fun i => get args (base + i)).
Definition state := (list call_info * nat)%type.           (* results, result_count *)

(** call_by_need.hpp:71-84. *)
Definition test (n base l : nat) (s : state) : option (bool * state) :=
  f <- get fs n;; xs <- arg_slice base l;;
  if ok f xs then r <- arr_put (fst s) (snd s) (Call n base l);; Some (true, (r, S (snd s)))
  else Some (false, s).
(** [(... or g(x))] over a list: stops at the first success. *)
Fixpoint or_search (g : nat -> state -> option (bool * state)) (xs : list nat) (s : state) : option (bool * state) :=
  match xs with
  | [] => Some (false, s)
  | x :: r => y <- g x s;; if fst y then Some y else or_search g r (snd y)
  end.
(** call_by_need.hpp:86-92. *)
Definition inner_loop (n base : nat) (s : state) : option (bool * state) :=
  let max_len := length args - base in
  or_search (fun l => test n base (max_len - l)) (seq 0 (max_len + 1)) s.
(** call_by_need.hpp:94-101. *)
Definition outer_loop (n : nat) (s : state) : option (bool * state) :=
  if length args =? 0 then test n 0 0 s else or_search (inner_loop n) (seq 0 (length args)) s.
(** call_by_need.hpp:103-107. *)
Fixpoint all_functions (ns : list nat) (s : state) : option state :=
  match ns with [] => Some s | n :: r => y <- outer_loop n s;; all_functions r (snd y) end.
Definition compute_call_info_impl : option state :=
  all_functions (seq 0 (length fs)) (repeat (Call 0 0 0) (length fs + length args), 0).

(** call_by_need.hpp:127-134. *)
Fixpoint find_unused (given : list call_info) (is : list nat) (s : state) : option state :=
  match is with
  | [] => Some s
  | i :: r => if forallb (fun c => negb (uses_arg c i)) given
              then a <- arr_put (fst s) (snd s) (Call (length fs) i 1);; find_unused given r (a, S (snd s))
              else find_unused given r s
  end.
(** call_by_need.hpp:110-142. *)
Definition compute_call_info : option (list call_info) :=
  cs <- compute_call_info_impl;; given <- truncate_array (snd cs) (fst cs);;
  if length given =? length fs then
    us <- find_unused given (seq 0 (length args)) (repeat (Call 0 0 0) (length args), 0);;
    extra <- truncate_array (snd us) (fst us);;
    Some (concat2 given extra)
  else None.

(** The functions and, last, safe_forward: call_by_need.hpp:145-147. *)
Inductive callee := User (f : F) | SafeForward.
(** Void results become void_t (call_by_need.hpp:49-63). *)
Definition invoke_callee (w : W) (f : callee) (xs : list A) : option (W * option A) :=
  match f with
  | User f => Some (run w f xs)
  | SafeForward => match xs with [x] => Some (w, Some x) | _ => None end
  end.
Fixpoint invoke_all (new_fs : list callee) (w : W) (calls : list call_info) : option (W * list (option A)) :=
  match calls with
  | [] => Some (w, [])
  | c :: r => f <- get new_fs (fn_idx c);; xs <- arg_slice (arg_base c) (arg_len c);;
              y <- invoke_callee w f xs;; z <- invoke_all new_fs (fst y) r;; Some (fst z, snd y :: snd z)
  end.
(** call_by_need.hpp:150-177.  [lvalue]: the tuple of functions is passed as an lvalue, so
    [Fs] is a reference type, for which tuple_size_v (165; type_traits.hpp:326-329) is 0. *)
Definition is_nonvoid (v : bool) : bool := negb v.
Definition call_by_need (lvalue : bool) (w : W) : option (W * list (option A)) :=
  calls <- compute_call_info;;
  fs' <- pack (if lvalue then 0 else length fs) (get fs);;
  let new_fs := map User fs' ++ [SafeForward] in
  ret <- invoke_all new_fs w calls;;
  r <- filter (fun x : option A => match x with None => true | Some _ => false end) is_nonvoid (snd ret);;
  Some (fst ret, r).
End ByNeed.
