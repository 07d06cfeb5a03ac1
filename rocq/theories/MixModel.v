(** Model of stdx::intrusive_list and stdx::intrusive_forward_list objects, each with its own
    node policy, over one memory of nodes that have both a prev and a next pointer
    (include/stdx/intrusive_list.hpp, include/stdx/intrusive_forward_list.hpp,
    include/stdx/detail/list_common.hpp).  The operations of an intrusive_list are those of
    IntrusiveListModel.v; ForwardListModel.v has the forward list over nodes without a prev
    pointer, here the policy's has_prev_pointer branches (list_common.hpp:49-51, :84-86,
    :93-95) are taken, as in IntrusiveListModel.v. *)
From Verif Require Import Base IntrusiveListModel PoolModel.
Open Scope ub_scope.

Inductive kind := Double | Single.

(** intrusive_forward_list.hpp:60-67. *)
Definition fwd_push_front (s : ilist) (n : ptr) : option ilist :=
  h <- set_next (heap s) n (head s);;
  Some {| head := n; tail := if is_null (tail s) then n else tail s; heap := h |}.

(** intrusive_forward_list.hpp:69-79. *)
Definition fwd_push_back (s : ilist) (n : ptr) : option ilist :=
  h <- (if is_null (tail s) then Some (heap s) else set_next (heap s) (tail s) n);;
  h <- set_next h n None;;
  Some {| head := if is_null (head s) then n else head s; tail := n; heap := h |}.

(** intrusive_forward_list.hpp:102-113. *)
Definition fwd_pop_front (pol : policy) (s : ilist) : option (ilist * ptr) :=
  let popped := head s in
  nd <- get (heap s) (head s);;
  let hd := next nd in
  h <- on_pop pol (heap s) popped;;
  Some ({| head := hd; tail := if is_null hd then None else tail s; heap := h |}, popped).

(** intrusive_forward_list.hpp:93-100, :115-123.  The forward list has no insert, pop_back,
    remove or way back: such a program does not compile, which counts as undefined. *)
Definition fwd_step (pol : policy) (hd : handler) (s : ilist) (op : l_op) : outcome l_panic ilist l_out :=
  match op with
  | LPushFront n => with_check pol hd s n (fwd_push_front s (Some n))
  | LPushBack n => with_check pol hd s n (fwd_push_back s (Some n))
  | LPopFront => ret (r <- fwd_pop_front pol s;; let '(s', p) := r in a <- p;; Some (s', LNode a))
  | LClear => ret (h <- on_clear pol (heap s) (head s);; Some ({| head := None; tail := None; heap := h |}, LUnit))
  | LEmpty => Done s (LBool (is_null (head s))) []
  | LFront => ret (a <- head s;; nd <- get (heap s) (head s);; Some (s, LNode a))
  | LBack => ret (a <- tail s;; nd <- get (heap s) (tail s);; Some (s, LNode a))
  | LItems => ret (l <- walk next (length (heap s)) (heap s) (head s);; Some (s, LList l)) (* :28-31, :82 *)
  | LLinks n => ret (nd <- get (heap s) (Some n);; Some (s, LPair (prev nd) (next nd)))
  | LInsert _ _ | LPopBack | LRemove _ | LRItems => Undef
  end.

Definition kind_step (k : kind) := match k with Double => l_step | Single => fwd_step end.

(** Operation [o] on list [i]; [cfg] gives each list's class and policy.  PoolModel.v has the
    memory and the lists' two pointers. *)
Definition mix_step (cfg : list (kind * policy)) (hd : handler) (s : pool) (op : N * l_op) : outcome l_panic pool l_out :=
  let '(i, o) := op in
  match rd cfg i, rd (ends s) i with
  | Some (k, pol), Some e =>
      match kind_step k pol hd (as_list e (memory s)) o with
      | Done l x ps => match put_back s i l with Some s' => Done s' x ps | None => Undef end
      | Stopped l p => match put_back s i l with Some s' => Stopped s' p | None => Undef end
      | Undef => Undef
      end
  | _, _ => Undef
  end.
(** Empty lists, and k nodes with null links. *)
Definition mix_init (cfg : list (kind * policy)) (k : nat) : pool := p_init (length cfg) k.
