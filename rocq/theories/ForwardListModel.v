(** Model of stdx::intrusive_forward_list (include/stdx/intrusive_forward_list.hpp) with the
    node policies (include/stdx/detail/list_common.hpp).  A node of this list has a next
    pointer only; the memory is the list of the nodes' next pointers.  Dereferencing null
    is undefined behaviour; so is (a simplification) a traversal that never ends, detected
    with one unit of fuel per node. *)
From Verif Require Import Base IntrusiveListModel.
Open Scope ub_scope.

(** intrusive_forward_list.hpp:57-58. *)
Record flist := { fhead : ptr; ftail : ptr; nexts : list ptr }.

Definition get_next (h : list ptr) (p : ptr) : option ptr :=
  match p with Some a => rd h a | None => None end.
Definition put_next (h : list ptr) (p v : ptr) : option (list ptr) :=
  match p with Some a => wr h a v | None => None end.

(** intrusive_forward_list.hpp:60-67. *)
Definition f_push_front (s : flist) (n : ptr) : option flist :=
  h <- put_next (nexts s) n (fhead s);;
  Some {| fhead := n; ftail := if is_null (ftail s) then n else ftail s; nexts := h |}.

(** intrusive_forward_list.hpp:69-79. *)
Definition f_push_back (s : flist) (n : ptr) : option flist :=
  h <- (if is_null (ftail s) then Some (nexts s) else put_next (nexts s) (ftail s) n);;
  h <- put_next h n None;;
  Some {| fhead := if is_null (fhead s) then n else fhead s; ftail := n; nexts := h |}.

(** list_common.hpp:48-55 (no prev pointer). *)
Definition f_valid (h : list ptr) (n : ptr) : option bool :=
  x <- get_next h n;; Some (is_null x).

(** list_common.hpp:82-88, :114. *)
Definition f_on_pop (pol : policy) (h : list ptr) (n : ptr) : option (list ptr) :=
  match pol with Checked => put_next h n None | Unchecked => Some h end.

(** list_common.hpp:90-98, :115. *)
Fixpoint f_clear_loop (fuel : nat) (h : list ptr) (p : ptr) : option (list ptr) :=
  match p with
  | None => Some h
  | Some _ =>
      match fuel with
      | O => None
      | S f => x <- get_next h p;; h <- put_next h p None;; f_clear_loop f h x
      end
  end.
Definition f_on_clear (pol : policy) (h : list ptr) (p : ptr) : option (list ptr) :=
  match pol with Checked => f_clear_loop (length h) h p | Unchecked => Some h end.

(** intrusive_forward_list.hpp:103-114. *)
Definition f_pop_front (pol : policy) (s : flist) : option (flist * ptr) :=
  x <- get_next (nexts s) (fhead s);;
  h <- f_on_pop pol (nexts s) (fhead s);;
  Some ({| fhead := x; ftail := if is_null x then None else ftail s; nexts := h |}, fhead s).

(** intrusive_forward_list.hpp:120-124. *)
Definition f_clear (pol : policy) (s : flist) : option flist :=
  h <- f_on_clear pol (nexts s) (fhead s);;
  Some {| fhead := None; ftail := None; nexts := h |}.

(** Iteration, :28-31 and :82-91. *)
Fixpoint f_walk (fuel : nat) (h : list ptr) (p : ptr) : option (list N) :=
  match p with
  | None => Some []
  | Some a =>
      match fuel with
      | O => None
      | S f => x <- get_next h p;; l <- f_walk f h x;; Some (a :: l)
      end
  end.

Inductive f_op :=
| FPushFront (n : N) | FPushBack (n : N) | FPopFront | FClear
| FEmpty | FFront | FBack | FItems | FNext (n : N).
Inductive f_out := FUnit | FNode (n : N) | FBool (b : bool) | FList (l : list N) | FPtr (p : ptr).

(** list_common.hpp:58-72, :101-109. *)
Definition f_check (pol : policy) (hd : handler) (s : flist) (n : N)
  (body : option flist) : outcome l_panic flist f_out :=
  let go ps := match body with Some s' => Done s' FUnit ps | None => Undef end in
  match pol with
  | Unchecked => go []
  | Checked =>
      match f_valid (nexts s) (Some n) with
      | None => Undef
      | Some true => go []
      | Some false =>
          match hd with DoesNotReturn => Stopped s BadListNode | Returns => go [BadListNode] end
      end
  end.

Definition f_step (pol : policy) (hd : handler) (s : flist) (op : f_op)
  : outcome l_panic flist f_out :=
  match op with
  | FPushFront n => f_check pol hd s n (f_push_front s (Some n)) (* :96-98 *)
  | FPushBack n => f_check pol hd s n (f_push_back s (Some n)) (* :99-101 *)
  | FPopFront =>
      ret (r <- f_pop_front pol s;; let '(s', p) := r in a <- p;; Some (s', FNode a))
  | FClear => ret (s' <- f_clear pol s;; Some (s', FUnit))
  | FEmpty => Done s (FBool (is_null (fhead s))) [] (* :116 *)
  | FFront => ret (a <- fhead s;; x <- get_next (nexts s) (fhead s);; Some (s, FNode a)) (* :93 *)
  | FBack => ret (a <- ftail s;; x <- get_next (nexts s) (ftail s);; Some (s, FNode a)) (* :94 *)
  | FItems => ret (l <- f_walk (length (nexts s)) (nexts s) (fhead s);; Some (s, FList l))
  | FNext n => ret (x <- get_next (nexts s) (Some n);; Some (s, FPtr x))
  end.

Definition f_init (h : list ptr) : flist := {| fhead := None; ftail := None; nexts := h |}.
