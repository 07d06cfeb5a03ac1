(** The accesses to nodes that the calls of stdx::intrusive_list and stdx::intrusive_forward_list make
    (include/stdx/intrusive_list.hpp, include/stdx/intrusive_forward_list.hpp, include/stdx/detail/list_common.hpp):
    the models of IntrusiveListModel and ForwardListModel again, with a record of every read and write of a prev or
    next pointer, in the order of the code.
    Simplification: an undefined call leaves no record; reading and writing the head and tail pointers of the list
    object itself is not recorded. *)
From Verif Require Import Base IntrusiveListModel ForwardListModel.
Open Scope ub_scope.

Inductive field := Prev | Next.
Inductive access := Read (n : N) (f : field) | Write (n : N) (f : field).

(** A computation that may be undefined, with the accesses it makes. *)
Definition traced (A : Type) := option (list access * A).
Definition pure {A} (a : A) : traced A := Some ([], a).
Definition tbind {A B} (a : traced A) (f : A -> traced B) : traced B :=
  r <- a;; let '(t, x) := r in
  r' <- f x;; let '(t', y) := r' in Some (t ++ t', y).
Notation "x <~ a ;; b" := (tbind a (fun x => b)) (at level 100, a at next level, right associativity).

(** [p->prev], [p->next], [p->prev = v], [p->next = v]. *)
Definition t_prev (h : list node) (p : ptr) : traced ptr :=
  a <- p;; nd <- get h p;; Some ([Read a Prev], prev nd).
Definition t_next (h : list node) (p : ptr) : traced ptr :=
  a <- p;; nd <- get h p;; Some ([Read a Next], next nd).
Definition t_set_prev (h : list node) (p v : ptr) : traced (list node) :=
  a <- p;; h' <- set_prev h p v;; Some ([Write a Prev], h').
Definition t_set_next (h : list node) (p v : ptr) : traced (list node) :=
  a <- p;; h' <- set_next h p v;; Some ([Write a Next], h').

(** intrusive_list.hpp:60-71. *)
Definition t_push_front (s : ilist) (n : ptr) : traced ilist :=
  h <~ (if is_null (head s) then pure (heap s) else t_set_prev (heap s) (head s) n);;
  h <~ t_set_next h n (head s);;
  h <~ t_set_prev h n None;;
  pure {| head := n; tail := if is_null (tail s) then n else tail s; heap := h |}.

(** intrusive_list.hpp:73-84. *)
Definition t_push_back (s : ilist) (n : ptr) : traced ilist :=
  h <~ (if is_null (tail s) then pure (heap s) else t_set_next (heap s) (tail s) n);;
  h <~ t_set_prev h n (tail s);;
  h <~ t_set_next h n None;;
  pure {| head := if is_null (head s) then n else head s; tail := n; heap := h |}.

(** intrusive_list.hpp:86-102: [n->prev] is read to test it, and again. *)
Definition t_insert (s : ilist) (it n : ptr) : traced ilist :=
  r <~ (if is_null it then
          h <~ t_set_prev (heap s) n (tail s);;
          pure (h, n)
        else
          h <~ t_set_next (heap s) n it;;
          q <~ t_prev h it;;
          h <~ t_set_prev h n q;;
          h <~ t_set_prev h it n;;
          pure (h, tail s));;
  let '(h, tl) := r in
  q <~ t_prev h n;;
  if is_null q
  then pure {| head := n; tail := tl; heap := h |}
  else q <~ t_prev h n;;
       h <~ t_set_next h q n;;
       pure {| head := head s; tail := tl; heap := h |}.

(** list_common.hpp:48-55: [and] does not read [next] if [prev] is not null. *)
Definition t_valid (h : list node) (n : ptr) : traced bool :=
  p <~ t_prev h n;;
  if is_null p then q <~ t_next h n;; pure (is_null q) else pure false.

(** list_common.hpp:82-88 and :114. *)
Definition t_on_pop (pol : policy) (h : list node) (n : ptr) : traced (list node) :=
  match pol with
  | Checked => h <~ t_set_prev h n None;; t_set_next h n None
  | Unchecked => pure h
  end.

(** list_common.hpp:90-98 and :115. *)
Fixpoint t_clear_loop (fuel : nat) (h : list node) (p : ptr) : traced (list node) :=
  match p with
  | None => pure h
  | Some _ =>
      match fuel with
      | O => None
      | S f =>
          h <~ t_set_prev h p None;;
          q <~ t_next h p;;
          h <~ t_set_next h p None;;
          t_clear_loop f h q
      end
  end.
Definition t_on_clear (pol : policy) (h : list node) (p : ptr) : traced (list node) :=
  match pol with Checked => t_clear_loop (length h) h p | Unchecked => pure h end.

(** intrusive_list.hpp:133-146. *)
Definition t_pop_front (pol : policy) (s : ilist) : traced (ilist * ptr) :=
  hd <~ t_next (heap s) (head s);;
  h <~ (if is_null hd then pure (heap s) else t_set_prev (heap s) hd None);;
  h <~ t_on_pop pol h (head s);;
  pure ({| head := hd; tail := if is_null hd then None else tail s; heap := h |}, head s).

(** intrusive_list.hpp:148-161. *)
Definition t_pop_back (pol : policy) (s : ilist) : traced (ilist * ptr) :=
  tl <~ t_prev (heap s) (tail s);;
  h <~ (if is_null tl then pure (heap s) else t_set_next (heap s) tl None);;
  h <~ t_on_pop pol h (tail s);;
  pure ({| head := if is_null tl then None else head s; tail := tl; heap := h |}, tail s).

(** intrusive_list.hpp:167-171. *)
Definition t_clear (pol : policy) (s : ilist) : traced ilist :=
  h <~ t_on_clear pol (heap s) (head s);;
  pure {| head := None; tail := None; heap := h |}.

(** intrusive_list.hpp:173-190. *)
Definition t_remove (pol : policy) (s : ilist) (n : ptr) : traced ilist :=
  nextNode <~ t_next (heap s) n;;
  prevNode <~ t_prev (heap s) n;;
  h <~ (if is_null prevNode then pure (heap s) else t_set_next (heap s) prevNode nextNode);;
  h <~ (if is_null nextNode then pure h else t_set_prev h nextNode prevNode);;
  h <~ t_on_pop pol h n;;
  pure {| head := if is_null prevNode then nextNode else head s;
          tail := if is_null nextNode then prevNode else tail s; heap := h |}.

(** Iteration, intrusive_list.hpp:28-31 and :105; and along the prev pointers, as a user does by hand. *)
Fixpoint t_walk (step : list node -> ptr -> traced ptr) (fuel : nat) (h : list node) (p : ptr) : traced (list N) :=
  match p with
  | None => pure []
  | Some a =>
      match fuel with
      | O => None
      | S f => q <~ step h p;; l <~ t_walk step f h q;; pure (a :: l)
      end
  end.

(** A call: its outcome and the accesses it makes. *)
Definition t_ret {S} (r : traced (S * l_out)) : outcome l_panic S l_out * list access :=
  match r with Some (t, (s, o)) => (Done s o [], t) | None => (Undef, []) end.

(** list_common.hpp:58-80, :101-113. *)
Definition t_check (pol : policy) (hd : handler) (s : ilist) (n : N) (body : traced ilist)
  : outcome l_panic ilist l_out * list access :=
  let go t ps := match body with Some (t', s') => (Done s' LUnit ps, t ++ t') | None => (Undef, []) end in
  match pol with
  | Unchecked => go [] []
  | Checked =>
      match t_valid (heap s) (Some n) with
      | None => (Undef, [])
      | Some (t, true) => go t []
      | Some (t, false) =>
          match hd with DoesNotReturn => (Stopped s BadListNode, t) | Returns => go t [BadListNode] end
      end
  end.

(** The public calls, as in IntrusiveListModel; front() and back() form a reference to the node and empty() looks
    at [head] only. *)
Definition t_step (pol : policy) (hd : handler) (s : ilist) (op : l_op)
  : outcome l_panic ilist l_out * list access :=
  match op with
  | LPushFront n => t_check pol hd s n (t_push_front s (Some n)) (* :119-121 *)
  | LPushBack n => t_check pol hd s n (t_push_back s (Some n)) (* :122-124 *)
  | LInsert it n => (* :125-131 *)
      t_check pol hd s n
        (if is_null (head s) then t_push_back s (Some n) else t_insert s it (Some n))
  | LPopFront => t_ret (r <~ t_pop_front pol s;; let '(s', p) := r in a <- p;; pure (s', LNode a))
  | LPopBack => t_ret (r <~ t_pop_back pol s;; let '(s', p) := r in a <- p;; pure (s', LNode a))
  | LRemove n => t_ret (s' <~ t_remove pol s (Some n);; pure (s', LUnit))
  | LClear => t_ret (s' <~ t_clear pol s;; pure (s', LUnit))
  | LEmpty => (Done s (LBool (is_null (head s))) [], []) (* :163-165 *)
  | LFront => t_ret (a <- head s;; nd <- get (heap s) (head s);; pure (s, LNode a)) (* :116 *)
  | LBack => t_ret (a <- tail s;; nd <- get (heap s) (tail s);; pure (s, LNode a)) (* :117 *)
  | LItems => t_ret (l <~ t_walk t_next (length (heap s)) (heap s) (head s);; pure (s, LList l))
  | LRItems => t_ret (l <~ t_walk t_prev (length (heap s)) (heap s) (tail s);; pure (s, LList l))
  | LLinks n => t_ret (p <~ t_prev (heap s) (Some n);; q <~ t_next (heap s) (Some n);; pure (s, LPair p q))
  end.

(** ** intrusive_forward_list: [p->next], [p->next = v]. *)
Definition ft_next (h : list ptr) (p : ptr) : traced ptr :=
  a <- p;; x <- get_next h p;; Some ([Read a Next], x).
Definition ft_set (h : list ptr) (p v : ptr) : traced (list ptr) :=
  a <- p;; h' <- put_next h p v;; Some ([Write a Next], h').

(** intrusive_forward_list.hpp:60-67. *)
Definition ft_push_front (s : flist) (n : ptr) : traced flist :=
  h <~ ft_set (nexts s) n (fhead s);;
  pure {| fhead := n; ftail := if is_null (ftail s) then n else ftail s; nexts := h |}.

(** intrusive_forward_list.hpp:69-79. *)
Definition ft_push_back (s : flist) (n : ptr) : traced flist :=
  h <~ (if is_null (ftail s) then pure (nexts s) else ft_set (nexts s) (ftail s) n);;
  h <~ ft_set h n None;;
  pure {| fhead := if is_null (fhead s) then n else fhead s; ftail := n; nexts := h |}.

(** list_common.hpp:48-55, :82-88, :90-98 (no prev pointer). *)
Definition ft_valid (h : list ptr) (n : ptr) : traced bool := x <~ ft_next h n;; pure (is_null x).
Definition ft_on_pop (pol : policy) (h : list ptr) (n : ptr) : traced (list ptr) :=
  match pol with Checked => ft_set h n None | Unchecked => pure h end.
Fixpoint ft_clear_loop (fuel : nat) (h : list ptr) (p : ptr) : traced (list ptr) :=
  match p with
  | None => pure h
  | Some _ =>
      match fuel with
      | O => None
      | S f => x <~ ft_next h p;; h <~ ft_set h p None;; ft_clear_loop f h x
      end
  end.
Definition ft_on_clear (pol : policy) (h : list ptr) (p : ptr) : traced (list ptr) :=
  match pol with Checked => ft_clear_loop (length h) h p | Unchecked => pure h end.

(** intrusive_forward_list.hpp:103-114. *)
Definition ft_pop_front (pol : policy) (s : flist) : traced (flist * ptr) :=
  x <~ ft_next (nexts s) (fhead s);;
  h <~ ft_on_pop pol (nexts s) (fhead s);;
  pure ({| fhead := x; ftail := if is_null x then None else ftail s; nexts := h |}, fhead s).

(** intrusive_forward_list.hpp:120-124. *)
Definition ft_clear (pol : policy) (s : flist) : traced flist :=
  h <~ ft_on_clear pol (nexts s) (fhead s);;
  pure {| fhead := None; ftail := None; nexts := h |}.

(** Iteration, :28-31 and :82-91. *)
Fixpoint ft_walk (fuel : nat) (h : list ptr) (p : ptr) : traced (list N) :=
  match p with
  | None => pure []
  | Some a =>
      match fuel with
      | O => None
      | S f => x <~ ft_next h p;; l <~ ft_walk f h x;; pure (a :: l)
      end
  end.

Definition ft_ret (r : traced (flist * f_out)) : outcome l_panic flist f_out * list access :=
  match r with Some (t, (s, o)) => (Done s o [], t) | None => (Undef, []) end.

(** list_common.hpp:58-72, :101-109. *)
Definition ft_check (pol : policy) (hd : handler) (s : flist) (n : N) (body : traced flist)
  : outcome l_panic flist f_out * list access :=
  let go t ps := match body with Some (t', s') => (Done s' FUnit ps, t ++ t') | None => (Undef, []) end in
  match pol with
  | Unchecked => go [] []
  | Checked =>
      match ft_valid (nexts s) (Some n) with
      | None => (Undef, [])
      | Some (t, true) => go t []
      | Some (t, false) =>
          match hd with DoesNotReturn => (Stopped s BadListNode, t) | Returns => go t [BadListNode] end
      end
  end.

(** The public calls, as in ForwardListModel. *)
Definition ft_step (pol : policy) (hd : handler) (s : flist) (op : f_op)
  : outcome l_panic flist f_out * list access :=
  match op with
  | FPushFront n => ft_check pol hd s n (ft_push_front s (Some n)) (* :96-98 *)
  | FPushBack n => ft_check pol hd s n (ft_push_back s (Some n)) (* :99-101 *)
  | FPopFront => ft_ret (r <~ ft_pop_front pol s;; let '(s', p) := r in a <- p;; pure (s', FNode a))
  | FClear => ft_ret (s' <~ ft_clear pol s;; pure (s', FUnit))
  | FEmpty => (Done s (FBool (is_null (fhead s))) [], []) (* :116 *)
  | FFront => ft_ret (a <- fhead s;; x <- get_next (nexts s) (fhead s);; pure (s, FNode a)) (* :93 *)
  | FBack => ft_ret (a <- ftail s;; x <- get_next (nexts s) (ftail s);; pure (s, FNode a)) (* :94 *)
  | FItems => ft_ret (l <~ ft_walk (length (nexts s)) (nexts s) (fhead s);; pure (s, FList l))
  | FNext n => ft_ret (x <~ ft_next (nexts s) (Some n);; pure (s, FPtr x))
  end.
