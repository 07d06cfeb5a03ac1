(** Model of stdx::intrusive_list (include/stdx/intrusive_list.hpp) and the node policies
    (include/stdx/detail/list_common.hpp).  The nodes live in [heap]; a node pointer is the
    index of a node or null.  Dereferencing null is undefined behaviour.
    Simplification: a loop that does not terminate is also reported as [None]: traversal
    and clearing get one unit of fuel per node in the heap, enough for every acyclic
    chain. *)
From Verif Require Import Base.
Open Scope ub_scope.

Definition ptr := option N.
Record node := { prev : ptr; next : ptr }.
(** intrusive_list.hpp:57-58, and the memory the nodes live in. *)
Record ilist := { head : ptr; tail : ptr; heap : list node }.

Definition get (h : list node) (p : ptr) : option node :=
  match p with Some a => rd h a | None => None end.
Definition put (h : list node) (p : ptr) (f : node -> node) : option (list node) :=
  match p with
  | Some a => nd <- rd h a;; wr h a (f nd)
  | None => None
  end.
Definition set_prev (h : list node) (p v : ptr) :=
  put h p (fun nd => {| prev := v; next := next nd |}).
Definition set_next (h : list node) (p v : ptr) :=
  put h p (fun nd => {| prev := prev nd; next := v |}).

Definition is_null (p : ptr) : bool := match p with None => true | Some _ => false end.

(** intrusive_list.hpp:60-71. *)
Definition unchecked_push_front (s : ilist) (n : ptr) : option ilist :=
  h <- (if is_null (head s) then Some (heap s) else set_prev (heap s) (head s) n);;
  h <- set_next h n (head s);;
  h <- set_prev h n None;;
  Some {| head := n; tail := if is_null (tail s) then n else tail s; heap := h |}.

(** intrusive_list.hpp:73-84. *)
Definition unchecked_push_back (s : ilist) (n : ptr) : option ilist :=
  h <- (if is_null (tail s) then Some (heap s) else set_next (heap s) (tail s) n);;
  h <- set_prev h n (tail s);;
  h <- set_next h n None;;
  Some {| head := if is_null (head s) then n else head s; tail := n; heap := h |}.

(** intrusive_list.hpp:86-102; [it] is the node the iterator designates, null for end(). *)
Definition unchecked_insert (s : ilist) (it n : ptr) : option ilist :=
  r <- (if is_null it then
          h <- set_prev (heap s) n (tail s);;
          Some (h, n)
        else
          h <- set_next (heap s) n it;;
          p <- get h it;;
          h <- set_prev h n (prev p);;
          h <- set_prev h it n;;
          Some (h, tail s));;
  let '(h, tl) := r in
  nd <- get h n;;
  if is_null (prev nd)
  then Some {| head := n; tail := tl; heap := h |}
  else h <- set_next h (prev nd) n;;
       Some {| head := head s; tail := tl; heap := h |}.

Inductive policy := Checked | Unchecked.

(** list_common.hpp:48-55 (double linkable). *)
Definition valid_for_push (h : list node) (n : ptr) : option bool :=
  nd <- get h n;; Some (is_null (prev nd) && is_null (next nd)).

(** list_common.hpp:82-88 and :114. *)
Definition on_pop (pol : policy) (h : list node) (n : ptr) : option (list node) :=
  match pol with
  | Checked => h <- set_prev h n None;; set_next h n None
  | Unchecked => Some h
  end.

(** list_common.hpp:90-98 and :115. *)
Fixpoint clear_loop (fuel : nat) (h : list node) (p : ptr) : option (list node) :=
  match p with
  | None => Some h
  | Some _ =>
      match fuel with
      | O => None
      | S f =>
          h <- set_prev h p None;;
          nd <- get h p;;
          h <- set_next h p None;;
          clear_loop f h (next nd)
      end
  end.
Definition on_clear (pol : policy) (h : list node) (p : ptr) : option (list node) :=
  match pol with Checked => clear_loop (length h) h p | Unchecked => Some h end.

(** intrusive_list.hpp:133-146. *)
Definition pop_front (pol : policy) (s : ilist) : option (ilist * ptr) :=
  let popped := head s in
  nd <- get (heap s) (head s);;
  let hd := next nd in
  h <- (if is_null hd then Some (heap s) else set_prev (heap s) hd None);;
  h <- on_pop pol h popped;;
  Some ({| head := hd; tail := if is_null hd then None else tail s; heap := h |}, popped).

(** intrusive_list.hpp:148-161. *)
Definition pop_back (pol : policy) (s : ilist) : option (ilist * ptr) :=
  let popped := tail s in
  nd <- get (heap s) (tail s);;
  let tl := prev nd in
  h <- (if is_null tl then Some (heap s) else set_next (heap s) tl None);;
  h <- on_pop pol h popped;;
  Some ({| head := if is_null tl then None else head s; tail := tl; heap := h |}, popped).

(** intrusive_list.hpp:167-171. *)
Definition clear (pol : policy) (s : ilist) : option ilist :=
  h <- on_clear pol (heap s) (head s);;
  Some {| head := None; tail := None; heap := h |}.

(** intrusive_list.hpp:173-190. *)
Definition remove (pol : policy) (s : ilist) (n : ptr) : option ilist :=
  nd <- get (heap s) n;;
  let nextNode := next nd in
  let prevNode := prev nd in
  h <- (if is_null prevNode then Some (heap s) else set_next (heap s) prevNode nextNode);;
  h <- (if is_null nextNode then Some h else set_prev h nextNode prevNode);;
  h <- on_pop pol h n;;
  Some {| head := if is_null prevNode then nextNode else head s;
          tail := if is_null nextNode then prevNode else tail s; heap := h |}.

(** Iteration from begin() (:28-31, :105), and the chain of prev pointers from the last
    node: what a user sees walking the list either way. *)
Fixpoint walk (step : node -> ptr) (fuel : nat) (h : list node) (p : ptr) : option (list N) :=
  match p with
  | None => Some []
  | Some a =>
      match fuel with
      | O => None
      | S f => nd <- get h p;; l <- walk step f h (step nd);; Some (a :: l)
      end
  end.

(** Public operations. [LLinks n] reads the links of node n (public members). *)
Inductive l_op :=
| LPushFront (n : N) | LPushBack (n : N) | LInsert (it : ptr) (n : N)
| LPopFront | LPopBack | LRemove (n : N) | LClear
| LEmpty | LFront | LBack | LItems | LRItems | LLinks (n : N).
Inductive l_out :=
  LUnit | LNode (n : N) | LBool (b : bool) | LList (l : list N) | LPair (p n : ptr).

Inductive l_panic := BadListNode.

Definition ret {P S O} (r : option (S * O)) : outcome P S O :=
  match r with Some (s, o) => Done s o [] | None => Undef end.

(** list_common.hpp:58-80: the checked policy panics on a node that is already linked, then
    goes on to link it if the panic handler returns; :101-113 the unchecked policy. *)
Definition with_check (pol : policy) (hd : handler) (s : ilist) (n : N)
  (body : option ilist) : outcome l_panic ilist l_out :=
  let go ps := match body with Some s' => Done s' LUnit ps | None => Undef end in
  match pol with
  | Unchecked => go []
  | Checked =>
      match valid_for_push (heap s) (Some n) with
      | None => Undef
      | Some true => go []
      | Some false =>
          match hd with DoesNotReturn => Stopped s BadListNode | Returns => go [BadListNode] end
      end
  end.

Definition l_step (pol : policy) (hd : handler) (s : ilist) (op : l_op)
  : outcome l_panic ilist l_out :=
  match op with
  | LPushFront n => with_check pol hd s n (unchecked_push_front s (Some n)) (* :119-121 *)
  | LPushBack n => with_check pol hd s n (unchecked_push_back s (Some n)) (* :122-124 *)
  | LInsert it n => (* :125-131 *)
      with_check pol hd s n
        (if is_null (head s) then unchecked_push_back s (Some n)
         else unchecked_insert s it (Some n))
  | LPopFront =>
      ret (r <- pop_front pol s;; let '(s', p) := r in a <- p;; Some (s', LNode a))
  | LPopBack =>
      ret (r <- pop_back pol s;; let '(s', p) := r in a <- p;; Some (s', LNode a))
  | LRemove n => ret (s' <- remove pol s (Some n);; Some (s', LUnit))
  | LClear => ret (s' <- clear pol s;; Some (s', LUnit))
  | LEmpty => Done s (LBool (is_null (head s))) [] (* :163-165 *)
  | LFront => ret (a <- head s;; nd <- get (heap s) (head s);; Some (s, LNode a)) (* :116 *)
  | LBack => ret (a <- tail s;; nd <- get (heap s) (tail s);; Some (s, LNode a)) (* :117 *)
  | LItems => ret (l <- walk next (length (heap s)) (heap s) (head s);; Some (s, LList l))
  | LRItems => ret (l <- walk prev (length (heap s)) (heap s) (tail s);; Some (s, LList l))
  | LLinks n => ret (nd <- get (heap s) (Some n);; Some (s, LPair (prev nd) (next nd)))
  end.

(** An empty list (:57-58) over a given memory of nodes. *)
Definition l_init (nodes : list node) : ilist := {| head := None; tail := None; heap := nodes |}.
