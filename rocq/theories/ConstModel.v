(** What is reached through the member functions of a const object: for each of them, whether it may be
    called and whether the reference, pointer or iterator it gives is to a const object. Models the
    signatures of the accessors in include/stdx/cx_vector.hpp:39-50 and :84-118, cx_queue.hpp:65-82, cx_set.hpp:31-50,
    cx_map.hpp:45-64 and :84-101, cx_multimap.hpp:28-47 and :85-92, optional.hpp:138-174, latched.hpp:26-45, cached.hpp:8-17,
    tuple.hpp:74-105 and :282-290, span.hpp:140-179 and :236-257, intrusive_list.hpp:105-118, intrusive_forward_list.hpp:82-94,
    byterator.hpp:68-69. *)
From Coq Require Import List Bool.
From Verif Require Import Base.
Import ListNotations.
Open Scope ub_scope.

(** Types of objects. [Plain]: without parts that the library knows of. [Reference c t]: an element type
    T& or, if c, T const&, of a tuple. [Lists]: an intrusive list, of either kind, of nodes of type t. *)
Inductive ty :=
| Plain
| Vector (t : ty) | Queue (t : ty) | CxSet (t : ty) | CxMap (k v : ty) | Entry (k v : ty) | CxMultimap (k v : ty)
| Optional (t : ty) | Latched (t : ty) | Cached (t : ty)
| Tuple (ts : list ty) | Reference (c : bool) (t : ty)
| Lists (t : ty) | Span (c : bool) (t : ty).

(** Ways to get at a part. [At i]: operator[], get<i>, or the i-th step of a loop from begin(); [CAt i]:
    of a loop from cbegin(); [Lookup i]: get(key) that finds entry i; [Key], [Mapped]: the members of an
    entry; [Value]: value(), * and ->; [Bytes u]: byterator<T>{p} for a pointer p to the object, where u
    tells whether T is const, or byterator{p} for [None]; [AsBytes i], [AsWritableBytes i]: as_bytes(s) and
    as_writable_bytes(s), the bytes of element i. *)
Inductive access :=
| At (i : nat) | CAt (i : nat) | Front | Back | Lookup (i : nat) | Key | Mapped | Value | Refresh
| Bytes (u : option bool) | AsBytes (i : nat) | AsWritableBytes (i : nat).

(** The type of what is given and whether it is const, for an object that is const if [c]; [None]: no such
    function, or it cannot be called. Simplification: the bytes of a Plain object count as the object. *)
Definition result (t : ty) (c : bool) (a : access) : option (ty * bool) :=
  match t, a with
  | Vector e, (At _ | Front | Back) => Some (e, c)          (* cx_vector.hpp:39-44, 84-95, 103-118 *)
  | Vector e, CAt _ => Some (e, true)                       (* cx_vector.hpp:45-48 *)
  | Queue e, (Front | Back) => Some (e, c)                  (* cx_queue.hpp:65-82 *)
  | CxSet e, At _ => Some (e, c)                            (* cx_set.hpp:31-36 *)
  | CxSet e, CAt _ => Some (e, true)                        (* cx_set.hpp:37-40 *)
  | CxMap k v, At _ => Some (Entry k v, c)                  (* cx_map.hpp:45-50 *)
  | CxMap k v, CAt _ => Some (Entry k v, true)              (* cx_map.hpp:51-54 *)
  | CxMap k v, Lookup _ => Some (v, c)                      (* cx_map.hpp:84-101 *)
  | Entry k v, Key => Some (k, c)                           (* cx_map.hpp:15-20 *)
  | Entry k v, Mapped => Some (v, c)
  | CxMultimap k v, At _ => Some (Entry k (CxSet v), c)     (* cx_multimap.hpp:28-33 *)
  | CxMultimap k v, CAt _ => Some (Entry k (CxSet v), true) (* cx_multimap.hpp:34-37 *)
  | CxMultimap k v, Lookup _ => Some (CxSet v, c)           (* cx_multimap.hpp:85-92 *)
  | Optional e, Value => Some (e, c)                        (* optional.hpp:138-174 *)
  | Latched e, Value => Some (e, true)                      (* latched.hpp:26-45 *)
  | Cached e, Value => Some (e, true)
  | Cached e, Refresh => if c then None else Some (e, false) (* cached.hpp:12-16 *)
  | Tuple ts, At i =>                                       (* tuple.hpp:74-105, 282-287 *)
      match nth_error ts i with
      | Some (Reference k u) => Some (u, k)
      | Some u => Some (u, c)
      | None => None
      end
  | Lists e, At _ => Some (e, c)                            (* intrusive_list.hpp:105-108 *)
  | Lists e, CAt _ => Some (e, true)                        (* intrusive_list.hpp:109-111 *)
  | Lists e, (Front | Back) => Some (e, false)              (* intrusive_list.hpp:116-117 *)
  | Span k e, (At _ | Front | Back) => Some (e, k)          (* span.hpp:140-146, 172-179 *)
  | Span k e, CAt _ => Some (e, true)                       (* span.hpp:147-149 *)
  | Span k Plain, AsBytes _ => Some (Plain, true)           (* span.hpp:236-245 *)
  | Span k Plain, AsWritableBytes _ => if k then None else Some (Plain, false) (* span.hpp:247-257 *)
  | Plain, Bytes u => Some (Plain, match u with Some k => k | None => c end) (* byterator.hpp:68-69, 226-227 *)
  | _, _ => None
  end.

(** ** Objects
    [Parts] of a container are what it holds, in order, of a map its entries, of an entry the key and the
    value, of an optional its value, of a latched or cached value that has been computed the value. A
    list holds pointers to its nodes, a span one to each element, a tuple one for each element that is
    a reference. *)
Inductive place := Place (root : nat) (path : list nat).
Inductive obj := Leaf (v : nat) | Pointer (p : place) | Parts (l : list obj).
(** The objects that are not parts of others. *)
Definition memory := list obj.

Fixpoint part (o : obj) (path : list nat) : option obj :=
  match path with
  | [] => Some o
  | i :: path' => match o with Parts l => x <- nth_error l i;; part x path' | _ => None end
  end.
Definition look (m : memory) (p : place) : option obj :=
  match p with Place r path => o <- nth_error m r;; part o path end.

Fixpoint set_nth {A} (i : nat) (x : A) (l : list A) : list A :=
  match l, i with
  | [], _ => []
  | _ :: l', O => x :: l'
  | y :: l', S j => y :: set_nth j x l'
  end.
Fixpoint put (o : obj) (path : list nat) (x : obj) : option obj :=
  match path with
  | [] => Some x
  | i :: path' =>
      match o with
      | Parts l => y <- nth_error l i;; y' <- put y path' x;; Some (Parts (set_nth i y' l))
      | _ => None
      end
  end.
Definition write (m : memory) (p : place) (x : obj) : option memory :=
  match p with Place r path => o <- nth_error m r;; o' <- put o path x;; Some (set_nth r o' m) end.

(** The i-th part of the object at p, or what it points to. *)
Definition sub (p : place) (i : nat) : place := match p with Place r path => Place r (path ++ [i]) end.
Definition pointee (m : memory) (p : place) : option place :=
  match look m p with Some (Pointer q) => Some q | _ => None end.
Definition count (m : memory) (p : place) : nat :=
  match look m p with Some (Parts l) => length l | _ => 0 end.

(** Where it is. [None]: there is no such part. *)
Definition index (m : memory) (p : place) (a : access) : option nat :=
  match a with
  | At i | CAt i | AsBytes i | AsWritableBytes i => Some i
  | Front | Value | Refresh => Some 0
  | Back => match count m p with O => None | S n => Some n end
  | Key => Some 0
  | Mapped => Some 1
  | Lookup _ | Bytes _ => None
  end.
Definition refers (t : ty) (i : nat) : bool :=
  match t with
  | Lists _ | Span _ _ => true
  | Tuple ts => match nth_error ts i with Some (Reference _ _) => true | _ => false end
  | _ => false
  end.
Definition locate (m : memory) (t : ty) (p : place) (a : access) : option place :=
  match a with
  | Bytes _ => Some p
  | Lookup i => Some (sub (sub p i) 1)
  | _ => i <- index m p a;; if refers t i then pointee m (sub p i) else Some (sub p i)
  end.

(** ** Programs
    A program has a reference to one object; each of its statements goes through a chain of calls and
    changes what it reaches: assigns to it, or calls a member function that is not const. That needs a
    reference that is not to const. *)
Definition stmt := (list access * obj)%type.
Fixpoint typed (t : ty) (c : bool) (l : list access) : option (ty * bool) :=
  match l with [] => Some (t, c) | a :: l' => r <- result t c a;; typed (fst r) (snd r) l' end.
Definition compiles (t : ty) (c : bool) (s : stmt) : bool :=
  match typed t c (fst s) with Some (_, false) => true | _ => false end.
Fixpoint follow (m : memory) (t : ty) (c : bool) (p : place) (l : list access) : option place :=
  match l with
  | [] => Some p
  | a :: l' => r <- result t c a;; q <- locate m t p a;; follow m (fst r) (snd r) q l'
  end.
(** [None]: a statement does not compile, or reaches for a part that is not there. *)
Fixpoint exec (t : ty) (c : bool) (p : place) (m : memory) (prog : list stmt) : option memory :=
  match prog with
  | [] => Some m
  | s :: prog' =>
      if compiles t c s then q <- follow m t c p (fst s);; m' <- write m q (snd s);; exec t c p m' prog' else None
  end.
