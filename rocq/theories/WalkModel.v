(** begin, end, rbegin and the rest: whether they compile, and the elements between the iterators.
    Models include/stdx/cx_vector.hpp:27-82, span.hpp:144-170, ct_string.hpp:51-64. *)
From Verif Require Import Base CxVectorModel.
Open Scope ub_scope.
Open Scope N_scope.

(** The types: T*, std::reverse_iterator<T*>; the flag says whether T is const. *)
Inductive itype := Pointer (c : bool) | Reverse (c : bool).

(** An iterator: its type and the position (from the start of the array) it was made from. A
    reverse iterator designates the element before. *)
Record iter := Iter { it_type : itype; pos : N }.

(** Whether [return e;] converts an expression of type [from] to the return type [to]: the same type,
    or T* to T const*, or a reverse iterator over the one to one over the other. The constructor of
    std::reverse_iterator from an iterator is explicit, so a pointer does not convert. *)
Definition adds_const (c c' : bool) : bool := implb c c'.
Definition converts (from to : itype) : bool :=
  match from, to with
  | Pointer c, Pointer c' => adds_const c c'
  | Reverse c, Reverse c' => adds_const c c'
  | _, _ => false
  end.
(** A member function whose body returns [e] and whose declared type is [to]; [None]: it does not
    compile when it is used. *)
Definition returns (e : iter) (to : itype) : option iter :=
  if converts (it_type e) to then Some (Iter to (pos e)) else None.

Inductive access := Begin | End | CBegin | CEnd | RBegin | REnd | CRBegin | CREnd.
(** The functions of a loop forwards or backwards. *)
Inductive loop := Forwards | CForwards | Backwards | CBackwards.
Definition first_of (k : loop) : access :=
  match k with Forwards => Begin | CForwards => CBegin | Backwards => RBegin | CBackwards => CRBegin end.
Definition last_of (k : loop) : access :=
  match k with Forwards => End | CForwards => CEnd | Backwards => REnd | CBackwards => CREnd end.

(** ** The containers; [oc]: the object is const; [None]: no such member, or it does not compile. *)
(** cx_vector.hpp:39-82: the pointers are [std::data(storage)] and [begin() + current_size]; rbegin()
    returns end() and rend() returns begin(). *)
Definition cx_vector_access {A} (v : vector A) (oc : bool) (a : access) : option iter :=
  let begin := Iter (Pointer oc) 0 in
  let finish := Iter (Pointer oc) (v_size v) in
  let cbegin := Iter (Pointer true) 0 in
  let cend := Iter (Pointer true) (v_size v) in
  match a with
  | Begin => returns begin (Pointer oc)
  | End => returns finish (Pointer oc)
  | CBegin => returns cbegin (Pointer true)
  | CEnd => returns cend (Pointer true)
  | RBegin => returns finish (Reverse oc)
  | REnd => returns begin (Reverse oc)
  | CRBegin => returns cend (Reverse true)
  | CREnd => returns cbegin (Reverse true)
  end.

(** span.hpp:144-170: a span<T> of [n] elements from [p] on; [ec]: T is const. Whether the span itself
    is const does not matter. The reverse iterators are constructed explicitly. *)
Definition span_access (p n : N) (ec oc : bool) (a : access) : option iter :=
  match a with
  | Begin => returns (Iter (Pointer ec) p) (Pointer ec)
  | End => returns (Iter (Pointer ec) (p + n)) (Pointer ec)
  | CBegin => returns (Iter (Pointer ec) p) (Pointer true)
  | CEnd => returns (Iter (Pointer ec) (p + n)) (Pointer true)
  | RBegin => returns (Iter (Reverse ec) (p + n)) (Reverse ec)
  | REnd => returns (Iter (Reverse ec) p) (Reverse ec)
  | CRBegin => returns (Iter (Reverse true) (p + n)) (Reverse true)
  | CREnd => returns (Iter (Reverse true) p) (Reverse true)
  end.

(** ct_string.hpp:51-64, an array of [n] characters; the return types are deduced. rbegin() and rend()
    are const members, so their iterators are those of a const array; std::cbegin and std::crbegin call
    them on a const object. *)
Definition ct_string_access (n : N) (oc : bool) (a : access) : option iter :=
  match a with
  | Begin => Some (Iter (Pointer oc) 0)
  | End => match n with 0 => None | _ => Some (Iter (Pointer oc) (n - 1)) end
  | CBegin => Some (Iter (Pointer true) 0)
  | CEnd => match n with 0 => None | _ => Some (Iter (Pointer true) (n - 1)) end
  | RBegin | CRBegin => match n with 0 => None | _ => Some (Iter (Reverse true) (n - 1)) end
  | REnd | CREnd => Some (Iter (Reverse true) 0)
  end.

(** ** A loop from one iterator to the other over the array [arr] *)
Fixpoint up {A} (arr : list A) (p : N) (count : nat) : option (list A) :=
  match count with O => Some [] | S k => x <- rd arr p;; r <- up arr (p + 1) k;; Some (x :: r) end.
Fixpoint down {A} (arr : list A) (p : N) (count : nat) : option (list A) :=
  match count with
  | O => Some []
  | S k => if p =? 0 then None else x <- rd arr (p - 1);; r <- down arr (p - 1) k;; Some (x :: r)
  end.
(** [for (auto i = first; i != last; ++i)]; the two have one type. [None]: it does not compile, or runs
    out of the array. *)
Definition loop_over {A} (arr : list A) (first last : iter) : option (list A) :=
  match it_type first, it_type last with
  | Pointer c, Pointer c' =>
      if Bool.eqb c c' && (pos first <=? pos last) then up arr (pos first) (N.to_nat (pos last - pos first)) else None
  | Reverse c, Reverse c' =>
      if Bool.eqb c c' && (pos last <=? pos first) then down arr (pos first) (N.to_nat (pos first - pos last)) else None
  | _, _ => None
  end.
Definition walk {A} (arr : list A) (acc : access -> option iter) (k : loop) : option (list A) :=
  b <- acc (first_of k);; e <- acc (last_of k);; loop_over arr b e.

(** std::make_reverse_iterator, called by the user on the iterators of a loop forwards. *)
Definition make_reverse (i : iter) : option iter :=
  match it_type i with Pointer c => Some (Iter (Reverse c) (pos i)) | Reverse _ => None end.
Definition walk_made {A} (arr : list A) (acc : access -> option iter) : option (list A) :=
  b <- acc Begin;; e <- acc End;; rb <- make_reverse e;; re <- make_reverse b;; loop_over arr rb re.
