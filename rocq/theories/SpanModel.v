(** Model of include/stdx/span.hpp, include/stdx/utility.hpp:139-159 (sized) and
    utility.hpp:237-249 (is_aligned_with).

    One array of elements is given; a pointer into it is an index from 0 to its length, and
    forming a pointer outside that range or dereferencing outside the array is undefined.
    Extents and sizes are std::size_t; the extent [dyn] stands for dynamic_extent.
    [Stopped] stands for a program that does not compile (static_assert).
    A null pointer is as one into an array of length 0.  Not modelled: const-ness. *)
From Verif Require Import Base.
Open Scope ub_scope.
Open Scope N_scope.

(** span.hpp:20. *)
Definition dyn : N := size_mod - 1.
(** span.hpp:22-65: a span of static extent stores no size. *)
Record span := Span { ptr : N; ext : N; stored : N }.
(** span.hpp:28, 48-50. *)
Definition size (s : span) : N := if ext s =? dyn then stored s else ext s.
(** span.hpp:29-30, 51-53, for elements of [k] bytes. *)
Definition size_bytes (k : N) (s : span) : N := size s * k mod size_mod.
(** span.hpp:31, 54-56. *)
Definition empty (s : span) : bool := if ext s =? dyn then stored s =? 0 else ext s =? 0.
(** span.hpp:85-93: from an iterator and a count (or end, :40-46). *)
Definition mk (e p n : N) : span := Span p e (if e =? dyn then n else 0).

(** span.hpp:24, 38, 65, 83: span<T, e>{}, a null pointer; there is no requirement on the extent. *)
Definition of_nothing (e : N) : span := Span 0 e 0.

Inductive made := Rejected | Formed (s : span) | Bad.

Section Span.
Variable n : N.     (* the length of the array *)

Definition padd (p d : N) : option N := if p + d <=? n then Some (p + d) else None.
Definition psub (p d : N) : option N := if d <=? p then Some (p - d) else None.
Definition form (e : N) (p : option N) (c : N) : made := match p with Some q => Formed (mk e q c) | None => Bad end.

(** span.hpp:95-118: from an array (std::array or C array). *)
Definition of_array (e : N) : made := if (e =? dyn) || (e <=? n) then Formed (mk e 0 n) else Rejected.
(** span.hpp:85-93, 120-129: from an iterator at [p] and a count, an end or a range. *)
Definition of_iter (e p c : N) : made := form e (padd p 0) c.
(** span.hpp:131-138. *)
Definition convert (e : N) (s : span) : made := Formed (mk e (ptr s) (size s)).
(** span.hpp:181-189. *)
Definition first_s (c : N) (s : span) : made := if c <=? ext s then Formed (mk c (ptr s) c) else Rejected.
Definition first_d (c : N) (s : span) : made := Formed (mk dyn (ptr s) c).
(** span.hpp:191-199. *)
Definition last_s (c : N) (s : span) : made :=
  if c <=? ext s then form c (p <- padd (ptr s) (size s);; psub p c) c else Rejected.
Definition last_d (c : N) (s : span) : made := form dyn (p <- padd (ptr s) (size s);; psub p c) c.
(** x - y on std::size_t. *)
Definition usub (x y : N) : N := (x + size_mod - y) mod size_mod.
(** span.hpp:201-220. *)
Definition subspan_s (o c : N) (s : span) : made :=
  if negb (c =? dyn) then
    if (o <=? ext s) && (c <=? ext s) && (o <=? ext s - c) then form c (padd (ptr s) o) c else Rejected
  else if negb (ext s =? dyn) then
    if o <=? ext s then form (ext s - o) (padd (ptr s) o) (ext s - o) else Rejected
  else form dyn (padd (ptr s) o) (usub (size s) o).
(** span.hpp:222-226. *)
Definition subspan_d (o c : N) (s : span) : made := form dyn (padd (ptr s) o) (N.min c (usub (size s) o)).
End Span.

(** span.hpp:236-257: the bytes of a span of elements of [k] bytes; the pointer now counts bytes. *)
Definition as_bytes (k : N) (s : span) : span :=
  if ext s =? dyn then mk dyn (ptr s * k) (size_bytes k s) else mk (size_bytes k s) (ptr s * k) (size_bytes k s).

Section Step.
Context {A : Type}.
Inductive sop :=
| SArray (d e : N) | SIter (d e p c : N) | SConvert (d s e : N)
| SFirstS (d s c : N) | SFirst (d s c : N) | SLastS (d s c : N) | SLast (d s c : N)
| SSubS (d s o c : N) | SSub (d s o c : N)
| SSize (s : N) | SEmpty (s : N) | SFront (s : N) | SBack (s : N)
| SAt (s i : N) | SPut (s i : N) (v : A) | SGet (s i : N)
| SAll (s : N) | SRev (s : N).
Inductive sout := SUnit | SNum (x : N) | SBool (b : bool) | SVal (v : A) | SList (l : list A).
(** The array and the spans the program has formed. *)
Record sstate := SState { arr : list A; spans : list span }.

(** From begin() to end() (span.hpp:144-163), and from rbegin() to rend() (:150-170):
    reverse_iterator dereferences the element before. *)
Fixpoint walk (l : list A) (p : N) (count : nat) : option (list A) :=
  match count with
  | O => Some []
  | S c => x <- rd l p;; r <- walk l (p + 1) c;; Some (x :: r)
  end.
Fixpoint walk_back (l : list A) (p : N) (count : nat) : option (list A) :=
  match count with
  | O => Some []
  | S c => q <- psub p 1;; x <- rd l q;; r <- walk_back l q c;; Some (x :: r)
  end.

Definition sstep (st : sstate) (op : sop) : outcome unit sstate sout :=
  let put d m :=
    match m with
    | Rejected => Stopped st tt
    | Bad => Undef
    | Formed x => match wr (spans st) d x with Some l => Done (SState (arr st) l) SUnit [] | None => Undef end
    end in
  let on s (f : span -> outcome unit sstate sout) := match rd (spans st) s with Some x => f x | None => Undef end in
  let give (o : option sout) := match o with Some v => Done st v [] | None => Undef end in
  let n := len (arr st) in
  match op with
  | SArray d e => put d (of_array n e)
  | SIter d e p c => put d (of_iter n e p c)
  | SConvert d s e => on s (fun x => put d (convert e x))
  | SFirstS d s c => on s (fun x => put d (first_s c x))
  | SFirst d s c => on s (fun x => put d (first_d c x))
  | SLastS d s c => on s (fun x => put d (last_s n c x))
  | SLast d s c => on s (fun x => put d (last_d n c x))
  | SSubS d s o c => on s (fun x => put d (subspan_s n o c x))
  | SSub d s o c => on s (fun x => put d (subspan_d n o c x))
  | SSize s => on s (fun x => give (Some (SNum (size x))))
  | SEmpty s => on s (fun x => give (Some (SBool (empty x))))
  (* span.hpp:172-175: *begin(), *prev(end()) *)
  | SFront s => on s (fun x => give (v <- rd (arr st) (ptr x);; Some (SVal v)))
  | SBack s => on s (fun x => give (e <- padd n (ptr x) (size x);; p <- psub e 1;; v <- rd (arr st) p;; Some (SVal v)))
  (* span.hpp:177-179 *)
  | SAt s i => on s (fun x => give (v <- rd (arr st) (ptr x + i);; Some (SVal v)))
  | SPut s i v => on s (fun x => match wr (arr st) (ptr x + i) v with
                                 | Some a => Done (SState a (spans st)) SUnit []
                                 | None => Undef end)
  (* span.hpp:229-233 *)
  | SGet s i => on s (fun x => if (ext x =? dyn) || (i <? ext x)
                               then give (v <- rd (arr st) (ptr x + i);; Some (SVal v)) else Stopped st tt)
  | SAll s => on s (fun x => give (e <- padd n (ptr x) (size x);; l <- walk (arr st) (ptr x) (N.to_nat (size x));; Some (SList l)))
  | SRev s => on s (fun x => give (e <- padd n (ptr x) (size x);; l <- walk_back (arr st) e (N.to_nat (size x));; Some (SList l)))
  end.
End Step.
Arguments sop : clear implicits.
Arguments sout : clear implicits.
Arguments sstate : clear implicits.

(** utility.hpp:139-150: size_conversion on std::size_t; [st] and [su] are the sizes of T and U. *)
Definition sized_in (st su sz : N) : N :=
  if st =? su then sz
  else if su <? st then (sz * st mod size_mod / su + (if 0 <? st mod su then 1 else 0)) mod size_mod
  else usub ((sz * st + su) mod size_mod) 1 / su.

(** utility.hpp:237-249: for an alignment [al] and an address or integer of [aw] bits. *)
Definition is_aligned_with (aw al v : N) : bool := N.land (v mod 2 ^ aw) (al - 1) =? 0.
