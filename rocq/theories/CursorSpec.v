(** What a user expects of iterators into a list that changes, and of loops that change it. *)
From Verif Require Import Base IntrusiveListModel IntrusiveListSpec CursorModel.
Open Scope N_scope.

(** The element after [n], none if [n] is the last or not in the list. *)
Fixpoint after (n : N) (l : list N) : option N :=
  match l with
  | [] => None
  | x :: r => if x =? n then hd_error r else after n r
  end.

(** Checked policy, nodes that start with null links: a plain list ([plain_step]) and, for
    each iterator, the element it is at (none: the end).  An iterator stays at its element
    whatever is done to the list; moving it goes to the element that is then next, and to
    the end if its element is no longer in the list. *)
Definition cursor_step (nodes : N) (s : list N * list (option N)) (op : c_op) : option ((list N * list (option N)) * c_out) :=
  let '(l, at_) := s in
  let move k p o := match wr at_ k p with Some a => Some ((l, a), o) | None => None end in
  let list_op o := match plain_step nodes l o with Some (l', x) => Some ((l', at_), Out x) | None => None end in
  match op with
  | Do o => list_op o
  | Begin k => move k (hd_error l) CUnit
  | End k => move k None CUnit
  | Copy k i => match rd at_ i with Some p => move k p CUnit | None => None end
  | Deref k => match rd at_ k with Some (Some n) => Some (s, CNode n) | _ => None end
  | Inc k => match rd at_ k with Some (Some n) => move k (after n l) CUnit | _ => None end
  | PostInc k => match rd at_ k with Some (Some n) => move k (after n l) (CNode n) | _ => None end
  | Equal k i =>
      match rd at_ k, rd at_ i with
      | Some a, Some b =>
          Some (s, CBool (match a, b with Some x, Some y => x =? y | None, None => true | _, _ => false end))
      | _, _ => None
      end
  | InsertAt k n => match rd at_ k with Some p => list_op (LInsert p n) | None => None end
  end.

(** The body that removes the elements satisfying [p], and the one that appends [kids n]. *)
Definition erase (p : N -> bool) (n : N) : list l_op := if p n then [LRemove n] else [].
Definition append (kids : N -> list N) (n : N) : list l_op := map LPushBack (kids n).

(** Working through a queue in which each element adds its [kids] at the end. *)
Inductive queue (kids : N -> list N) : list N -> list N -> Prop :=
| queue_nil : queue kids [] []
| queue_cons x pending all : queue kids (pending ++ kids x) all -> queue kids (x :: pending) (x :: all).
