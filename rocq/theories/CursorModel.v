(** Model of the iterators of stdx::intrusive_list kept while the list changes, and of loops
    whose body changes the list (include/stdx/intrusive_list.hpp; the list operations are
    those of IntrusiveListModel.v).  An iterator is the node pointer it holds. *)
From Verif Require Import Base IntrusiveListModel.
Open Scope N_scope.

(** A list and the iterators the program holds. *)
Record walker := { lst : ilist; its : list (option N) }.
Inductive c_op :=
| Do (op : l_op)
| Begin (k : N)            (* its[k] = l.begin() *)
| End (k : N)              (* its[k] = l.end() *)
| Copy (k i : N)           (* its[k] = its[i] *)
| Deref (k : N)            (* the node of *its[k] *)
| Inc (k : N)              (* ++its[k] *)
| PostInc (k : N)          (* the node of *its[k]++ *)
| Equal (k i : N)          (* its[k] == its[i] *)
| InsertAt (k : N) (n : N). (* l.insert(its[k], &n) *)
Inductive c_out := Out (o : l_out) | CNode (n : N) | CBool (b : bool) | CUnit.

Definition ptr_eqb (a b : ptr) : bool :=
  match a, b with Some x, Some y => x =? y | None, None => true | _, _ => false end.
Definition set_it (s : walker) (k : N) (p : ptr) (o : c_out) : outcome l_panic walker c_out :=
  match wr (its s) k p with Some i => Done {| lst := lst s; its := i |} o [] | None => Undef end.
Definition on_list (pol : policy) (hd : handler) (s : walker) (op : l_op) : outcome l_panic walker c_out :=
  match l_step pol hd (lst s) op with
  | Done l o ps => Done {| lst := l; its := its s |} (Out o) ps
  | Stopped l p => Stopped {| lst := l; its := its s |} p
  | Undef => Undef
  end.
Definition c_step (pol : policy) (hd : handler) (s : walker) (op : c_op) : outcome l_panic walker c_out :=
  match op with
  | Do o => on_list pol hd s o
  | Begin k => set_it s k (head (lst s)) CUnit (* :105 *)
  | End k => set_it s k None CUnit (* :112 *)
  | Copy k i => match rd (its s) i with Some p => set_it s k p CUnit | None => Undef end
  | Deref k => (* :23-26 *)
      match rd (its s) k with
      | Some (Some n) => match get (heap (lst s)) (Some n) with Some _ => Done s (CNode n) [] | None => Undef end
      | _ => Undef
      end
  | Inc k => (* :28-31 *)
      match rd (its s) k with
      | Some p => match get (heap (lst s)) p with Some nd => set_it s k (next nd) CUnit | None => Undef end
      | None => Undef
      end
  | PostInc k => (* :32-36 *)
      match rd (its s) k with
      | Some (Some n) => match get (heap (lst s)) (Some n) with Some nd => set_it s k (next nd) (CNode n) | None => Undef end
      | _ => Undef
      end
  | Equal k i => (* :41-42 *)
      match rd (its s) k, rd (its s) i with
      | Some a, Some b => Done s (CBool (ptr_eqb a b)) []
      | _, _ => Undef
      end
  | InsertAt k n => (* :125-131 *)
      match rd (its s) k with Some p => on_list pol hd s (LInsert p n) | None => Undef end
  end.

(** Loops.  Late: for (auto it = l.begin(); it != l.end(); ++it) body( *it ), which is also what a
    range-based for loop does; early: for (auto it = l.begin(); it != l.end();) body( *it++ ).
    The body performs operations on the list that depend on the node it is given.  [More]:
    the loop has not ended after that many rounds.
    Simplification: a body that panics is reported as [Bad]. *)
Inductive turn := Early | Late.
Inductive loop_result := Finished (visited : list N) (s : ilist) | More | Bad.
Definition note (n : N) (r : loop_result) : loop_result :=
  match r with Finished l s => Finished (n :: l) s | x => x end.
Fixpoint loop (t : turn) (pol : policy) (hd : handler) (body : N -> list l_op) (rounds : nat) (s : ilist) (it : ptr) : loop_result :=
  match it with
  | None => Finished [] s
  | Some n =>
      match rounds with
      | O => More
      | S f =>
          match t with
          | Early =>
              match get (heap s) (Some n) with
              | Some nd =>
                  match run (l_step pol hd) s (body n) with
                  | Done s' _ [] => note n (loop t pol hd body f s' (next nd))
                  | _ => Bad
                  end
              | None => Bad
              end
          | Late =>
              match run (l_step pol hd) s (body n) with
              | Done s' _ [] =>
                  match get (heap s') (Some n) with
                  | Some nd => note n (loop t pol hd body f s' (next nd))
                  | None => Bad
                  end
              | _ => Bad
              end
          end
      end
  end.
Definition for_loop t pol hd body rounds s := loop t pol hd body rounds s (head s).
