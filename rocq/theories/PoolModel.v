(** Model of several stdx::intrusive_list objects whose nodes live in one memory
    (include/stdx/intrusive_list.hpp; the operations of one list are those of
    IntrusiveListModel.v), and of the copy and move construction and assignment of the lists
    themselves, which the class does not declare and so copy the two pointers
    (intrusive_list.hpp:57-58), and of its destructor, which does nothing. *)
From Verif Require Import Base IntrusiveListModel.
Open Scope N_scope.

Record pool := { ends : list (ptr * ptr); memory : list node }.
Inductive p_op :=
| On (i : N) (op : l_op)
| Assign (j i : N) (* list j = list i, or list j = std::move(list i) *)
| Swap (i j : N) (* std::swap(list i, list j): a copy and two assignments *)
| Fresh (i : N). (* list i = {}, or list i is destroyed and a new one is made *)

Definition as_list (e : ptr * ptr) (h : list node) : ilist := {| head := fst e; tail := snd e; heap := h |}.
Definition put_back (s : pool) (i : N) (l : ilist) : option pool :=
  match wr (ends s) i (head l, tail l) with Some e => Some {| ends := e; memory := heap l |} | None => None end.
Definition p_step (pol : policy) (hd : handler) (s : pool) (op : p_op) : outcome l_panic pool l_out :=
  match op with
  | On i o =>
      match rd (ends s) i with
      | None => Undef
      | Some e =>
          match l_step pol hd (as_list e (memory s)) o with
          | Done l x ps => match put_back s i l with Some s' => Done s' x ps | None => Undef end
          | Stopped l p => match put_back s i l with Some s' => Stopped s' p | None => Undef end
          | Undef => Undef
          end
      end
  | Assign j i =>
      match rd (ends s) i with
      | None => Undef
      | Some e => match wr (ends s) j e with Some es => Done {| ends := es; memory := memory s |} LUnit [] | None => Undef end
      end
  | Swap i j =>
      match rd (ends s) i, rd (ends s) j with
      | Some t, Some b =>
          match wr (ends s) i b with
          | Some es => match wr es j t with Some es' => Done {| ends := es'; memory := memory s |} LUnit [] | None => Undef end
          | None => Undef
          end
      | _, _ => Undef
      end
  | Fresh i => match wr (ends s) i (None, None) with Some es => Done {| ends := es; memory := memory s |} LUnit [] | None => Undef end
  end.
(** c empty lists and k nodes with null links. *)
Definition p_init (c k : nat) : pool :=
  {| ends := repeat (None, None) c; memory := repeat {| prev := None; next := None |} k |}.
