(** Which nodes a call of an intrusive list may touch, in terms of the sequence of nodes the list is (IntrusiveListSpec,
    ForwardListSpec), and the calls whose work grows with the list. *)
From Verif Require Import Base IntrusiveListModel IntrusiveListSpec ForwardListModel ForwardListSpec TouchModel.

Definition node_of (a : access) : N := match a with Read n _ | Write n _ => n end.
Definition some (p : ptr) : list N := match p with Some n => [n] | None => [] end.

(** A node and its neighbours. *)
Definition around (m : lspec) (n : N) : list N :=
  n :: some (prev (links m n)) ++ some (next (links m n)).

(** clear() and the walks over the list. *)
Definition long (op : l_op) : bool :=
  match op with LClear | LItems | LRItems => true | _ => false end.

(** The nodes the other calls may touch. *)
Definition near (m : lspec) (op : l_op) : list N :=
  match op with
  | LPushFront n => n :: some (hd_error (seq m))
  | LPushBack n => n :: some (hd_error (rev (seq m)))
  | LInsert (Some p) n => n :: p :: some (prev (links m p))
  | LInsert None n => n :: some (hd_error (rev (seq m)))
  | LPopFront => match seq m with n :: _ => around m n | [] => [] end
  | LPopBack => match rev (seq m) with n :: _ => around m n | [] => [] end
  | LRemove n => around m n
  | LLinks n => [n]
  | LEmpty | LFront | LBack | LClear | LItems | LRItems => []
  end.

(** The accesses of the long calls: each node of the list in turn. *)
Definition sweep (pol : policy) (m : lspec) (op : l_op) : list access :=
  match op with
  | LClear =>
      match pol with
      | Checked => flat_map (fun n => [Write n Prev; Read n Next; Write n Next]) (seq m)
      | Unchecked => []
      end
  | LItems => map (fun n => Read n Next) (seq m)
  | LRItems => map (fun n => Read n Prev) (rev (seq m))
  | _ => []
  end.

(** The same for the forward list. *)
Definition f_long (op : f_op) : bool := match op with FClear | FItems => true | _ => false end.
Definition f_near (m : fspec) (op : f_op) : list N :=
  match op with
  | FPushFront n | FNext n => [n]
  | FPushBack n => n :: some (hd_error (rev (fseq m)))
  | FPopFront => some (hd_error (fseq m))
  | FClear | FEmpty | FFront | FBack | FItems => []
  end.
Definition f_sweep (pol : policy) (m : fspec) (op : f_op) : list access :=
  match op with
  | FClear =>
      match pol with
      | Checked => flat_map (fun n => [Read n Next; Write n Next]) (fseq m)
      | Unchecked => []
      end
  | FItems => map (fun n => Read n Next) (fseq m)
  | _ => []
  end.

(** The node given to a call. *)
Definition given (op : l_op) : list N :=
  match op with LPushFront n | LPushBack n | LInsert _ n | LLinks n => [n] | _ => [] end.
Definition f_given (op : f_op) : list N :=
  match op with FPushFront n | FPushBack n | FNext n => [n] | _ => [] end.
