(** What becomes of the element a reference designates: positions in the abstract lists. *)
From Verif Require Import Base CxQueueModel CxQueueSpec CxVectorModel CxVectorSpec CxSetModel CxMapModel.

(** The queue position of an element after an operation; [None]: it is gone. *)
Definition q_moves {A} (p : nat) (op : q_op A) : option nat :=
  match op with
  | Pop => match p with O => None | S p' => Some p' end
  | Clear => None
  | _ => Some p
  end.
Fixpoint q_follow {A} (p : nat) (ops : list (q_op A)) : option nat :=
  match ops with
  | [] => Some p
  | op :: r => match q_moves p op with Some p' => q_follow p' r | None => None end
  end.

(** Element [i] of the vector stays in it throughout the history: the list never gets
    [i] or fewer elements. *)
Fixpoint v_stays {A} (cap : N) (i : N) (l : list A) (ops : list (v_op A)) : Prop :=
  (i < len l)%N /\
  match ops with
  | [] => True
  | op :: r => match vlist_step cap l op with Some (l', _) => v_stays cap i l' r | None => False end
  end.

(** Operations of a map or set that remove nothing. *)
Definition m_keeps {K V} (op : m_op K V) : Prop :=
  match op with MErase _ | MPop | MClear => False | _ => True end.
Definition s_keeps {K} (op : s_op K) : Prop :=
  match op with SErase _ | SPop | SClear => False | _ => True end.
