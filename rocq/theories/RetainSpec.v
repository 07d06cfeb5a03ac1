(** What the slots of a container hold besides its elements.  The models keep the whole
    storage, so this needs no further model: an object in a slot stays alive, with whatever it
    owns, until the slot is assigned or the container is destroyed. *)
From Verif Require Import Base CxVectorModel CxQueueModel CxSetModel CxMapModel.

(** The slots past the elements. *)
Definition unused {A} (size : N) (storage : list A) : list A := skipn (N.to_nat size) storage.
(** The values a call brings in. *)
Definition v_given {A} (o : v_op A) : list A :=
  match o with VPush x | VSet _ x => [x] | VOverwrite ws _ => map snd ws | _ => [] end.
Definition q_given {A} (o : q_op A) : list A :=
  match o with Push v | SetFront v | SetBack v => [v] | PushSet v w => [v; w] | _ => [] end.
Definition s_given {K} (o : s_op K) : list K :=
  match o with SInsert k => [k] | SMerge l => l | _ => [] end.
Definition m_given {K V} (o : m_op K V) : list V := match o with MPut _ v | MGetAssign _ v => [v] | _ => [] end.
Definition m_keys {K V} (o : m_op K V) : list K := match o with MPut k _ => [k] | _ => [] end.
(** The values a call hands out. *)
Definition v_got {A} (o : v_out A) : list A := match o with VVal x => [x] | VList l => l | _ => [] end.
Definition q_got {A} (o : q_out A) : list A := match o with OVal x => [x] | _ => [] end.
Definition s_got {K} (o : s_out K) : list K := match o with SKey k => [k] | SList l => l | _ => [] end.
Definition m_got {K V} (o : m_out K V) : list V :=
  match o with MVal v => [v] | MEntry e => [snd e] | MList l => map snd l | _ => [] end.
