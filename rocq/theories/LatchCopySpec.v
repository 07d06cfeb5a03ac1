(** What a user expects of copies of latched and cached values, told from what happened before. *)
From Verif Require Import Base LatchCopyModel.
Open Scope N_scope.

Section Spec.
Context {W V F : Type}.
Variable call : F -> W -> W * option V.
Variables (left_v : V -> V) (left_f : F -> F).
Variables (copyable assignable : bool).

(** The past: what was done and what it gave, the latest first. *)
Definition past := list (op V F * result V).
Definition got (r : result V) : option V := match r with Got v => Some v | _ => None end.

Definition creates (o : op V F) : bool := match o with Make _ | Copy _ | Move _ => true | _ => false end.
(** How many objects there are; the next one made gets this number. *)
Fixpoint population (h : past) : N :=
  match h with [] => 0 | (o, _) :: h' => if creates o then population h' + 1 else population h' end.

(** The value that object [i] holds: that of the last access or refresh, or what was written, or that of the object it
    was copied or moved from; none after a reset or a call that threw. *)
Fixpoint value_of (h : past) (i : N) : option V :=
  match h with
  | [] => None
  | (o, r) :: h' =>
      match o with
      | Make _ => if i =? population h' then None else value_of h' i
      | Copy j => if i =? population h' then value_of h' j else value_of h' i
      | Move j => if i =? population h' then value_of h' j
                  else if i =? j then option_map left_v (value_of h' i) else value_of h' i
      | CopyAssign k j => if i =? k then value_of h' j else value_of h' i
      | MoveAssign k j => if i =? k then value_of h' j
                          else if i =? j then option_map left_v (value_of h' i) else value_of h' i
      | Access k | Take k | Refresh k => if i =? k then got r else value_of h' i
      | HasValue _ => value_of h' i
      | Reset k => if i =? k then None else value_of h' i
      | Write k x => if i =? k then Some x else value_of h' i
      end
  end.
(** The function of object [i]. *)
Fixpoint function_of (h : past) (i : N) : option F :=
  match h with
  | [] => None
  | (o, _) :: h' =>
      match o with
      | Make f => if i =? population h' then Some f else function_of h' i
      | Copy j => if i =? population h' then function_of h' j else function_of h' i
      | Move j => if i =? population h' then function_of h' j
                  else if i =? j then option_map left_f (function_of h' i) else function_of h' i
      | CopyAssign k j => if i =? k then function_of h' j else function_of h' i
      | MoveAssign k j => if i =? k then function_of h' j
                          else if i =? j then option_map left_f (function_of h' i) else function_of h' i
      | _ => function_of h' i
      end
  end.

(** What compiles and is defined: the objects exist, values are copied only if they can be, and so on. *)
Definition allowed (h : past) (o : op V F) : Prop :=
  match o with
  | Make _ => True
  | Move i | Access i | HasValue i | Reset i | Refresh i => i < population h
  | Copy i | Take i => i < population h /\ copyable = true
  | CopyAssign i j => i < population h /\ j < population h /\ copyable = true /\ assignable = true
  | MoveAssign i j => i < population h /\ j < population h /\ i <> j /\ assignable = true
  | Write i _ => i < population h /\ value_of h i <> None
  end.

(** What a step gives after the past [h] in the world [w], the world after it and the functions called. *)
Definition evaluate (h : past) (i : N) (w : W) (r : result V) (w' : W) (fs : list F) : Prop :=
  exists f v, function_of h i = Some f /\ call f w = (w', v) /\ fs = [f] /\
  r = match v with Some v => Got v | None => Threw end.
Definition expected (h : past) (w : W) (o : op V F) (r : result V) (w' : W) (fs : list F) : Prop :=
  match o with
  | Access i | Take i =>
      match value_of h i with
      | Some v => r = Got v /\ w' = w /\ fs = []
      | None => evaluate h i w r w' fs
      end
  | Refresh i => evaluate h i w r w' fs
  | HasValue i => r = Says (match value_of h i with Some _ => true | None => false end) /\ w' = w /\ fs = []
  | _ => r = Nothing /\ w' = w /\ fs = []
  end.
(** All steps, one after the other. *)
Inductive explained : past -> W -> list (op V F) -> list (result V) -> W -> list F -> Prop :=
| nothing_left h w : explained h w [] [] w []
| one_more h w o r w1 fs1 os rs w2 fs2 :
    allowed h o -> expected h w o r w1 fs1 -> explained ((o, r) :: h) w1 os rs w2 fs2 ->
    explained h w (o :: os) (r :: rs) w2 (fs1 ++ fs2).

(** Steps that leave the value of object [i]. *)
Definition leaves (o : op V F) (i : N) : bool :=
  match o with
  | Make _ | Copy _ | Access _ | Take _ | HasValue _ => true
  | Move a | Reset a | Refresh a | Write a _ | CopyAssign a _ => negb (i =? a)
  | MoveAssign a b => negb ((i =? a) || (i =? b))
  end.
(** Copies and questions. *)
Definition looks (o : op V F) : bool := match o with Copy _ | Access _ | Take _ | HasValue _ => true | _ => false end.
End Spec.
