(** Which comparisons a lookup in a sequence of keys makes, and which the calls of the containers make, in terms of
    the elements a loop over the container sees. *)
From Verif Require Import Base CxSetModel CxMapModel CxMultimapModel KeyCmpModel.

(** An == that always answers, and always the same: [f]. *)
Definition answers {E T} (f : T -> T -> bool) : list E -> T -> T -> option bool := fun _ x t => Some (f x t).

(** The keys a lookup of [t] looks at: in order, the first that is equal to [t] is the last. *)
Fixpoint seen {T} (f : T -> T -> bool) (l : list T) (t : T) : list T :=
  match l with
  | [] => []
  | x :: r => x :: (if f x t then [] else seen f r t)
  end.

Section Spec.
Context {E : Type}.

Section Set_.
Context {T : Type} (ev : T -> T -> E) (f : T -> T -> bool).
(** The calls of ==: the stored key is the left operand, the one sought the right. *)
Definition lookup (l : list T) (t : T) : list E := map (fun x => ev x t) (seen f l t).
Definition holds (l : list T) (t : T) : bool := existsb (fun x => f x t) l.
(** Inserting the keys [ts] into a set of [l]. *)
Fixpoint merging (l ts : list T) : list E :=
  match ts with
  | [] => []
  | t :: r => lookup l t ++ merging (if holds l t then l else l ++ [t]) r
  end.
Definition set_compares (l : list T) (op : s_op T) : list E :=
  match op with
  | SInsert t | SErase t | SContains t => lookup l t
  | SMerge ts => merging l ts
  | SPop | SClear | SSize | SEmpty | SItems => []
  end.
End Set_.

Definition map_compares {K V} (ev : K -> K -> E) (f : K -> K -> bool) (l : list (K * V)) (op : m_op K V) : list E :=
  match op with
  | MPut k _ | MErase k | MGet k | MGetAssign k _ | MContains k => lookup ev f (map fst l) k
  | MPop | MClear | MSize | MEmpty | MFull | MItems => []
  end.

Section Multimap_.
Context {K V : Type} (kev : K -> K -> E) (kf : K -> K -> bool) (vev : V -> V -> E) (vf : V -> V -> bool).
(** The values of the first key equal to [k], if there is one. *)
Definition values (l : list (K * list V)) (k : K) : option (list V) :=
  option_map snd (find (fun e => kf (fst e) k) l).
(** Erasing [v] leaves no value. *)
Definition emptied (vs : list V) (v : V) : bool :=
  match vs with [] => true | [x] => vf x v | _ => false end.
Definition multimap_compares (l : list (K * list V)) (op : mm_op K V) : list E :=
  let keys := map fst l in
  match op with
  | MMInsert k v =>
      lookup kev kf keys k ++ lookup kev kf keys k ++
      match values l k with Some vs => lookup vev vf vs v | None => [] end
  | MMInsertKey k =>
      lookup kev kf keys k ++ match values l k with Some _ => [] | None => lookup kev kf keys k end
  | MMErase k v =>
      lookup kev kf keys k ++
      match values l k with
      | Some vs => lookup kev kf keys k ++ lookup vev vf vs v ++
                   (if emptied vs v then lookup kev kf keys k else [])
      | None => []
      end
  | MMEraseKey k | MMContains k => lookup kev kf keys k
  | MMContains2 k v =>
      lookup kev kf keys k ++
      match values l k with Some vs => lookup kev kf keys k ++ lookup vev vf vs v | None => [] end
  | MMOnSet k sop =>
      lookup kev kf keys k ++ match values l k with Some vs => set_compares vev vf vs sop | None => [] end
  | MMSize | MMEmpty | MMClear | MMItems => []
  end.
End Multimap_.
End Spec.

(** The keys a call is given, and those among them that it may store before it compares. *)
Definition set_args {T} (op : s_op T) : list T :=
  match op with SInsert t | SErase t | SContains t => [t] | SMerge ts => ts | _ => [] end.
Definition set_stores {T} (op : s_op T) : list T := match op with SMerge ts => ts | _ => [] end.
Definition map_args {K V} (op : m_op K V) : list K :=
  match op with MPut k _ | MErase k | MGet k | MGetAssign k _ | MContains k => [k] | _ => [] end.

(** ** The states a container can be in after any history of calls, those included that end because an == throws;
    [tr] is the calls of == made meanwhile. *)
Section Reached.
Context {E : Type}.
Inductive set_reached {T} (ev : T -> T -> E) eq (cap : N) (d : T) : cset T -> list E -> Prop :=
| set_made ts s : s_make cap d ts = Some s -> set_reached ev eq cap d s []
| set_called s tr op r s' tr' : set_reached ev eq cap d s tr ->
    cs_step ev eq op s tr = (r, s', tr') -> r <> Ub -> set_reached ev eq cap d s' tr'.
Inductive map_reached {K V} (ev : K -> K -> E) eq (cap : N) (d : K * V) : cmap K V -> list E -> Prop :=
| map_made es m : m_make cap d es = Some m -> map_reached ev eq cap d m []
| map_called m tr op r m' tr' : map_reached ev eq cap d m tr ->
    cm_step ev eq cap op m tr = (r, m', tr') -> r <> Ub -> map_reached ev eq cap d m' tr'.
Inductive multimap_reached {K V} (kev : K -> K -> E) keq (vev : V -> V -> E) veq (kcap vcap : N) (dk : K) (dv : V)
  : cmap K (cset V) -> list E -> Prop :=
| multimap_made m : mm_init kcap vcap dk dv = Some m -> multimap_reached kev keq vev veq kcap vcap dk dv m []
| multimap_called m tr op r m' tr' : multimap_reached kev keq vev veq kcap vcap dk dv m tr ->
    cmm_step kev keq vev veq vcap dv op m tr = (r, m', tr') -> r <> Ub ->
    multimap_reached kev keq vev veq kcap vcap dk dv m' tr'.
End Reached.

(** The same for a multimap, other than calls on the set that get() gives. *)
Definition on_set_call {K V} (op : mm_op K V) : bool := match op with MMOnSet _ _ => true | _ => false end.
Definition multimap_keys {K V} (op : mm_op K V) : list K :=
  match op with
  | MMInsert k _ | MMInsertKey k | MMErase k _ | MMEraseKey k | MMContains k | MMContains2 k _ | MMOnSet k _ => [k]
  | _ => []
  end.
Definition multimap_values {K V} (op : mm_op K V) : list V :=
  match op with MMInsert _ v | MMErase _ v | MMContains2 _ v => [v] | _ => [] end.

(** The calls that do all their comparisons before they change anything: all but merge() and erase(k, v). *)
Definition compares_first {T} (op : s_op T) : bool := match op with SMerge _ => false | _ => true end.
Definition multimap_compares_first {K V} (op : mm_op K V) : bool :=
  match op with MMErase _ _ => false | MMOnSet _ sop => compares_first sop | _ => true end.
