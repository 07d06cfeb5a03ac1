(** Threads that share several atomic and atomic_bitset objects, with the memory orders that the
    calls pass on to ::atomic::load, store, exchange and the fetch functions.

    RelaxedModel describes what holds of one object for any memory orders.  Here there are several
    objects, and the rules of the C++ standard that relate them: happens-before, built from the
    program order and from release operations read by acquire operations ([intro.races],
    [atomics.order]), and the single order of all memory_order_seq_cst operations.  Fences and
    non-atomic objects are left out; memory_order_consume is treated like memory_order_relaxed, which
    only adds executions.  So does leaving out that the order of the memory_order_seq_cst operations
    is also consistent with happens-before between threads. *)
From Verif Require Import Base BitModel ConcModel RelaxedModel AtomicModel AtomicBitsetModel.
Open Scope nat_scope.

Inductive memory_order := Relaxed | Consume | Acquire | Release | AcqRel | SeqCst.

(** A call in progress: as ConcModel.prog, with the object and the memory order of each primitive. *)
Inductive mprog (Out : Type) :=
| MRet (o : Out)
| MBad
| MDo (x : nat) (p : prim) (mo : memory_order) (k : N -> mprog Out).
Arguments MRet {Out} _.
Arguments MBad {Out}.
Arguments MDo {Out} _ _ _ _.

(** Loads cannot release, stores cannot acquire: [atomics.types.operations]. *)
Definition allowed (p : prim) (mo : memory_order) : bool :=
  match p, mo with
  | PLoad, (Release | AcqRel) => false
  | PStore _, (Consume | Acquire | AcqRel) => false
  | _, _ => true
  end.
(** The program of a call on object [x], its primitives performed with the order [mo]. *)
Fixpoint on_object {A Out} (f : A -> Out) (x : nat) (mo : memory_order) (q : prog A) : mprog Out :=
  match q with
  | Ret o => MRet (f o)
  | Bad => MBad
  | Do p k => if allowed p mo then MDo x p mo (fun r => on_object f x mo (k r)) else MBad
  end.

(** ** Memory orders of the calls *)
(** [None]: the call takes no such argument. *)
Definition given (mo : option memory_order) : option memory_order := match mo with Some m => Some m | None => Some SeqCst end.
Definition takes_none (mo : option memory_order) : option memory_order := match mo with Some _ => None | None => Some SeqCst end.

(** atomic_bitset.hpp: a call with or without a memory_order argument, or the conversion to bitset. *)
Inductive bits_call := BCall (op : abop) (mo : option memory_order) | BConvert.
Definition bits_op (c : bits_call) : abop := match c with BCall op _ => op | BConvert (* :105-107 *) => OLoad end.
Definition bits_order (c : bits_call) : option memory_order :=
  match c with
  | BConvert (* :106 *) => Some SeqCst
  | BCall op mo =>
      match op with
      | OSet _ _ (* :124-134 *) => given mo
      | OSetRange _ _ _ (* :136-145 *) => given mo
      | OSetLen _ _ _ (* :147-152 *) => given mo
      | OSetAll (* :154-158 *) => given mo
      | OReset _ (* :160-166 *) => given mo
      | OResetRange _ _ (* :168-175 *) => given mo
      | OResetLen _ _ (* :177-183 *) => given mo
      | OResetAll (* :185-190 *) => given mo
      | OFlip _ (* :192-198 *) => given mo
      | OFlipRange _ _ (* :200-206 *) => given mo
      | OFlipLen _ _ (* :208-213 *) => given mo
      | OFlipAll (* :215-217 *) => given mo
      | OLoad (* :109-112 *) => given mo
      | OStore _ (* :113-116 *) => given mo
      | OGet _ (* :120-122: load() *) => takes_none mo
      | OTo _ (* :86-96 *) => given mo
      | OToNatural (* :98-102 *) => given mo
      | OAll (* :219-222 *) => given mo
      | OAny (* :223-226 *) => given mo
      | ONone (* :227-230 *) => given mo
      | OCount (* :232-236 *) => given mo
      end
  end.

(** atomic.hpp: a call with or without a memory_order argument, or the conversion to T.  operator++ and
    operator-- (:86-101) leave the order to the default argument of ::atomic::fetch_add and fetch_sub,
    which is memory_order_seq_cst. *)
Inductive int_call := ICall (op : aop) (mo : option memory_order) | IConvert.
Definition int_op (c : int_call) : aop := match c with ICall op _ => op | IConvert (* :62 *) => ALoad end.
Definition int_order (c : int_call) : option memory_order :=
  match c with
  | IConvert (* :62: load() *) => Some SeqCst
  | ICall op mo =>
      match op with
      | ALoad (* :52-55 *) => given mo
      | AStore _ (* :57-59 *) => given mo
      | AAssign _ (* :64-67: store(t) *) => takes_none mo
      | AExchange _ (* :69-72 *) => given mo
      | AFetchAdd _ (* :74-77 *) => given mo
      | AFetchSub _ (* :78-81 *) => given mo
      | AAddEq _ | ASubEq _ (* :83-84: fetch_add(t), fetch_sub(t) *) => takes_none mo
      | APreInc | APostInc | APreDec | APostDec (* :86-101 *) => takes_none mo
      | AFetchAnd _ (* :103-106 *) => given mo
      | AFetchOr _ (* :107-110 *) => given mo
      | AFetchXor _ (* :111-114 *) => given mo
      | AAndEq _ | AOrEq _ | AXorEq _ (* :116-118 *) => takes_none mo
      end
  end.

(** ** Objects *)
(** The parameters of AtomicBitsetModel and AtomicModel. *)
Inductive object_type := Bits (pl : platform) (n w sw : N) (same64 : bool) | Int (int_w w ew : N) (sg esg : bool).
Definition word_of (t : object_type) : N := match t with Bits _ _ w _ _ => w | Int _ _ ew _ _ => ew end.
Inductive request := BitsCall (c : bits_call) | IntCall (c : int_call).
Inductive reply := BitsReply (o : about) | IntReply (o : option N).
(** A call names its object. *)
Record call := Call { target : nat; asked : request }.
Definition code (objs : nat -> object_type) (c : call) : mprog reply :=
  match objs (target c), asked c with
  | Bits pl n w sw same64, BitsCall b =>
      match bits_order b with
      | Some mo => on_object BitsReply (target c) mo (abcode pl n w sw same64 (bits_op b))
      | None => MBad
      end
  | Int int_w w ew sg esg, IntCall i =>
      match int_order i with
      | Some mo => on_object IntReply (target c) mo (acode int_w w ew sg esg (int_op i))
      | None => MBad
      end
  | _, _ => MBad
  end.

(** ** Executions *)
Record mevent := { object : nat; order : memory_order; what : aevent }.
(** The events on object [x], as in RelaxedModel. *)
Definition on (x : nat) (evs : list mevent) : list aevent := map what (filter (fun e => object e =? x) evs).

(** Events are named by their thread and their number in it. *)
Definition name := (nat * nat)%type.
Definition event_at (evss : list (list mevent)) (a : name) : option mevent :=
  match nth_error evss (fst a) with Some evs => nth_error evs (snd a) | None => None end.

Definition releases (mo : memory_order) : bool := match mo with Release | AcqRel | SeqCst => true | _ => false end.
Definition acquires (mo : memory_order) : bool := match mo with Acquire | AcqRel | SeqCst => true | _ => false end.
(** [atomics.order]: [b] acquires what [a] releases if it reads what [a] wrote, or a later
    modification of the release sequence of [a]: one that follows [a] with nothing but
    read-modify-writes from there on. *)
Definition synchronizes (evss : list (list mevent)) (a b : name) : Prop :=
  exists ea eb i j, event_at evss a = Some ea /\ event_at evss b = Some eb /\ object ea = object eb /\
    releases (order ea) = true /\ acquires (order eb) = true /\
    writes_at (what ea) = Some i /\ reads_at (what eb) = Some j /\ i <= j /\
    forall e k, In e (concat evss) -> object e = object ea -> writes_at (what e) = Some k -> i < k <= j -> reads_at (what e) <> None.
Definition sequenced (a b : name) : Prop := fst a = fst b /\ snd a < snd b.
Inductive happens_before (evss : list (list mevent)) : name -> name -> Prop :=
| hb_sequenced a b : sequenced a b -> happens_before evss a b
| hb_synchronizes a b : synchronizes evss a b -> happens_before evss a b
| hb_then a b c : happens_before evss a b -> happens_before evss b c -> happens_before evss a c.

(** [atomics.order]: coherence-ordered before, for events on one object: through a modification that is
    read, the modification order, a modification that comes after the one read, or several of these. *)
Definition coherence_before (a b : aevent) : Prop :=
  (exists i j, writes_at a = Some i /\ writes_at b = Some j /\ i < j) \/
  (exists i j, writes_at a = Some i /\ reads_at b = Some j /\ i <= j) \/
  (exists i j, reads_at a = Some i /\ writes_at b = Some j /\ i < j) \/
  (exists i j, reads_at a = Some i /\ reads_at b = Some j /\ i < j).

(** [s] is an order of all elements of the lists [ls] that keeps the order of each list. *)
Definition merges {A} (s : list (nat * A)) (ls : list (list A)) : Prop :=
  forall i, map snd (filter (fun e => fst e =? i) s) = nth i ls [].
Definition is_seq_cst (e : mevent) : bool := match order e with SeqCst => true | _ => false end.

(** The events of the threads; [contents x k]: the word of object [x] after [k] of its [n x]
    modifications. *)
Record mexecution (w : nat -> N) (contents : nat -> nat -> N) (n : nat -> nat) (evss : list (list mevent)) : Prop := {
  each_object : forall x, execution (w x) (contents x) (n x) (map (on x) evss);
  hb_coherence : forall a b ea eb, happens_before evss a b -> event_at evss a = Some ea -> event_at evss b = Some eb ->
    object ea = object eb -> coherent (what ea) (what eb);
  seq_cst_order : exists s, merges s (map (filter is_seq_cst) evss) /\
    ForallOrdPairs (fun a b => object (snd a) = object (snd b) -> ~ coherence_before (what (snd b)) (what (snd a))) s }.

(** ** Threads *)
Section Threads.
Context {Op Out : Type}.
Variable run : Op -> mprog Out.
Record mthread := MThread { mcur : option (Op * mprog Out); mtodo : list Op }.
(** A thread on its own, as in RelaxedModel. *)
Inductive mperforms : mthread -> list mevent -> mthread -> list (Op * Out) -> Prop :=
| mp_stop t : mperforms t [] t []
| mp_call op rest evs t' outs : mperforms (MThread (Some (op, run op)) rest) evs t' outs -> mperforms (MThread None (op :: rest)) evs t' outs
| mp_do op x p mo k rest r n evs t' outs : mperforms (MThread (Some (op, k r)) rest) evs t' outs ->
    mperforms (MThread (Some (op, MDo x p mo k)) rest)
      ({| object := x; order := mo; what := {| performed := p; got := r; place := n |} |} :: evs) t' outs
| mp_return op o rest evs t' outs : mperforms (MThread None rest) evs t' outs ->
    mperforms (MThread (Some (op, MRet o)) rest) evs t' ((op, o) :: outs).
Inductive mall_perform : list mthread -> list (list mevent) -> list mthread -> list (list (Op * Out)) -> Prop :=
| map_none : mall_perform [] [] [] []
| map_more t evs t' outs ts evss ts' outss : mperforms t evs t' outs -> mall_perform ts evss ts' outss ->
    mall_perform (t :: ts) (evs :: evss) (t' :: ts') (outs :: outss).
Definition mstart (programs : list (list Op)) : list mthread := map (MThread None) programs.
End Threads.
Arguments mthread : clear implicits.
