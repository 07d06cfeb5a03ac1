(** What a user expects of a latched or cached value that threads share. *)
From Verif Require Import Base LatchedModel LatchThreadModel.

Section Spec.
Context {V : Type}.
Variable out : nat -> option V.

(** Two threads use the std::optional at the same time, and one of them changes it. *)
Definition races (s : system V) : Prop :=
  exists i j t u, i <> j /\ nth_error (snd s) i = Some t /\ nth_error (snd s) j = Some u /\
    next_access t = Writes /\ (next_access u = Reads \/ next_access u = Writes).
(** No schedule leads to a race or to undefined behaviour. *)
Definition safe (s : system V) : Prop := forall sched, exists s', run out s sched = Some s' /\ ~ races s'.
(** The calls that may be made on a const object. *)
Definition is_const (o : op) : bool := match o with Access | HasValue => true | Reset | Refresh => false end.
(** The calls that can change an object that holds [h]. *)
Definition changes (h : option V) (o : op) : bool :=
  match o with HasValue => false | Access => match h with Some _ => false | None => true end | Reset | Refresh => true end.
(** Of two threads, one makes a call that can change the object, and the other makes any call. *)
Definition conflict (h : option V) (progs : list (list op)) : Prop :=
  exists i j p q o, i <> j /\ nth_error progs i = Some p /\ nth_error progs j = Some q /\ In o p /\ changes h o = true /\ q <> [].
(** What the calls of one thread give if the value is [v] throughout. *)
Definition steady (v : V) (p : list op) : list (result V) := map (fun o => match o with HasValue => Says true | _ => Got v end) p.
(** The calls one after the other, each by the thread given: [turns] says whose turn it is. *)
Fixpoint in_turn (progs : list (list op)) (turns : list nat) : list (nat * op) :=
  match turns with
  | [] => []
  | i :: r => match nth_error progs i with
              | Some (o :: p) => (i, o) :: in_turn (firstn i progs ++ p :: skipn (S i) progs) r
              | _ => in_turn progs r
              end
  end.
(** The results that belong to thread [i]. *)
Definition of_thread (i : nat) (l : list (nat * op)) (rs : list (result V)) : list (result V) :=
  map snd (filter (fun x => Nat.eqb (fst (fst x)) i) (combine l rs)).
End Spec.
(** Calls that do not overlap: thread [i] makes one call from start to end, then the threads in [turns] make one each. *)
Inductive one_at_a_time {V} (out : nat -> option V) : system V -> list nat -> system V -> Prop :=
| NoMore s : one_at_a_time out s [] s
| NextCall s i k s1 o p rs rs' turns s2 :
    nth_error (snd s) i = Some (Thread Start (o :: p) rs) -> run out s (repeat i k) = Some s1 -> nth_error (snd s1) i = Some (Thread Start p rs') ->
    one_at_a_time out s1 turns s2 -> one_at_a_time out s (i :: turns) s2.
