(** What a user expects of call_by_need. *)
From Verif Require Import Base.

(** The arguments [base], ..., [base + l - 1]. *)
Definition window {A} (args : list A) (base l : nat) : list A := firstn l (skipn base args).
(** The arguments [f] gets: those that start leftmost and, from there, are longest. *)
Definition chosen {F A} (ok : F -> list A -> bool) (args : list A) (f : F) (bl : nat * nat) : Prop :=
  fst bl + snd bl <= length args /\ ok f (window args (fst bl) (snd bl)) = true /\
  forall b' l', b' + l' <= length args -> ok f (window args b' l') = true ->
    fst bl < b' \/ (fst bl = b' /\ l' <= snd bl).
(** An argument no function gets. *)
Definition unused (cs : list (nat * nat)) (i : nat) : Prop := Forall (fun bl => ~ (fst bl <= i < fst bl + snd bl)) cs.
(** [us] are the unused arguments, in order. *)
Definition passed_on {A} (args : list A) (cs : list (nat * nat)) (us : list A) : Prop :=
  exists is, (forall i, In i is <-> i < length args /\ unused cs i) /\
             (forall a b x y, a < b -> nth_error is a = Some x -> nth_error is b = Some y -> x < y) /\
             map Some us = map (nth_error args) is.
(** The functions are called in order, each once; [rs] are the results that are not void. *)
Inductive called {F A B W} (run : W -> F -> list A -> W * option B) (args : list A) : W -> list F -> list (nat * nat) -> W -> list B -> Prop :=
| called_none w : called run args w [] [] w []
| called_void w f bl w1 fs cs w2 rs : run w f (window args (fst bl) (snd bl)) = (w1, None) ->
    called run args w1 fs cs w2 rs -> called run args w (f :: fs) (bl :: cs) w2 rs
| called_value w f bl w1 v fs cs w2 rs : run w f (window args (fst bl) (snd bl)) = (w1, Some v) ->
    called run args w1 fs cs w2 rs -> called run args w (f :: fs) (bl :: cs) w2 (v :: rs).
