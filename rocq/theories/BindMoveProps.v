(** C79 binders own what they bind. *)
From Verif Require Import Base BaseLemmas MoveModel MoveSpec MoveProofs4 OptMoveModel OptMoveSpec OptMoveProofs BindMoveModel BindMoveSpec BindMoveProofs.

(** Binding copies lvalues and moves rvalues into new objects, and changes nothing else. *)
Theorem C79_bind : forall V (m : store V) (f : ref quals) args, exclusive (f :: args) -> present m (f :: args) -> exists m' b,
  bind false m f args = Some (m', b) /\ ready b m' /\ length (callee b) = 1 /\
  map (look m') (callee b) = [look m (loc f)] /\ map (look m') (bound b) = map (fun a => look m (loc a)) args /\
  (forall l, In l (own b) -> length m <= l) /\
  (forall l, l < length m -> (given_up (f :: args) l -> look m' l = Gone) /\ (~ given_up (f :: args) l -> look m' l = look m l)).
Proof. intros V. exact bind_ok. Qed.
Print Assumptions C79_bind.
Theorem C79_bind_value : forall V (m : store V) args, exclusive args -> present m args -> exists m' b,
  bind_value m args = (m', b) /\ ready b m' /\ callee b = [] /\ map (look m') (bound b) = map (fun a => look m (loc a)) args /\
  (forall l, In l (own b) -> length m <= l) /\
  (forall l, l < length m -> (given_up args l -> look m' l = Gone) /\ (~ given_up args l -> look m' l = look m l)).
Proof. intros V. exact bind_value_ok. Qed.
Print Assumptions C79_bind_value.

(** Whatever happens to other objects, every call gives the function what the binder owns: what was
    bound, or what earlier calls of the binder as an lvalue or rvalue have left of it. *)
Theorem C79_history_partial : forall V W R front (f : fn V W R) b (w : W) (m : store V) es s' r,
  honest f -> ready b m -> legal b (length m) es -> history front f b (w, m) es = (s', r) ->
  exists c', goes front f (Closure w (map (look m) (callee b)) (map (look m) (bound b)) (look m) (length m)) es c' r /\ stands_for b s' c'.
Proof.
  intros V W R front f b w m es s' r Hf Rd L H. apply (history_ok front f b es (w, m)); try assumption. now split.
Qed.
Print Assumptions C79_history_partial.
(** Calls of a const binder change nothing in it, whatever the function does. *)
Theorem C79_const : forall V W R front (f : fn V W R) b (w : W) (m : store V) es w' m' r,
  honest f -> ready b m -> legal b (length m) es -> (forall q args, In (Call q args) es -> constant q = true) ->
  history front f b (w, m) es = ((w', m'), r) -> map (look m') (own b) = map (look m) (own b).
Proof.
  intros V W R front f b w m es w' m' r Hf Rd L Q H. destruct (C79_history_partial V W R front f b w m es _ r Hf Rd L H) as (c' & G & S).
  destruct (const_goes front f _ _ _ _ G Q) as [A B]. destruct S as [_ S2 S3 _ _]. unfold own. rewrite !map_app. cbn [snd] in *. rewrite S2, S3, A, B. reflexivity.
Qed.
Print Assumptions C79_const.

(** std::bind_front gives a function that is called through a const rvalue const rvalues; here they are
    const lvalues.  [spy] returns what it sees. *)
Definition spy {V} : fn V unit (list (quals * cell V)) := fun w args => (w, args, map snd args).
Theorem C79_const_rvalue_refuted : forall V (m : store V) b args,
  snd (call_front spy (tt, m) CRRef b args) = map (fun l => (CLRef, look m l)) (own b) ++ map (sees m) args /\
  (own b <> [] -> snd (call_front spy (tt, m) CRRef b args) <> map (fun l => (std_given CRRef, look m l)) (own b) ++ map (sees m) args).
Proof.
  intros V m b args. assert (E : snd (call_front spy (tt, m) CRRef b args) = map (fun l => (CLRef, look m l)) (own b) ++ map (sees m) args).
  { unfold call_front, calls_fn, spy, own. cbn [fst snd overload]. rewrite !map_app, !map_map, app_assoc. reflexivity. }
  split; [exact E|]. rewrite E. destruct (own b) as [|l ls]; [congruence|]. cbn [map app]. intros _ H. injection H. discriminate.
Qed.
Print Assumptions C79_const_rvalue_refuted.
(** A function that returns its last argument, as a reference: std::bind_front returns the reference.
    Here the result is a new object, and if the reference is to an rvalue the argument is moved from. *)
Definition last_as {V} (q : quals) : fn V unit (nat * quals) := fun w args => (w, (length args - 1, q), map snd args).
Lemma write_back V (rs : list (ref quals)) (m : store V) : write_all m rs (map snd (map (sees m) rs)) = m.
Proof.
  rewrite map_map. cbn. induction rs as [|r rs IH]; [reflexivity|]. cbn [map]. rewrite write_all_cons.
  assert (E : write m r (look m (loc r)) = m).
  { unfold write. destruct (cat r); [reflexivity| |]; unfold look; clear; generalize (loc r); induction m as [|x m IH]; intros [|n]; cbn; try reflexivity; now rewrite IH. }
  now rewrite E.
Qed.
Theorem C79_result_refuted : forall V (m : store V) b args q k l, l < length m ->
  call_front_auto (last_as k) (tt, m) q b (args ++ [name q l]) = Some ((tt, match k with RRef => set_nth l Gone m | _ => m end), look m l).
Proof.
  intros V m b args q k l H. unfold call_front_auto, call_front, calls_fn, last_as. cbn [fst snd].
  rewrite write_back, map_length. cbn [fst snd].
  match goal with |- context [nth_error ?L ?n] => assert (E : nth_error L n = Some (name q l)) end.
  { rewrite !app_assoc. rewrite (app_length _ [name q l]). cbn [length]. rewrite nth_error_app2 by lia.
    match goal with |- nth_error _ ?x = _ => replace x with 0 by lia end. reflexivity. }
  rewrite E. cbn [loc name]. destruct k; reflexivity.
Qed.
Print Assumptions C79_result_refuted.
(** A function cannot be bound by its name (std::bind_front keeps a pointer to it). *)
Theorem C79_function_refuted : forall V (m : store V) f args, bind true m f args = None.
Proof. reflexivity. Qed.
Print Assumptions C79_function_refuted.

(** A counter as function object at 0, and a value at 1 that is moved into the binder.  The function
    counts in itself if it can, and returns what it sees. *)
Example C79_example :
  let m := [Value 100; Value 7; Value 9] in
  let count : fn nat unit (list (quals * cell nat)) := fun w args => (w, args, match args with (_, Value n) :: r => Value (S n) :: map snd r | _ => map snd args end) in
  let b := Binder [3] [4] in
  let es := [Call LRef [(LRef, 2)]; Change 0 (Value 55); Change 1 (Value 66); New (Value 8); Call CLRef [(RRef, 5)]; Call RRef []] in
  exclusive [name LRef 0; name RRef 1] /\ present m [name LRef 0; name RRef 1] /\
  bind false m (name LRef 0) [name RRef 1] = Some ([Value 100; Gone; Value 9; Value 100; Value 7], b) /\
  honest count /\ legal b 5 es /\
  history true count b (tt, [Value 100; Gone; Value 9; Value 100; Value 7]) es =
    ((tt, [Value 55; Value 66; Value 9; Value 102; Value 7; Value 8]),
     [[(LRef, Value 100); (LRef, Value 7); (LRef, Value 9)]; [(CLRef, Value 101); (CLRef, Value 7); (RRef, Value 8)]; [(RRef, Value 101); (RRef, Value 7)]]) /\
  history false count b (tt, [Value 100; Gone; Value 9; Value 100; Value 7]) [Call LRef [(LRef, 2)]] =
    ((tt, [Value 100; Gone; Value 9; Value 101; Value 7]), [[(LRef, Value 100); (LRef, Value 9); (LRef, Value 7)]]).
Proof.
  split; [intros r [<-|[<-|[]]] C; now cbn in *|]. split; [repeat constructor; cbn; lia|]. split; [reflexivity|]. split.
  { intros w [|[q [n|]] args]; cbn; rewrite ?map_length; reflexivity. }
  split; [cbn; repeat (split || constructor); cbn; lia|]. split; reflexivity.
Qed.
