(** C78 value categories, copies and moves of optional. *)
From Verif Require Import Base MoveModel MoveSpec OptMoveModel OptMoveSpec OptMoveProofs.

(** value and operator* refer to the value the optional holds, by the reference the optional has been
    given by. *)
Theorem C78_value : forall V (m : store V) q o, map loc (value q o) = o /\ map (sees m) (value q o) = map (fun l => (q, look m l)) o.
Proof. intros V m q o. rewrite value_eq, locs, map_map. now split. Qed.
Print Assumptions C78_value.
(** An rvalue optional with a value gives it up, others are copied; the default is used only without a
    value. *)
Theorem C78_value_or : forall V (is_tombstone : list (cell V) -> bool) mk (m : store V) q o d, NoDup o -> exclusive d ->
  (is_tombstone (map (look m) o) = false -> exists m', value_or is_tombstone mk m q o d = (m', map (look m) o) /\ spent q o m m') /\
  (is_tombstone (map (look m) o) <> false -> exists m', value_or is_tombstone mk m q o d = (m', mk (values_of m d)) /\ left_behind m d m').
Proof. intros V. exact value_or_ok. Qed.
Print Assumptions C78_value_or.
Theorem C78_or_else : forall V (is_tombstone : list (cell V) -> bool) W (w : W) (m : store V) q o f, NoDup o ->
  (is_tombstone (map (look m) o) = false -> exists m', or_else is_tombstone (w, m) q o f = ((w, m'), map (look m) o) /\ spent q o m m') /\
  (is_tombstone (map (look m) o) <> false -> or_else is_tombstone (w, m) q o f = f w m).
Proof. intros V is_tombstone W. exact (or_else_ok is_tombstone). Qed.
Print Assumptions C78_or_else.
(** The function is called once, on the value itself, by the reference the optional has been given by;
    without a value it is not called. *)
Theorem C78_transform : forall V (is_tombstone : list (cell V) -> bool) W R (empty : R) (f : fn V W R) w m q o, an_object m o ->
  (is_tombstone (map (look m) o) = false -> exists w' r xs m', f w (map (fun l => (q, look m l)) o) = (w', r, xs) /\
     transform is_tombstone empty f (w, m) q o = ((w', m'), r) /\ left_by (map (pair q) o) xs m m') /\
  (is_tombstone (map (look m) o) <> false -> transform is_tombstone empty f (w, m) q o = ((w, m), empty)).
Proof. intros V is_tombstone W R. exact (transform_ok is_tombstone). Qed.
Print Assumptions C78_transform.
Theorem C78_and_then : forall V (is_tombstone : list (cell V) -> bool) W R (empty : R) (f : fn V W R) w m q o, an_object m o ->
  (is_tombstone (map (look m) o) = false -> exists w' r xs m', f w (map (fun l => (q, look m l)) o) = (w', r, xs) /\
     and_then is_tombstone empty f (w, m) q o = ((w', m'), r) /\ left_by (map (pair q) o) xs m m') /\
  (is_tombstone (map (look m) o) <> false -> and_then is_tombstone empty f (w, m) q o = ((w, m), empty)).
Proof. intros V is_tombstone W R. exact (transform_ok is_tombstone). Qed.
Print Assumptions C78_and_then.
(** Of several optionals. *)
Theorem C78_transform_all : forall V (is_tombstone : list (cell V) -> bool) W R (empty : R) (f : fn V W R) w (m : store V) os,
  apart (parts_of os) -> Forall (fun l => l < length m) (map snd (parts_of os)) ->
  ((forall p, In p os -> is_tombstone (map (look m) (snd p)) = false) -> exists w' r xs m', f w (visible m (parts_of os)) = (w', r, xs) /\
     transform_all is_tombstone empty f (w, m) os = ((w', m'), r) /\ left_by (parts_of os) xs m m') /\
  ((exists p, In p os /\ is_tombstone (map (look m) (snd p)) <> false) -> transform_all is_tombstone empty f (w, m) os = ((w, m), empty)).
Proof. intros V is_tombstone W R. exact (transform_all_ok is_tombstone). Qed.
Print Assumptions C78_transform_all.
(** Copying or moving an optional. *)
Theorem C78_copy_move : forall V (m : store V) q o, NoDup o ->
  exists m', construct (fun vs => vs) m (value q o) = (m', map (look m) o) /\ spent q o m m'.
Proof. intros V m q o N. unfold construct, make. destruct (build_value q o m N) as (m' & E & S). exists m'. now rewrite E. Qed.
Print Assumptions C78_copy_move.
(** Changes: what the new value is made of is copied or moved once, and nothing else changes. *)
Theorem C78_emplace : forall V mk (m : store V) o us, an_object m o -> exclusive us -> length (mk (values_of m us)) = length o ->
  ((forall u, In u us -> ~ In (loc u) o) -> exists m1 m', emplace mk m o us = Some m' /\ left_behind m us m1 /\ now_has o (mk (values_of m us)) m1 m') /\
  ((exists u, In u us /\ In (loc u) o) -> emplace mk m o us = None).
Proof. intros V mk m o us A X E. split; [now apply emplace_ok|apply emplace_own]. Qed.
Print Assumptions C78_emplace.
Theorem C78_assign : forall V mk (m : store V) o us, an_object m o -> exclusive us -> length (mk (values_of m us)) = length o ->
  exists m1, left_behind m us m1 /\ now_has o (mk (values_of m us)) m1 (assign mk m o us).
Proof. intros V. exact assign_ok. Qed.
Print Assumptions C78_assign.
Theorem C78_reset : forall V (ts : list V) (m : store V) o, an_object m o -> length ts = length o -> now_has o (map Value ts) m (reset ts m o).
Proof. intros V. exact reset_ok. Qed.
Print Assumptions C78_reset.

(** A tuple of a [7] and an [8] at 0 and 1, the tombstone [0, 0] at 2 and 3; a function that takes its
    first argument away if it can, and counts. *)
Example C78_example :
  let m := [Value 7; Value 8; Value 0; Value 0; Value 5; Value 6] in
  let is_tombstone (c : list (cell nat)) := match c with [Value 0; Value 0] => true | _ => false end in
  let take : fn nat nat (list (quals * cell nat)) := fun w args => (S w, args, match args with _ :: r => Gone :: map snd r | [] => [] end) in
  an_object m [0; 1] /\ apart (parts_of [(RRef, [0; 1]); (CLRef, [4; 5])]) /\ exclusive (value RRef [4; 5]) /\
  value_or is_tombstone (fun v => v) m RRef [0; 1] (value RRef [4; 5]) = ([Gone; Gone; Value 0; Value 0; Value 5; Value 6], [Value 7; Value 8]) /\
  value_or is_tombstone (fun v => v) m CRRef [0; 1] (value RRef [4; 5]) = (m, [Value 7; Value 8]) /\
  value_or is_tombstone (fun v => v) m RRef [2; 3] (value RRef [4; 5]) = ([Value 7; Value 8; Value 0; Value 0; Gone; Gone], [Value 5; Value 6]) /\
  transform is_tombstone [] take (0, m) CRRef [0; 1] = ((1, m), [(CRRef, Value 7); (CRRef, Value 8)]) /\
  transform is_tombstone [] take (0, m) RRef [0; 1] = ((1, [Gone; Value 8; Value 0; Value 0; Value 5; Value 6]), [(RRef, Value 7); (RRef, Value 8)]) /\
  transform is_tombstone [] take (0, m) RRef [2; 3] = ((0, m), []) /\
  transform_all is_tombstone [] take (0, m) [(RRef, [0; 1]); (CLRef, [4; 5])] =
    ((1, [Gone; Value 8; Value 0; Value 0; Value 5; Value 6]), [(RRef, Value 7); (RRef, Value 8); (CLRef, Value 5); (CLRef, Value 6)]) /\
  emplace (fun v => v) m [2; 3] (value RRef [0; 1]) = Some [Gone; Gone; Value 7; Value 8; Value 5; Value 6] /\
  assign (fun v => v) m [2; 3] (value LRef [0; 1]) = [Value 7; Value 8; Value 7; Value 8; Value 5; Value 6].
Proof.
  split; [split; [repeat constructor; cbn; lia|repeat constructor; cbn; lia]|]. split.
  { intros [|[|[|[|[|i]]]]] [|[|[|[|[|j]]]]] q q' l H1 H2 _; cbn in *; try discriminate; try lia; congruence. }
  split; [apply (exclusive_name RRef [4; 5]); repeat constructor; cbn; lia|]. repeat split.
Qed.
