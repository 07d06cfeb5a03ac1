(** The assertions of /repo/test/algorithm.cpp, numeric.cpp and rollover.cpp evaluated in the
    models: they check the models against the behaviour the repository's own tests record.
    They are tests, not the property theorems. *)
From Verif Require Import Base Ints AlgorithmModel SaturateModel RolloverModel.
Open Scope ub_scope.
Open Scope Z_scope.

(** The world: the input array, the output array, and how many times the function was called (the
    captured iterator).  Container 0 is the input, container 1 the output, container 2 the numbers
    from 1 (a counting_iterator). *)
Record world := Wd { input : list Z; output : list Z; calls : nat; sum : Z }.
Definition fresh (l : list Z) : world := Wd l (repeat 0 (length l)) 0 0.
Definition sizes (l : list Z) (r : N) : N := if (r =? 2)%N then 100%N else N.of_nat (length l).
Definition at_ (w : world) (it : iter) : Z :=
  if (fst it =? 0)%N then nth (N.to_nat (snd it)) (input w) 0
  else if (fst it =? 1)%N then nth (N.to_nat (snd it)) (output w) 0 else Z.of_N (snd it) + 1.
Fixpoint set (l : list Z) (i : nat) (v : Z) : list Z :=
  match l, i with [], _ => [] | _ :: r, O => v :: r | x :: r, S i' => x :: set r i' v end.
Definition put (w : world) (it : iter) (v : Z) : world := Wd (input w) (set (output w) (N.to_nat (snd it)) v) (calls w) (sum w).
Definition total (w : world) (args : list iter) : Z := fold_right (fun it s => at_ w it + s) 0 args.

(** The functions of the tests. *)
Definition plus1 (w : world) (args : list iter) : world * Z := (w, total w args + 1).
Definition sum_args (w : world) (args : list iter) : world * Z := (w, total w args).
Definition write_out (w : world) (args : list iter) : world * unit :=
  (Wd (input w) (set (output w) (calls w) (total w args)) (S (calls w)) (sum w), tt).
Definition add_up (w : world) (args : list iter) : world * unit :=
  (Wd (input w) (output w) (S (calls w)) (sum w + total w args), tt).

Definition in4 := [1; 2; 3; 4].
Definition b : iter := (0, 0)%N.
Definition e : iter := (0, 4)%N.
Definition ob : iter := (1, 0)%N.

(** algorithm.cpp:11-20 *)
Example unary_transform :
  option_map (fun x => let '(w, d, i, _) := x in (output w, d, i)) (transform (sizes in4) plus1 put (fresh in4) b e ob [])
  = Some ([2; 3; 4; 5], (1, 4)%N, e).
Proof. vm_compute. reflexivity. Qed.
(** algorithm.cpp:22-30 *)
Example nary_transform :
  option_map (fun x => output (fst (fst (fst x)))) (transform (sizes in4) sum_args put (fresh in4) b e ob [b; b; b])
  = Some [4; 8; 12; 16].
Proof. vm_compute. reflexivity. Qed.
(** algorithm.cpp:32-49 *)
Example transform_n_tests :
  option_map (fun x => output (fst (fst (fst x)))) (transform_n (sizes in4) plus1 put (fresh in4) b 4 ob []) = Some [2; 3; 4; 5]
  /\ option_map (fun x => output (fst (fst (fst x)))) (transform_n (sizes in4) sum_args put (fresh in4) b 4 ob [b; b; b])
     = Some [4; 8; 12; 16].
Proof. vm_compute. auto. Qed.
(** algorithm.cpp:51-63 *)
Example nary_for_each :
  option_map (fun x => (output (fst x), snd x)) (for_each (sizes in4) write_out (fresh in4) b e [b; b])
  = Some ([3; 6; 9; 12], [e; e]).
Proof. vm_compute. reflexivity. Qed.
(** algorithm.cpp:65-76 *)
Example for_each_counting :
  option_map (fun x => (output (fst x), snd x)) (for_each (sizes in4) write_out (fresh in4) b e [(2, 0)%N])
  = Some ([2; 4; 6; 8], [(2, 4)%N]).
Proof. vm_compute. reflexivity. Qed.
(** algorithm.cpp:78-89 *)
Example unary_for_each_n :
  option_map (fun x => let '(w, i, _) := x in (sum w, i, calls (fst (add_up w [b])))) (for_each_n (sizes in4) add_up (fresh in4) b 2 [])
  = Some (3, (0, 2)%N, 3%nat).
Proof. vm_compute. reflexivity. Qed.
(** algorithm.cpp:91-101 *)
Example nary_for_each_n :
  option_map (fun x => output (fst (fst x))) (for_each_n (sizes in4) write_out (fresh in4) b 4 [b; b]) = Some [3; 6; 9; 12].
Proof. vm_compute. reflexivity. Qed.
(** algorithm.cpp:103-119 *)
Example butlastn : forall random,
  option_map (fun x => let '(w, i, _) := x in (sum w, i)) (for_each_butlastn (sizes in4) add_up random (fresh in4) b e 2 [])
  = Some (3, (0, 2)%N).
Proof. intros [|]; vm_compute; reflexivity. Qed.
(** algorithm.cpp:121-137 *)
Example butlast : forall random,
  option_map (fun x => let '(w, i, _) := x in (sum w, i)) (for_each_butlast (sizes in4) add_up random (fresh in4) b e [])
  = Some (6, (0, 3)%N).
Proof. intros [|]; vm_compute; reflexivity. Qed.
(** algorithm.cpp:139-157 *)
Example nary_butlast :
  option_map (fun x => sum (fst (fst x))) (for_each_butlastn (sizes in4) add_up true (fresh in4) b e 2 [b; b]) = Some 9
  /\ option_map (fun x => sum (fst (fst x))) (for_each_butlast (sizes in4) add_up true (fresh in4) b e [b; b]) = Some 18.
Proof. vm_compute. auto. Qed.
(** algorithm.cpp:159-173 *)
Example butlast_zero : forall random,
  option_map (fun x => sum (fst (fst x))) (for_each_butlast (sizes []) add_up random (fresh []) b b []) = Some 0.
Proof. intros [|]; vm_compute; reflexivity. Qed.
(** algorithm.cpp:175-205 *)
Example butlast_limit : forall random n, n = 4 \/ n = 5 ->
  option_map (fun x => sum (fst (fst x))) (for_each_butlastn (sizes in4) add_up random (fresh in4) b e n []) = Some 0.
Proof. intros [|] n [-> | ->]; vm_compute; reflexivity. Qed.

(** algorithm.cpp:207-257: three sums. *)
Definition three := (Z * Z * Z)%type.
Definition imf (l : list Z) : option three :=
  let v (args : list iter) := fold_right (fun it s => nth (N.to_nat (snd it)) l 0 + s) 0 args in
  initial_medial_final (sizes l)
    (fun (w : three) a => let '(x, y, z) := w in (x + v a, y, z, tt))
    (fun w a => let '(x, y, z) := w in (x, y + v a, z, tt))
    (fun w a => let '(x, y, z) := w in (x, y, z + v a, tt)) true (0, 0, 0) b (0, N.of_nat (length l))%N.
Example imf_tests :
  imf in4 = Some (1, 5, 4) /\ imf [1; 4] = Some (1, 0, 4) /\ imf [1] = Some (1, 0, 0) /\ imf [] = Some (0, 0, 0).
Proof. vm_compute. auto. Qed.

(** numeric.cpp:9-41 *)
Definition twice (w : world) (args : list iter) : world * Z := (w, total w args * 2).
Definition add (w : world) (s x : Z) : world * Z := (w, s + x).
Example transform_reduce_tests :
  option_map snd (transform_reduce (sizes in4) twice add (fresh in4) b e 0 []) = Some 20
  /\ option_map snd (transform_reduce (sizes in4) sum_args add (fresh in4) b e 0 [b; b; b]) = Some 40
  /\ option_map snd (transform_reduce_n (sizes in4) twice add (fresh in4) b 4 0 []) = Some 20
  /\ option_map snd (transform_reduce_n (sizes in4) sum_args add (fresh in4) b 4 0 [b; b; b]) = Some 40.
Proof. vm_compute. auto. Qed.

(** numeric.cpp:53-95 *)
Definition i8 := Sint 8. Definition u8 := Uint 8. Definition i16 := Sint 16. Definition i32 := Sint 32.
Example saturate_tests :
  saturate_cast i16 i8 696 = Some 127 /\ saturate_cast i16 u8 696 = Some 255
  /\ saturate_cast i16 i8 (-696) = Some (-128) /\ saturate_cast i16 u8 (-696) = Some 0
  /\ saturate_cast i32 i8 42 = Some 42 /\ saturate_cast i32 i8 1000 = Some 127 /\ saturate_cast i32 i8 (-200) = Some (-128)
  /\ saturate_cast i8 i32 42 = Some 42
  /\ saturate_cast u8 i8 255 = Some 127 /\ saturate_cast u8 i8 42 = Some 42 /\ saturate_cast u8 i8 0 = Some 0
  /\ saturate_cast i8 u8 (-1) = Some 0 /\ saturate_cast i8 u8 (-128) = Some 0 /\ saturate_cast i8 u8 127 = Some 127.
Proof. vm_compute. repeat split. Qed.

(** rollover.cpp, for each width of the template test cases. *)
Definition widths (P : Z -> Prop) : Prop := P 8 /\ P 16 /\ P 32 /\ P 64.
(** rollover.cpp:47-60 *)
Example rollover_construct : r_make 32 16 = 16 /\ r_make 32 (r_make 8 16) = 16.
Proof. vm_compute. auto. Qed.
(** rollover.cpp:68-88 *)
Example rollover_eq_neg : widths (fun w =>
  r_eq (r_make w 1) (r_make w 1) = true /\ r_eq (r_make w 1) (r_make w 2) = false
  /\ r_neg w 32 (r_make w 1) = Some (r_make w (-1))).
Proof. vm_compute. repeat split. Qed.
(** rollover.cpp:90-106 *)
Example rollover_inc_dec : widths (fun w =>
  r_preinc w 32 1 = Some (2, 2) /\ r_postinc w 32 2 = Some (3, 2) /\ r_predec w 32 3 = Some (2, 2) /\ r_postdec w 32 2 = Some (1, 2)).
Proof. vm_compute. repeat split. Qed.
(** rollover.cpp:108-156 *)
Example rollover_arith : widths (fun w =>
  r_add w 32 1 1 = Some 2 /\ r_add w 32 2 1 = Some 3 /\ r_sub w 32 2 1 = Some 1 /\ r_mul w 32 2 3 = Some 6
  /\ r_mul w 32 6 3 = Some 18 /\ r_div w 32 12 3 = Some 4 /\ r_mod w 32 13 3 = Some 1).
Proof. vm_compute. repeat split. Qed.
(** rollover.cpp:158-172 *)
Example rollover_overflow : widths (fun w =>
  r_preinc w 32 (2 ^ w - 1) = Some (0, 0) /\ r_predec w 32 0 = Some (2 ^ w - 1, 2 ^ w - 1)).
Proof. vm_compute. repeat split. Qed.
(** rollover.cpp:174-189 *)
Example rollover_compare : widths (fun w =>
  r_cmp_less w 32 1 2 = Some true /\ r_cmp_less w 32 (2 ^ w - 1) 0 = Some true
  /\ let mid := (2 ^ w - 1) / 2 + 1 in r_cmp_less w 32 mid 0 = Some true /\ r_cmp_less w 32 0 mid = Some true).
Proof. vm_compute. repeat split. Qed.
(** rollover.cpp:191-206 *)
Example rollover_half :
  let all := map Z.of_nat (seq 0 256) in
  forallb (fun i => (length (filter (fun v => match r_cmp_less 8 32 v i with Some true => true | _ => false end) all) =? 128)%nat) all = true.
Proof. vm_compute. reflexivity. Qed.
