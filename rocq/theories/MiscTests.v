(** The assertions of further files in /repo/test (named below) evaluated in the models: they check
    the models against the behaviour the repository's own tests record.  They are tests, not the
    property theorems. *)
From Coq Require Import String Ascii.
From Verif Require Import Base TupleModel OptionalModel CallByNeedModel ArgsModel EnvModel TypeMapModel.
From Verif Require LatchedModel UdlModel CtConvModel CtConvSpec.
Open Scope ub_scope.

(** ** optional.cpp.  E has the tombstone 255; S has -1. *)
Section Opt.
Let ts := (-1)%Z.
Let S' (v : Z) : opt := construct v.
Let none : opt := construct_default ts.
(** optional.cpp:65-78, 95-105, 140-144 *)
Example opt_construct :
  has_value 255%Z Z.eqb (construct_default 255%Z) = Some false /\ has_value 255%Z Z.eqb (construct 0%Z) = Some true
  /\ has_value ts Z.eqb (S' 42) = Some true.
Proof. vm_compute. auto. Qed.
(** optional.cpp:107-128 *)
Example opt_assign :
  value (construct 0%Z) = Some 0%Z
  /\ (o <- assign_nullopt 255%Z (construct 0%Z);; has_value 255%Z Z.eqb o) = Some false
  /\ (o <- assign 0%Z (construct_default 255%Z);; b <- has_value 255%Z Z.eqb o;; v <- value o;; Some (b, v)) = Some (true, 0%Z).
Proof. vm_compute. auto. Qed.
(** optional.cpp:146-149, 164-182 *)
Example opt_access :
  value (S' 42) = Some 42%Z
  /\ value_or 255%Z Z.eqb (construct 0%Z) 1%Z = Some 0%Z /\ value_or 255%Z Z.eqb (construct_default 255%Z) 1%Z = Some 1%Z
  /\ (o <- reset 255%Z (construct 0%Z);; has_value 255%Z Z.eqb o) = Some false
  /\ (o <- emplace (Some 42%Z) (S' 17);; value o) = Some 42%Z.
Proof. vm_compute. auto 6. Qed.
(** optional.cpp:184-221 *)
Example opt_compare :
  equal Z.eqb (S' 17) (S' 17) = Some true /\ equal Z.eqb (S' 17) (S' 42) = Some false
  /\ less ts Z.eqb Z.ltb (S' 17) (S' 42) = Some true /\ less ts Z.eqb Z.ltb (S' 17) (S' 17) = Some false
  /\ less ts Z.eqb Z.ltb none none = Some false /\ less ts Z.eqb Z.ltb (S' 42) none = Some false
  /\ less ts Z.eqb Z.ltb none (S' 42) = Some true
  /\ less_equal ts Z.eqb Z.ltb (S' 17) (S' 42) = Some true /\ greater ts Z.eqb Z.ltb (S' 17) (S' 3) = Some true
  /\ greater_equal ts Z.eqb Z.ltb (S' 17) (S' 3) = Some true.
Proof. vm_compute. repeat split. Qed.
(** optional.cpp:223-283 *)
Example opt_transform_or_else :
  option_map snd (OptionalModel.transform ts Z.eqb 255%Z tt (S' 17) (fun w _ => (w, 0%Z))) = Some (Some 0%Z)
  /\ option_map snd (OptionalModel.transform ts Z.eqb 255%Z tt none (fun w _ => (w, 0%Z))) = Some (Some 255%Z)
  /\ option_map snd (or_else 255%Z Z.eqb tt (construct 0%Z) (fun w => (w, construct 1%Z))) = Some (construct 0%Z)
  /\ option_map snd (or_else 255%Z Z.eqb tt (construct_default 255%Z) (fun w => (w, construct 1%Z))) = Some (construct 1%Z).
Proof. vm_compute. auto. Qed.
(** optional.cpp:285-329 *)
Example opt_and_then :
  option_map snd (and_then ts Z.eqb none tt (S' 42) (fun w s => (w, construct (s + 1)%Z))) = Some (S' 43)
  /\ option_map snd (and_then ts Z.eqb none tt none (fun w s => (w, construct (s + 1)%Z))) = Some none.
Proof. vm_compute. auto. Qed.
(** optional.cpp:331-338, 431-446 *)
Example opt_multi :
  option_map snd (transform_all ts Z.eqb ts tt [S' 17; S' 42] (fun w l => (w, List.fold_left Z.add l 0%Z))) = Some (S' 59).
Proof. vm_compute. auto. Qed.
(** optional.cpp:378-394: a history of operations. *)
Example opt_history :
  (o <- history ts [Emplace (Some 42%Z)] (S' 17);; value o) = Some 42%Z
  /\ (o <- history ts [Emplace (Some 42%Z); OptionalModel.Reset] (S' 17);; has_value ts Z.eqb o) = Some false.
Proof. vm_compute. auto. Qed.
(** optional.cpp:401-405 *)
Example opt_tombstone_value : has_value ts Z.eqb none = Some false /\ value none = Some ts.
Proof. vm_compute. auto. Qed.
End Opt.

(** ** call_by_need.cpp.  Functions take the arguments with the tags listed and give a number, or
    nothing; the world counts the calls. *)
Inductive carg := Arg (tag : nat) | Num (n : nat).
Record cfun := Fn { wants : list nat; gives : option nat }.
Fixpoint fits (ws : list nat) (xs : list carg) : bool :=
  match ws, xs with
  | [], [] => true
  | t :: ws', Arg t' :: xs' => (t =? t') && fits ws' xs'
  | _, _ => false
  end.
Definition crun (w : nat) (f : cfun) (_ : list carg) : nat * option carg := (S w, option_map Num (gives f)).
Definition need (fs : list cfun) (args : list carg) := call_by_need (fun f => fits (wants f)) crun fs args false 0.
(** call_by_need.cpp:22-47 *)
Example need_single :
  need [Fn [0] (Some 17)] [Arg 0] = Some (1, [Some (Num 17)]) /\ need [Fn [0] None] [Arg 0] = Some (1, [])
  /\ need [Fn [1] None] [Arg 0; Arg 1] = Some (1, [Some (Arg 0)]) /\ need [Fn [0] None] [Arg 0; Arg 1] = Some (1, [Some (Arg 1)]).
Proof. vm_compute. auto. Qed.
(** call_by_need.cpp:49-116 *)
Example need_multi :
  need [Fn [0] (Some 17); Fn [1] (Some 18)] [Arg 0; Arg 1] = Some (2, [Some (Num 17); Some (Num 18)])
  /\ need [Fn [0] (Some 17); Fn [1] None] [Arg 0; Arg 1] = Some (2, [Some (Num 17)])
  /\ need [Fn [1] (Some 17); Fn [2] (Some 18)] [Arg 0; Arg 1; Arg 2] = Some (2, [Some (Num 17); Some (Num 18); Some (Arg 0)])
  /\ need [Fn [0] (Some 17); Fn [2] (Some 18)] [Arg 0; Arg 1; Arg 2] = Some (2, [Some (Num 17); Some (Num 18); Some (Arg 1)])
  /\ need [Fn [0] (Some 17); Fn [1] (Some 18)] [Arg 0; Arg 1; Arg 2] = Some (2, [Some (Num 17); Some (Num 18); Some (Arg 2)])
  /\ need [Fn [0] (Some 17); Fn [0] (Some 18)] [Arg 0; Arg 1] = Some (2, [Some (Num 17); Some (Num 18); Some (Arg 1)])
  /\ need [Fn [0; 1] (Some 17); Fn [1; 2] (Some 18)] [Arg 0; Arg 1; Arg 2] = Some (2, [Some (Num 17); Some (Num 18)]).
Proof. vm_compute. repeat split. Qed.
(** call_by_need.cpp:149-164: both functions accept either argument. *)
Example need_converted :
  call_by_need (fun (_ : nat) xs => length xs =? 1) (fun w f xs => (w ++ xs, Some f)) [17; 18] [97; 42] false [] = Some ([97; 97], [Some 17; Some 18; Some 42]).
Proof. vm_compute. reflexivity. Qed.
(** call_by_need.cpp:166-187 *)
Example need_nullary :
  need [Fn [] (Some 17)] [] = Some (1, [Some (Num 17)]) /\ need [Fn [] (Some 17)] [Arg 0] = Some (1, [Some (Num 17); Some (Arg 0)]).
Proof. vm_compute. auto. Qed.
(** call_by_need.cpp:189-207 *)
Definition defaulted (xs : list nat) : nat := match xs with [] => 17 | x :: _ => x end.
Example need_default :
  call_by_need (fun (_ : unit) xs => length xs <=? 1) (fun w _ xs => (w, Some (defaulted xs))) [tt] [] false tt = Some (tt, [Some 17])
  /\ call_by_need (fun (_ : unit) xs => length xs <=? 1) (fun w _ xs => (w, Some (defaulted xs))) [tt] [18] false tt = Some (tt, [Some 18])
  /\ call_by_need (fun (_ : unit) xs => length xs <=? 1) (fun w _ xs => (w, Some (defaulted xs))) [] [17] false tt = Some (tt, [Some 17]).
Proof. vm_compute. auto. Qed.

(** ** for_each_n_args.cpp *)
Definition dot (w : nat) (xs : list nat) : nat * unit :=
  (match xs with [x] => w + x | [x; y] => w + x * y | _ => w end, tt).
(** for_each_n_args.cpp:7-33 *)
Example n_args :
  for_each_n_args dot 0 1 0 [1; 2; 3] = Some 6 /\ for_each_n_args dot 2 2 0 [2; 3; 3; 4] = Some 18.
Proof. vm_compute. auto. Qed.
(** for_each_n_args.cpp:35-40 *)
Example n_args_default :
  for_each_n_args (fun w xs => (fst (dot w xs) + 42, tt)) 2 3 0 [2; 3; 3; 4] = Some (42 + 42 + 18).
Proof. vm_compute. auto. Qed.

(** ** bind.cpp:9-57 *)
Definition minus (w : unit) (xs : list Z) : unit * Z := (w, match xs with [x; y] => x - y | _ => 0 end)%Z.
Example bind_tests :
  bind_front minus [42%Z] tt [17%Z] = Some (tt, 25%Z) /\ bind_back minus [17%Z] tt [42%Z] = Some (tt, 25%Z).
Proof. vm_compute. auto. Qed.

(** ** env.cpp.  Queries are even values (their own kind), other values are odd or large. *)
Section EnvT.
Let custom := 0.
Let same := Nat.eqb.
Let kind (v : nat) := v.
(** env.cpp:40-61 *)
Example env_tests :
  query_or kind same [] custom 42 = 42
  /\ (e <- make_env kind same [custom; 17];; query kind same e custom) = Some 17
  /\ (e <- make_env kind same [custom; 17];; e2 <- extend_env kind same e [custom; 18];; query kind same e2 custom) = Some 18
  /\ (e1 <- make_env kind same [custom; 17];; e2 <- make_env kind same [custom; 18];; e3 <- make_env kind same [custom; 19];;
      e <- append_env kind same [e1; e2; e3];; query kind same e custom) = Some 19.
Proof. vm_compute. auto. Qed.
(** env.cpp:80-94 *)
Example env_no_duplicates :
  (e <- make_env kind same [custom; 17];; e2 <- extend_env kind same e [custom; 18];; Some (length e2)) = Some 1
  /\ (e1 <- make_env kind same [custom; 17];; e2 <- make_env kind same [custom; 18];; e3 <- make_env kind same [custom; 19];;
      e <- append_env kind same [e1; e2; e3];; Some (length e)) = Some 1.
Proof. vm_compute. auto. Qed.
End EnvT.

(** ** type_map.cpp.  Types are numbers: void is 0, int is 1; A, B, Z are 2, 3, 4 and X, Y are 5, 6;
    a value v as a type is 10 + v. *)
Definition tmap := [(2, 5); (3, 6)].
Definition value_of (t : nat) : option nat := if 10 <=? t then Some (t - 10) else None.
(** type_map.cpp:13-23 *)
Example map_types :
  lookup Nat.eqb Nat.eqb tmap 2 0 = Some 5 /\ lookup Nat.eqb Nat.eqb tmap 3 0 = Some 6
  /\ lookup Nat.eqb Nat.eqb tmap 4 0 = Some 0 /\ lookup Nat.eqb Nat.eqb tmap 4 1 = Some 1.
Proof. vm_compute. auto. Qed.
(** type_map.cpp:25-35 *)
Example map_by_value :
  let m := [(10, 5); (11, 6)] in
  lookup Nat.eqb Nat.eqb m 10 0 = Some 5 /\ lookup Nat.eqb Nat.eqb m 11 0 = Some 6
  /\ lookup Nat.eqb Nat.eqb m 12 0 = Some 0 /\ lookup Nat.eqb Nat.eqb m 12 1 = Some 1.
Proof. vm_compute. auto. Qed.
(** type_map.cpp:37-59 *)
Example map_values :
  let m := [(2, 10); (3, 11)] in let m' := [(10, 20); (11, 21)] in
  let f := lookup_v Nat.eqb Nat.eqb 0 value_of in
  f m 2 0 = Some 0 /\ f m 3 0 = Some 1 /\ f m 4 0 = Some 0 /\ f m 4 2 = Some 2
  /\ f m' 10 0 = Some 10 /\ f m' 11 0 = Some 11 /\ f m' 12 0 = Some 0 /\ f m' 12 3 = Some 3.
Proof. vm_compute. repeat split. Qed.
(** type_map.cpp:61-84 *)
Example map_reverse :
  let m := [(5, 10); (6, 11)] in
  reverse_lookup Nat.eqb Nat.eqb tmap 5 0 = Some 2 /\ reverse_lookup Nat.eqb Nat.eqb tmap 6 0 = Some 3
  /\ reverse_lookup Nat.eqb Nat.eqb tmap 4 0 = Some 0 /\ reverse_lookup Nat.eqb Nat.eqb tmap 4 1 = Some 1
  /\ reverse_lookup Nat.eqb Nat.eqb m 10 0 = Some 5 /\ reverse_lookup Nat.eqb Nat.eqb m 11 0 = Some 6
  /\ reverse_lookup Nat.eqb Nat.eqb m 12 0 = Some 0 /\ reverse_lookup Nat.eqb Nat.eqb m 12 1 = Some 1.
Proof. vm_compute. repeat split. Qed.

(** ** latched.cpp and cached.cpp: the function counts its calls. *)
Import LatchedModel.
Definition fortytwo (n : nat) : nat * option Z := (S n, Some 42%Z).
Definition outcomes (ops : list LatchedModel.op) : option (list (result Z) * nat) :=
  option_map (fun x => (fst x, snd (snd x))) (LatchedModel.history fortytwo ops (None, 0)).
(** latched.cpp:5-9, 21-43; cached.cpp:5-9, 21-43 *)
Example latched_tests :
  outcomes [HasValue] = Some ([Says false], 0) /\ outcomes [Access; HasValue] = Some ([Got 42%Z; Says true], 1).
Proof. vm_compute. auto. Qed.
(** cached.cpp:45-68 *)
Example cached_tests :
  outcomes [Access; Reset; HasValue] = Some ([Got 42%Z; Done; Says false], 1)
  /\ outcomes [Access; Refresh] = Some ([Got 42%Z; Got 42%Z], 2) /\ outcomes [Refresh] = Some ([Got 42%Z], 1).
Proof. vm_compute. auto. Qed.

(** ** udls.cpp *)
Import UdlModel CtConvModel CtConvSpec.
(** udls.cpp:14-26 *)
Example units :
  k_literal 1 = 1000%N /\ M_literal 1 = 1000000%N /\ G_literal 1 = 1000000000%N
  /\ ki_literal 1 = 1024%N /\ Mi_literal 1 = (1024 * 1024)%N /\ Gi_literal 1 = (1024 * 1024 * 1024)%N.
Proof. vm_compute. repeat split. Qed.
(** udls.cpp:52-89 *)
Example literals :
  let p s := parse_literal 32 (codes s) in
  p "0"%string = Some 0%N /\ p "123'456"%string = Some 123456%N /\ p "010"%string = Some 8%N /\ p "0'10"%string = Some 8%N
  /\ p "0b11"%string = Some 3%N /\ p "0b1'1"%string = Some 3%N
  /\ p "0xaa"%string = Some 170%N /\ p "0xAA"%string = Some 170%N /\ p "0xA'a"%string = Some 170%N.
Proof. vm_compute. repeat split. Qed.

(** ** ct_conversions.cpp, for both compilers and what they print before the name. *)
Definition before (c : compiler) : list N :=
  match c with
  | Clang => codes "auto stdx::type_as_string() [T "
  | Gcc => codes "constexpr std::string_view stdx::type_as_string() [with T "
  end.
Definition name_of (c : compiler) (s : string) : option (list N) := type_as_string c (pretty_type c (before c) (codes s)).
Definition base_of (c : compiler) (s : string) : option (list N) := template_base c (pretty_type c (before c) (codes s)).
Definition enum_of (s : string) : option (list N) := enum_as_string (pretty_value (codes "auto stdx::enum_as_string() [E ") (codes s)).
(** ct_conversions.cpp:10-28 *)
Example type_names : forall c,
  name_of c "int" = Some (codes "int") /\ name_of c "complete" = Some (codes "complete")
  /\ name_of c "incomplete" = Some (codes "incomplete")
  /\ base_of c "type_template<int>" = Some (codes "type_template")
  /\ base_of c "value_template<42>" = Some (codes "value_template") /\ base_of c "int" = Some (codes "int").
Proof. intros [|]; vm_compute; repeat split. Qed.
(** ct_conversions.cpp:35-46 *)
Example enum_names :
  enum_of "(anonymous namespace)::X" = Some (codes "X") /\ enum_of "(anonymous namespace)::B::Y" = Some (codes "Y")
  /\ enum_of "{anonymous}::X" = Some (codes "X") /\ enum_of "(C)17" = Some (codes "(C)17").
Proof. vm_compute. auto. Qed.
