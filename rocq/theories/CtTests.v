(** The assertions of /repo/test/type_bitset.cpp, ct_string.cpp and ct_format.cpp evaluated in
    the models: they check the models against the behaviour the repository's own tests record.
    They are tests, not the property theorems. *)
From Coq Require Import String Ascii.
From Verif Require Import Base BitModel BitTests BitsetModel TypeBitsetModel CtStringModel FmtModel CtFormatModel.
Import ListNotations.
Open Scope N_scope.

Local Notation pl := lp64_test.

(** ** type_bitset<int, float, bool>, stored in a byte: types 0, 1 and 2 *)
Local Notation ts := [0; 1; 2].
Definition tb_all : option storage := all_ones 3 8.
Definition tb_val (v : N) : option storage := of_u64 3 8 false v.
Definition on {A B} (o : option A) (f : A -> option B) : option B := match o with Some a => f a | None => None end.
Definition gets_of (s : option storage) : list (option bool) := map (fun t => on s (fun s => tb_get ts 8 s t)) ts.
Definition same_bits (a b : option storage) : option bool := on a (fun a => on b (fun b => eq 3 8 a b)).

(** type_bitset.cpp:12-16. *)
Example test_tb_capacity : map tb_N [[]; [0]; [0; 1]] = [0; 1; 2].
Proof. reflexivity. Qed.
(** type_bitset.cpp:18-29. *)
Example test_tb_set :
  gets_of (Some (make 3 8)) = map Some [false; false; false] /\
  gets_of (tb_set ts 8 (make 3 8) [0] true) = map Some [true; false; false] /\
  gets_of (on (tb_set ts 8 (make 3 8) [0] true) (fun s => tb_set ts 8 s [0] false)) = map Some [false; false; false].
Proof. repeat split. Qed.
(** type_bitset.cpp:31-50. *)
Example test_tb_reset_flip :
  gets_of (on tb_all (fun s => tb_reset ts 8 s [0])) = map Some [false; true; true] /\
  gets_of (on tb_all (fun s => tb_flip ts 8 s [0])) = map Some [false; true; true].
Proof. repeat split. Qed.
(** type_bitset.cpp:52-67. *)
Example test_tb_construct :
  gets_of (tb_val 1) = map Some [true; false; false] /\
  gets_of (tb_val 255) = map Some [true; true; true] /\
  gets_of (tb_of_types ts 8 [0; 2]) = map Some [true; false; true].
Proof. repeat split. Qed.
(** type_bitset.cpp:69-82. *)
Example test_tb_to :
  map (fun u => on (tb_val 255) (to_uint 3 8 (u =? 8) u)) test_widths = map Some [7; 7; 7; 7] /\
  on tb_all (to_uint 3 8 true 8) = Some 7.
Proof. repeat split. Qed.
(** type_bitset.cpp:84-130. *)
Example test_tb_observers :
  (on tb_all (all pl 3 8), on tb_all (any pl 3 8), on tb_all (none pl 3 8), on tb_all (count pl 3 8),
   on tb_all (BitsetModel.empty pl 3 8)) = (Some true, Some true, Some false, Some 3, Some false) /\
  (all pl 3 8 (make 3 8), any pl 3 8 (make 3 8), none pl 3 8 (make 3 8), count pl 3 8 (make 3 8),
   BitsetModel.empty pl 3 8 (make 3 8)) = (Some false, Some false, Some true, Some 0, Some true).
Proof. repeat split. Qed.
(** type_bitset.cpp:132-162. *)
Example test_tb_whole :
  same_bits (tb_set ts 8 (make 3 8) [] true) tb_all = Some true /\
  same_bits (on (tb_set ts 8 (make 3 8) [] true) (fun s => tb_set ts 8 s [] true)) tb_all = Some true /\
  same_bits (on tb_all (fun s => tb_reset ts 8 s [])) (Some (make 3 8)) = Some true /\
  same_bits (on tb_all (fun s => tb_flip ts 8 s [])) (Some (make 3 8)) = Some true /\
  same_bits (on (on tb_all (fun s => tb_flip ts 8 s [])) (fun s => tb_flip ts 8 s [])) tb_all = Some true.
Proof. repeat split. Qed.
(** type_bitset.cpp:164-193. *)
Definition tb_op (f : storage -> storage -> storage) (a b : N) : option storage :=
  on (tb_val a) (fun a => on (tb_val b) (fun b => Some (f a b))).
Example test_tb_operators :
  same_bits (tb_op or_assign 5 2) tb_all = Some true /\
  same_bits (tb_op and_assign 5 4) (tb_val 4) = Some true /\
  same_bits (tb_op xor_assign 5 2) tb_all = Some true /\
  same_bits (on (tb_val 5) (fun s => Some (complement 8 s))) (tb_val 2) = Some true /\
  same_bits (tb_op (minus 8) 5 3) (tb_val 4) = Some true.
Proof. repeat split. Qed.
(** type_bitset.cpp:195-211. *)
Example test_tb_for_each :
  on tb_all (tb_for_each_set pl ts 8) = Some [0; 1; 2] /\
  for_each_unset pl 3 8 (make 3 8) = Some [0; 1; 2].
Proof. repeat split. Qed.

(** ** ct_string *)
Fixpoint chars (s : string) : list N :=
  match s with EmptyString => [] | String c r => N_of_ascii c :: chars r end.
(** A literal: its characters and the terminator. *)
Definition lit (s : string) : list N := of_array (chars s ++ [0]).
Local Open Scope string_scope.

(** ct_string.cpp:23-34. *)
Example test_cts_size :
  (CtStringModel.empty (lit ""), CtStringModel.empty (lit "A"), size (lit "ABC"), CtStringModel.empty (lit "ABC"))
  = (true, false, 3, false).
Proof. reflexivity. Qed.
(** ct_string.cpp:36-47. *)
Example test_cts_equality :
  (equal (lit "ABC") (lit "ABC"), equal (lit "ABC") (lit "ABD")) = (true, false) /\
  option_map (equal (lit "AB")) (of_ptr 3 (lit "ABC") 2) = Some true.
Proof. split; reflexivity. Qed.
(** ct_string.cpp:49-72. *)
Example test_cts_types :
  equal (from_type (chars "ABC")) (lit "ABC") = true /\ to_type (lit "ABC") = Some (chars "ABC") /\
  view (lit "ABC") = chars "ABC".
Proof. repeat split. Qed.
(** ct_string.cpp:74-86. *)
Example test_cts_split :
  split 46 (lit "A.B") = Some (lit "A", lit "B") /\ split 46 (lit "A") = Some (lit "A", lit "").
Proof. split; reflexivity. Qed.
(** ct_string.cpp:88-104, :163-167. *)
Example test_cts_concat :
  map (fun p => concat (lit (fst p)) (lit (snd p)))
      [("", "def"); ("abc", ""); ("abc", "def"); ("Hello", " world")]
  = map (fun s => Some (lit s)) ["def"; "abc"; "abcdef"; "Hello world"].
Proof. reflexivity. Qed.
(** ct_string.cpp:106-127. *)
Example test_cts_iterate : (view (lit "abc"), reversed (lit "abc")) = (chars "abc", chars "cba").
Proof. reflexivity. Qed.

(** ** ct_format *)
(** ct_format.cpp:15-24. *)
Example test_count :
  map (fun s => count_specifiers (chars s)) ["{}"; "{} {}"; "{"; "{{"; "{{{}"; "{{}}"; "{{{{"]
  = map Some [1; 2; 0; 0; 1; 0; 0].
Proof. reflexivity. Qed.
(** ct_format.cpp:26-39. *)
Definition ss (l : list (string * N)) := Some (map (fun p => mk_split (chars (fst p)) (snd p)) l).
Example test_split :
  split_specifiers 1 (chars "hello") = ss [("hello", 5)] /\
  split_specifiers 2 (chars "{}") = ss [("{}", 0); ("", 0)] /\
  split_specifiers 3 (chars "{} {}") = ss [("{}", 0); (" {}", 1); ("", 0)] /\
  split_specifiers 2 (chars "{{{}") = ss [("{{{}", 2); ("", 0)] /\
  split_specifiers 2 (chars "{} hello") = ss [("{}", 0); (" hello", 6)].
Proof. repeat split. Qed.
(** ct_format.cpp:41-53. *)
Example test_extract :
  map (fun p => extract_format1_str (chars (fst p)) (snd p))
      [("{}", 0); ("{:}", 0); ("abc{}", 3); ("abc{xyz:}", 3); ("abc{xyz}", 3)]
  = map (fun p => Some (chars (fst p), chars (snd p)))
      [("{}", ""); ("{:}", ""); ("abc{}", ""); ("abc{:}", "xyz"); ("abc{}", "xyz")].
Proof. reflexivity. Qed.

(** Formatting with the freestanding formatter; runtime arguments are numbers.  A type or an
    enumerator is formatted as its name. *)
Definition fmt1 (f : list N) (v : value) : option (list N) := option_map view (fmt_format (f ++ [0]) v).
Definition format (f : string) (args : list (arg value Z)) := ct_format fmt1 VRange (chars f) args.
Definition str (s : string) : arg value Z := ACt (VRange (chars s)).
Definition int (i : Z) : arg value Z := ACt (VInt (IInt true 32) i).
Definition rt (i : Z) : arg value Z := ARt i.
Definition gives (r : string) (args : list Z) : option (result Z) := Some (mk_result (chars r) args []).
Definition gives_named (r : string) (args : list Z) (names : list (string * Z * Z)) : option (result Z) :=
  Some (mk_result (chars r) args (map (fun n => mk_named (chars (fst (fst n))) (snd (fst n)) (snd n)) names)).

(** ct_format.cpp:55-106, :132-151, :163-177: compile-time arguments. *)
Example test_format_ct :
  format "Hello" [] = gives "Hello" [] /\
  format "Hello {}" [str "world"] = gives "Hello world" [] /\
  format "Hello {}" [ACt (VPtr (lit "world"))] = gives "Hello world" [] /\
  format "Hello {}" [int 42] = gives "Hello 42" [] /\
  format "Hello {}" [int (-42)] = gives "Hello -42" [] /\
  format "Hello {}" [int (-2147483648)] = gives "Hello -2147483648" [] /\
  format "Hello {}" [int 0] = gives "Hello 0" [] /\
  format "Hello {}orld" [ACt (VChar 119)] = gives "Hello world" [] /\
  format "Hello {}" [str "int"] = gives "Hello int" [] /\
  format "Hello 0x{:x}" [int 42] = gives "Hello 0x2a" [] /\
  format "Hello {} {}" [str "A"; str "world"] = gives "Hello A world" [].
Proof. repeat split. Qed.
(** ct_format.cpp:179-225: runtime and mixed arguments. *)
Example test_format_rt :
  format "Hello {}" [rt 17] = gives "Hello {}" [17%Z] /\
  format "Hello {} {}" [str "int"; rt 17] = gives "Hello int {}" [17%Z] /\
  format "Hello {} {}" [rt 42; str "int"] = gives "Hello {} int" [42%Z] /\
  format "Hello {} {}" [rt 42; rt 17] = gives "Hello {} {}" [42; 17]%Z /\
  format "Hello {} {} {} {} world" [rt 42; str "A"; rt 66; str "int"]
  = gives "Hello {} A {} int world" [42; 66]%Z.
Proof. repeat split. Qed.
(** ct_format.cpp:227-237: results as arguments. *)
Definition within (r : option (result Z)) (f : arg value Z -> option (result Z)) := on r (fun r => f (ARes r)).
Example test_format_result :
  within (format "(year={})" [rt 2022]) (fun a => format "The value is {}." [a])
  = gives "The value is (year={})." [2022%Z] /\
  within (gives "2022" []) (fun a => format "The value is {}." [a]) = gives "The value is 2022." [].
Proof. repeat split. Qed.
(** ct_format.cpp:427-461: named runtime arguments. *)
Example test_named_rt :
  format "Hello {x}" [rt 17] = gives_named "Hello {}" [17%Z] [("x", 0, -1)]%Z /\
  format "Hello {x} {y}" [rt 17; rt 18] = gives_named "Hello {} {}" [17; 18]%Z [("x", 0, -1); ("y", 1, 0)]%Z /\
  format "Hello {} {y}" [rt 17; rt 18] = gives_named "Hello {} {}" [17; 18]%Z [("y", 1, 0)]%Z.
Proof. repeat split. Qed.
(** ct_format.cpp:463-486: named compile-time arguments. *)
Example test_named_ct :
  format "Hello {x}" [int 17] = gives_named "Hello 17" [] [("x", 6, 8)]%Z /\
  format "Hello {x} {y}" [int 17; int 18] = gives_named "Hello 17 18" [] [("x", 6, 8); ("y", 9, 11)]%Z /\
  format "Hello {} {y}" [int 17; int 18] = gives_named "Hello 17 18" [] [("y", 9, 11)]%Z.
Proof. repeat split. Qed.
(** ct_format.cpp:488-540. *)
Example test_named_mixed :
  format "Hello {x} {y}" [int 17; rt 18] = gives_named "Hello 17 {}" [18%Z] [("x", 6, 8); ("y", 0, -1)]%Z /\
  format "Hello {x} {y}" [rt 17; int 18] = gives_named "Hello {} 18" [17%Z] [("x", 0, -1); ("y", 9, 11)]%Z /\
  format "Hello {a} {b} {c} {d}" [rt 17; int 18; rt 19; int 20]
  = gives_named "Hello {} 18 {} 20" [17; 19]%Z [("a", 0, -1); ("b", 9, 11); ("c", 1, 0); ("d", 15, 17)]%Z /\
  format "Hello {a} {b} {} {} {c} {d}" [rt 17; int 18; rt 19; int 20; rt 21; int 22]
  = gives_named "Hello {} 18 {} 20 {} 22" [17; 19; 21]%Z
      [("a", 0, -1); ("b", 9, 11); ("c", 2, 1); ("d", 21, 23)]%Z /\
  format "Hello {a:x}" [int 10] = gives_named "Hello a" [] [("a", 6, 7)]%Z.
Proof. repeat split. Qed.
(** ct_format.cpp:542-611: named arguments inside results. *)
Example test_named_result :
  within (format "(year={y})" [rt 2022]) (fun a => format "The value is {}." [a])
  = gives_named "The value is (year={})." [2022%Z] [("y", 0, -1)]%Z /\
  within (format "(year={y})" [rt 2022]) (fun a => format "The value is {} {}." [rt 17; a])
  = gives_named "The value is {} (year={})." [17; 2022]%Z [("y", 1, 0)]%Z /\
  within (format "(year={y})" [rt 2022]) (fun a => format "The value is {} {}." [int 17; a])
  = gives_named "The value is 17 (year={})." [2022%Z] [("y", 0, -1)]%Z /\
  within (format "(year={y})" [int 2022]) (fun a => format "The value is {}." [a])
  = gives_named "The value is (year=2022)." [] [("y", 19, 23)]%Z /\
  within (format "(year={y})" [int 2022]) (fun a => format "The value is {} {}." [int 17; a])
  = gives_named "The value is 17 (year=2022)." [] [("y", 22, 26)]%Z /\
  within (format "(year={y})" [int 2022]) (fun a => format "The value is {} {}." [rt 17; a])
  = gives_named "The value is {} (year=2022)." [17%Z] [("y", 22, 26)]%Z.
Proof. repeat split. Qed.
(** fail/ct_format_mismatch.cpp: an argument without a specifier. *)
Example test_mismatch : format "Hello" [rt 42] = None.
Proof. reflexivity. Qed.
