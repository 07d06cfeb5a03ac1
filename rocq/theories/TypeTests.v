(** The assertions of /repo/test/type_traits.cpp, function_traits.cpp, callable.cpp, utility.cpp,
    pp_map.cpp and iterator.cpp evaluated in the models: they check the models against the
    behaviour the repository's own tests record.  They are tests, not the property theorems. *)
From Verif Require Import Base Ints UtilModel TypesModel CountingModel PpMapModel.
Open Scope Z_scope.

(** Types of the tests. *)
Definition tint := plain (Scalar 1).
Definition tvoid := plain Void.
Definition unary_int := plain (TypeInst 1 [tint]).
Definition variadic_none := plain (TypeInst 2 []).
Definition derived_int := plain (TypeInst 3 [tint]).
Definition cst (t : ty) : ty := add_const t.
Definition fn (r : ty) (a : list ty) : ty := plain (Func r a false false false TypesModel.NoRef false).

(** type_traits.cpp:16-32 *)
Example spec_types :
  (is_specialization_of_v unary_int 1, is_specialization_of_v tint 1,
   is_specialization_of_v variadic_none 2, is_specialization_of_v tint 2) =
  (Some true, Some false, Some true, Some false).
Proof. reflexivity. Qed.
(** type_traits.cpp:34-39 *)
Example spec_derived : is_specialization_of_v derived_int 1 = Some false.
Proof. reflexivity. Qed.
(** type_traits.cpp:47-64 *)
Example spec_values :
  (is_value_specialization_of_v (plain (ValueInst 1 [0])) 1, is_value_specialization_of_v tint 1,
   is_value_specialization_of_v (plain (ValueInst 2 [])) 2, is_value_specialization_of_v tint 2) =
  (Some true, Some false, Some true, Some false).
Proof. reflexivity. Qed.
(** type_traits.cpp:66-72 *)
Example spec_value_derived : is_value_specialization_of_v (plain (ValueInst 3 [0])) 1 = Some false.
Proof. reflexivity. Qed.
(** type_traits.cpp:158-169: is_same_unqualified_v compares after remove_cvref. *)
Example same_unqualified :
  Forall (fun t => remove_cvref t = tint)
    [tint; plain (LRef tint); plain (LRef (cst tint)); plain (RRef tint); plain (RRef (cst tint))] /\
  remove_cvref tvoid <> tint.
Proof. split; [repeat constructor|discriminate]. Qed.
(** type_traits.cpp:240-254 *)
Definition tA := plain (TypeInst 7 [tint; tint; tint; tint; tint; tint; tint; tint]).
Definition tB := plain (TypeInst 7 [tA; tA; tA; tA; tA; tA; tA; tA]).
Definition tC := plain (TypeInst 7 [tB; tB; tB; tB; tB; tB; tB; tB]).
Example shrink_expand : expand_t (shrink_t tC) = Some tC.
Proof. reflexivity. Qed.

(** callable.cpp:19-26; class 5 stands for a closure or a class with a call operator. *)
Definition has_call (s : shape) : bool := match s with Class n => N.eqb n 5 | _ => false end.
Definition not_final (s : shape) : bool := false.
Definition callobj := plain (Class 5).
Example is_function :
  (is_function_v tint, is_function_v (plain (LRef tint)), is_function_v callobj, is_function_v (fn tvoid []),
   is_function_v (fn tvoid [tint])) = (false, false, false, true, true).
Proof. reflexivity. Qed.
(** callable.cpp:28-40 *)
Example is_function_object :
  (is_function_object_v has_call not_final tint, is_function_object_v has_call not_final (fn tvoid []),
   is_function_object_v has_call not_final (fn tvoid [tint]), is_function_object_v has_call not_final callobj) =
  (Some false, Some false, Some false, Some true).
Proof. reflexivity. Qed.
(** callable.cpp:42-54 *)
Example is_callable :
  (is_callable_v has_call not_final tint, is_callable_v has_call not_final (fn tvoid []),
   is_callable_v has_call not_final (fn tvoid [tint]), is_callable_v has_call not_final callobj) =
  (Some false, Some true, Some true, Some true).
Proof. reflexivity. Qed.

(** function_traits.cpp:8-41: func_no_args, func_one_arg (int to int) and func_ref_arg. *)
Definition func_no_args := fn tvoid [].
Definition func_one_arg := fn tint [tint].
Definition func_ref_arg := fn tvoid [plain (LRef tint)].
(** Classes 10 and 11 are the lambdas [](int) {} without and with mutable, 12 and 13 the same with
    int &, 14 and 15 those without parameters. *)
Definition method (C : shape) (r : ty) (a : list ty) (const : bool) : option ty :=
  Some (plain (MemPtr (plain C) (plain (Func r a false const false TypesModel.NoRef false)))).
Definition call_op (s : shape) : option ty :=
  match s with
  | Class 10 => method s tvoid [tint] true
  | Class 11 => method s tvoid [tint] false
  | Class 12 => method s tvoid [plain (LRef tint)] true
  | Class 13 => method s tvoid [plain (LRef tint)] false
  | Class 14 => method s tvoid [] true
  | Class 15 => method s tvoid [] false
  | _ => None
  end%N.
Definition lambda (n : N) := cst (plain (Class n)).
Example returns :
  (return_t call_op func_no_args, return_t call_op func_one_arg) = (Some tvoid, Some tint) /\
  (return_t call_op (plain (Ptr func_no_args)), return_t call_op (plain (Ptr func_one_arg))) = (Some tvoid, Some tint).
Proof. split; reflexivity. Qed.
(** function_traits.cpp:43-52 *)
Example qualified_pointer :
  (return_t call_op (Ty true false (Ptr func_no_args)), return_t call_op (Ty false true (Ptr func_no_args)),
   return_t call_op (Ty true true (Ptr func_no_args))) = (Some tvoid, Some tvoid, Some tvoid).
Proof. reflexivity. Qed.
(** function_traits.cpp:54-60 *)
Example lambda_returns : (return_t call_op (lambda 14), return_t call_op (lambda 15)) = (Some tvoid, Some tvoid).
Proof. reflexivity. Qed.
(** function_traits.cpp:62-78 *)
Example fargs : (args_t call_op func_no_args, args_t call_op func_one_arg) = (Some [], Some [tint]).
Proof. reflexivity. Qed.
(** function_traits.cpp:80-107 *)
Example fdecayed :
  (decayed_args_t call_op func_ref_arg, nth_arg_t call_op func_one_arg 0, decayed_nth_arg_t call_op func_ref_arg 0) =
  (Some [tint], Some tint, Some tint).
Proof. reflexivity. Qed.
(** function_traits.cpp:109-163 *)
Example lambda_args :
  (args_t call_op (lambda 10), args_t call_op (lambda 11), decayed_args_t call_op (lambda 12),
   decayed_args_t call_op (lambda 13)) = (Some [tint], Some [tint], Some [tint], Some [tint]) /\
  (nth_arg_t call_op (lambda 10) 0, decayed_nth_arg_t call_op (lambda 12) 0) = (Some tint, Some tint).
Proof. split; reflexivity. Qed.
(** function_traits.cpp:165-198: a generic lambda with two parameters takes two arguments only. *)
Definition plain_callable (n : nat) : callable ty :=
  {| signature := Some (repeat tint n); accepts := Nat.eqb n |}.
Definition generic_callable (n : nat) : callable ty := {| signature := None; accepts := Nat.eqb n |}.
Example arities :
  map (arity 900) [plain_callable 0; plain_callable 1; generic_callable 1; generic_callable 2] =
  [Some 0; Some 1; Some 1; Some 2]%nat.
Proof. reflexivity. Qed.

(** utility.cpp:11-24 *)
Definition cvr (c : bool) (r : UtilModel.refk) : cvref := {| UtilModel.is_const := c; UtilModel.is_volatile := false; ref := r |}.
Example fwd_like :
  map (fun T => forward_like T (cvr false UtilModel.NoRef))
    [cvr false UtilModel.NoRef; cvr true UtilModel.NoRef; cvr false UtilModel.RRef; cvr true UtilModel.RRef;
     cvr false UtilModel.LRef; cvr true UtilModel.LRef] =
  [cvr false UtilModel.RRef; cvr true UtilModel.RRef; cvr false UtilModel.RRef; cvr true UtilModel.RRef;
   cvr false UtilModel.LRef; cvr true UtilModel.LRef].
Proof. reflexivity. Qed.
(** utility.cpp:26-43 *)
Example unsigned_changed :
  map (fun w => as_unsigned (UtilModel.IInt (Sint w)) 17) [8; 16; 32; 64] = map (fun w => Some (Uint w, 17)) [8; 16; 32; 64] /\
  map (fun w => as_unsigned (UtilModel.IInt (Uint w)) 17) [8; 16; 32; 64] = map (fun w => Some (Uint w, 17)) [8; 16; 32; 64].
Proof. split; reflexivity. Qed.
(** utility.cpp:45-62 *)
Example signed_changed :
  map (fun w => as_signed (UtilModel.IInt (Uint w)) 17) [8; 16; 32; 64] = map (fun w => Some (Sint w, 17)) [8; 16; 32; 64] /\
  map (fun w => as_signed (UtilModel.IInt (Sint w)) 17) [8; 16; 32; 64] = map (fun w => Some (Sint w, 17)) [8; 16; 32; 64].
Proof. split; reflexivity. Qed.
(** fail/as_unsigned_bool.cpp, fail/as_signed_bool.cpp *)
Example no_bool : (as_unsigned UtilModel.IBool 1, as_signed UtilModel.IBool 1) = (None, None).
Proof. reflexivity. Qed.
(** utility.cpp:221-235 *)
Example aligned :
  (is_aligned_with 64 1 15, is_aligned_with 64 2 14, is_aligned_with 64 2 15, is_aligned_with 64 4 12,
   is_aligned_with 64 4 14) = (true, true, false, true, false) /\
  (is_aligned_with 64 8 8, is_aligned_with 64 8 12, is_aligned_with 64 16 16, is_aligned_with 64 16 8) =
  (true, false, true, false).
Proof. split; reflexivity. Qed.
(** utility.cpp:237-249: an address that is a multiple of 4, and the next one. *)
Example aligned_pointer :
  (is_aligned_with 64 1 1001, is_aligned_with 64 2 1001, is_aligned_with 64 1 1000, is_aligned_with 64 2 1000,
   is_aligned_with 64 4 1000) = (true, false, true, true, true).
Proof. reflexivity. Qed.

(** pp_map.cpp:10-32: double is a plain token; one call for each argument, between commas. *)
Definition no_user (u : nat) : mdef := Obj [].
Definition double : tok := Plain 100.
Definition num (n : N) : tok := Plain n.
Definition mapped (args : list tok) : option (list tok) :=
  expand no_user 2000 [] (map T (nm MAP :: LP :: args ++ [RP])).
(** pp_map.cpp:10-20 *)
Example map_zero : mapped [double] = Some [].
Proof. vm_compute. reflexivity. Qed.
(** pp_map.cpp:22-24 *)
Example map_one : mapped [double; CM; num 1] = Some [double; LP; num 1; RP].
Proof. vm_compute. reflexivity. Qed.
(** pp_map.cpp:26-28 *)
Example map_three :
  mapped [double; CM; num 1; CM; num 2; CM; num 3] =
  Some [double; LP; num 1; RP; CM; double; LP; num 2; RP; CM; double; LP; num 3; RP].
Proof. vm_compute. reflexivity. Qed.
(** pp_map.cpp:30-32 *)
Definition tvoid_tok : tok := Plain 101.
Example map_parens :
  mapped [double; CM; LP; LP; tvoid_tok; RP; num 1; CM; num 2; RP; CM; num 3] =
  Some [double; LP; LP; LP; tvoid_tok; RP; num 1; CM; num 2; RP; RP; CM; double; LP; num 3; RP].
Proof. vm_compute. reflexivity. Qed.

(** iterator.cpp:87-93 *)
Definition int32 : CountingModel.ity := Ity 32 true.
Definition char8 : CountingModel.ity := Ity 8 true.
Example default_inc : inc 32 int32 0 = Some 1.
Proof. reflexivity. Qed.
(** iterator.cpp:113-121 *)
Example default_dec : dec 32 int32 0 = Some (-1).
Proof. reflexivity. Qed.
(** iterator.cpp:123-133 *)
Example random_access :
  (CountingModel.plus 32 int32 0 1, CountingModel.minus 32 int32 0 1, diff 32 int32 1 0, CountingModel.minus 32 int32 1 1) =
  (Some 1, Some (-1), Some 1, Some 0).
Proof. reflexivity. Qed.
(** iterator.cpp:135-154 *)
Example comparisons : (eq_it 0 0, CountingModel.less 0 1, CountingModel.less 1 0) = (true, true, false).
Proof. reflexivity. Qed.
(** iterator.cpp:156-174 *)
Example starting : (inc 32 int32 17, inc 32 char8 65, difference_type 32 char8) = (Some 18, Some 66, int32).
Proof. reflexivity. Qed.
