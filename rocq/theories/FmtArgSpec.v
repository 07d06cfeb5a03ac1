(** What the documentation of ct_format says about its arguments (docs/ct_format.adoc). *)
From Verif Require Import Base CtFormatModel FmtArgModel.

Section Spec.
Variable enum_name : nat -> Z -> list N.
Variable type_name : nat -> list N.

(** What fmt is to format at compile time in place of an argument... *)
Inductive compile_time : thing -> datum -> Prop :=
| ct_const z : compile_time (ConstNum z) (DNum z)
| ct_const_enum e z : compile_time (ConstEnum e z) (DText (enum_name e z))
| ct_type t : compile_time (TypeId t) (DText (type_name t))
| ct_cts s : compile_time (Str (Cts s)) (DText s)
| ct_str s : compile_time (Str (StrType s)) (DText s)
| ct_num z : compile_time (Cx (Num z)) (DNum z)
| ct_text s : compile_time (Cx (Text s)) (DText s)
| ct_enum e z : compile_time (Cx (EnumV e z)) (DText (enum_name e z))
| ct_wrapped x d : compile_time x d -> compile_time (Cx x) d.
(** ... the results that are spliced in... *)
Inductive splice : thing -> result thing -> Prop :=
| sp_res k args named : splice (Res k args named) (mk_result (chars k) args named)
| sp_wrapped x r : splice x r -> splice (Cx x) r.
(** ... and the arguments that are left for run time. *)
Inductive runtime : thing -> Prop :=
| rt_num z : runtime (Num z)
| rt_text s : runtime (Text s)
| rt_enum e z : runtime (EnumV e z).
(** What is inside all wrappers. *)
Fixpoint innermost (x : thing) : thing := match x with Cx y => innermost y | _ => x end.
End Spec.
