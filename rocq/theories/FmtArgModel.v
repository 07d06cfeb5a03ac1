(** Which arguments of ct_format are formatted at compile time, and as what: include/stdx/ct_format.hpp.

    CtFormatModel has compile-time values, results and runtime values; here arguments are of the kinds that
    the code tells apart, and [kind] finds out which of the three an argument is. *)
From Verif Require Import Base CtStringModel CtFormatModel.

(** The string of a format_result: cts_t, or a class template [T<char, 'a', 'b'...>] for which
    ct_string_from_type (ct_string.hpp:87-90) gives the string.  The latter has no operator() and is not a
    cx value. *)
Inductive str := Cts (s : list N) | StrType (s : list N).
Definition chars (k : str) : list N := match k with Cts s | StrType s => s end.

(** Arguments: a number and other values that fmt formats; strings; an enumerator of type [e]; an object of
    a type with ct_format_as; std::integral_constant of a number or an enumerator; type_identity; strings
    that are types; results; and what CX_VALUE and ct<...>() make: a cx value that gives [x] when called. *)
Inductive thing :=
| Num (z : Z)
| Text (s : list N)
| EnumV (e : nat) (z : Z)
| Custom (c : nat)
| ConstNum (z : Z)
| ConstEnum (e : nat) (z : Z)
| TypeId (t : nat)
| Str (k : str)
| Res (k : str) (args : list thing) (named : list named_arg)
| Cx (x : thing).

(** What fmt is given. *)
Inductive datum := DNum (z : Z) | DText (s : list N) | DCustom (c : nat).

Section Names.
(** enum_as_string (C53), type_as_string (C52), and the functions ct_format_as of the types that have one. *)
Variable enum_name : nat -> Z -> list N.
Variable type_name : nat -> list N.
Variable ct_format_as : nat -> thing.

Definition res_of (k : str) (args : list thing) (named : list named_arg) : result thing := mk_result (chars k) args named.

(** is_cx_value_v: type_traits.hpp:213-215; cts_t has it (ct_string.hpp:146), a format_result if it has no
    runtime arguments and a string that has it (ct_format.hpp:92-109). *)
Definition is_cx_value (x : thing) : bool :=
  match x with
  | Str (Cts _) | Cx _ => true
  | Res (Cts _) [] _ => true
  | _ => false
  end.
(** [requires { ct_string_from_type(t); }]. *)
Definition from_type (x : thing) : option (list N) := match x with Str (StrType s) => Some s | _ => None end.
(** fmt_cx_value: ct_format.hpp:229-231. *)
Definition fmt_cx_value (x : thing) : bool := is_cx_value x || match from_type x with Some _ => true | None => false end.

(** arg_value: ct_format.hpp:233-260.  [None]: there is no overload for it. *)
Inductive value := V (d : datum) | VRes (r : result thing).
Fixpoint arg_value (x : thing) : option value :=
  match x with
  | ConstNum z => Some (V (DNum z))
  | ConstEnum e z => Some (V (DText (enum_name e z)))
  | TypeId t => Some (V (DText (type_name t)))
  | Str (Cts s) => Some (V (DText s))
  | _ =>
      if fmt_cx_value x then
        match x with
        | Res k args named => Some (VRes (res_of k args named))
        | Cx y =>
            match arg_value y with
            | Some v => Some v
            | None =>
                match y with
                | EnumV e z => Some (V (DText (enum_name e z)))
                | Num z => Some (V (DNum z))
                | Text s => Some (V (DText s))
                | Custom c => Some (V (DCustom c))
                | Res k args named => Some (VRes (res_of k args named))
                | _ => None
                end
            end
        | _ => match from_type x with Some s => Some (V (DText s)) | None => None end
        end
      else None
  end.

(** The cases of format1: ct_format.hpp:333-372.  A result that is not a cx value is formatted as its
    string: the arguments of CtFormatModel do not tell it from one that is. *)
Definition kind (x : thing) : arg datum thing :=
  match arg_value x with
  | Some (V d) => ACt d
  | Some (VRes r) => ARes r
  | None => match x with Res k args named => ARes (res_of k args named) | _ => ARt x end
  end.
(** format_as: ct_format.hpp:389-402. *)
Definition format_as (x : thing) : thing := match x with Custom c => ct_format_as c | _ => x end.

(** convert_output: ct_format.hpp:316-324; [typed]: an Output template is given. *)
Definition convert_output (typed : bool) (s : list N) : str := if typed then StrType s else Cts s.
(** ct_format: ct_format.hpp:405-436. *)
Definition ct_format (fmt1 : list N -> datum -> option (list N)) (typed : bool) (fmt : list N) (args : list thing) : option thing :=
  match CtFormatModel.ct_format fmt1 DText fmt (map (fun x => kind (format_as x)) args) with
  | Some r => Some (Res (convert_output typed (r_str r)) (r_args r) (r_named r))
  | None => None
  end.
(** Unary + on a result, ct_format.hpp:75-85, 101: [None]: does not compile (a string type need not have
    a unary +). *)
Definition plus_res (x : thing) : option (list N) :=
  match x with Res (Cts s) [] _ => Some s | _ => None end.
End Names.
