(** Sized literals: include/stdx/utility.hpp:166-190, over parse_literal (UdlModel.v) and
    size_conversion (SpanModel.v). *)
From Verif Require Import Base UdlModel SpanModel.
Open Scope N_scope.
(** utility.hpp:166-176: udl_sized<T, N>::in<U>, for sizes [st] of T and [su] of U. *)
Definition udl_sized_in (st n su : N) : N := sized_in st su n.
(** utility.hpp:179-190: the text of a literal, then ->in<U>.  [None]: does not compile. *)
Definition z_literal (st : N) (cs : list N) (su : N) : option N :=
  option_map (fun n => udl_sized_in st n su) (parse_literal 64 cs).
(** udls.hpp:73-80: the value of the integral constant of std::uint32_t. *)
Definition c_literal (cs : list N) : option N := parse_literal 32 cs.
