(** Model of include/stdx/ct_conversions.hpp: the strings cut out of __PRETTY_FUNCTION__.
    A string is its list of character codes.  [None] is an out-of-range access or a position
    that has wrapped around: the program does not compile. *)
From Coq Require Import String Ascii.
From Verif Require Import Base.
Open Scope ub_scope.
Open Scope nat_scope.

Notation str := (list N) (only parsing).
(** A string literal as character codes. *)
Definition codes (s : string) : str := map N_of_ascii (list_ascii_of_string s).

(** ** std::string_view operations used by the header (std::string_view contract) *)
(** find(c): the first position holding [c]. *)
Fixpoint sv_find (c : N) (s : str) : option nat :=
  match s with
  | [] => None
  | x :: r => if (x =? c)%N then Some 0 else option_map S (sv_find c r)
  end.
(** find_last_of(c): the last position holding [c]. *)
Fixpoint sv_find_last (c : N) (s : str) : option nat :=
  match s with
  | [] => None
  | x :: r => match sv_find_last c r with
              | Some i => Some (S i)
              | None => if (x =? c)%N then Some 0 else None
              end
  end.
(** rfind(c, pos): the last position not after [pos] holding [c]. *)
Definition sv_rfind (c : N) (s : str) (pos : nat) : option nat := sv_find_last c (firstn (S pos) s).
(** substr(pos, n) throws (does not compile) when [pos] is past the end; [n] is cut to the end. *)
Definition sv_substr (s : str) (pos n : nat) : option str :=
  if length s <? pos then None else Some (firstn n (skipn pos s)).
(** x - y in std::size_t, for the case that does not wrap. *)
Definition sz_sub (x y : nat) : option nat := if x <? y then None else Some (x - y).

Inductive compiler := Clang | Gcc.
(** ct_conversions.hpp:15, 18: the distance of the last character of the name from the end. *)
Definition tail_len (c : compiler) : nat := match c with Clang => 2 | Gcc => 51 end.

(** ct_conversions.hpp:11-26, as a function of the compiler's __PRETTY_FUNCTION__.  When no '='
    is found, rfind gives npos and npos + 2 wraps to 1.  [rhs + 1 - lhs] stands for
    [rhs - lhs + 1], which agrees unless it wraps. *)
Definition type_as_string (c : compiler) (function_name : str) : option str :=
  rhs <- sz_sub (length function_name) (tail_len c);;
  let lhs := match sv_rfind 61 function_name rhs with Some i => i + 2 | None => 1 end in
  n <- sz_sub (rhs + 1) lhs;;
  sv_substr function_name lhs n.

(** ct_conversions.hpp:28-33: substr(0, npos) is the whole string. *)
Definition template_base (c : compiler) (function_name : str) : option str :=
  t <- type_as_string c function_name;;
  match sv_find 60 t with Some rhs => sv_substr t 0 rhs | None => Some t end.

(** type_traits.hpp:323-324. *)
Fixpoint same_chars (a b : str) : bool :=
  match a, b with
  | [], [] => true
  | x :: a', y :: b' => (x =? y)%N && same_chars a' b'
  | _, _ => false
  end.
Definition is_same_template (c : compiler) (fn1 fn2 : str) : option bool :=
  a <- template_base c fn1;; b <- template_base c fn2;; Some (same_chars a b).

(** ct_conversions.hpp:45-53. *)
Definition qual_str (value_string : str) : option str :=
  rhs <- sz_sub (length value_string) 2;;
  match sv_find_last 61 value_string with
  | Some eq_pos => n <- sz_sub (rhs + 1) (eq_pos + 2);; sv_substr value_string (eq_pos + 2) n
  | None => Some value_string
  end.
(** ct_conversions.hpp:63-68. *)
Definition after_colon (q : str) : option str :=
  match sv_find_last 58 q with
  | Some colon_pos => sv_substr q (colon_pos + 1) (length q)
  | None => Some q
  end.
(** ct_conversions.hpp:55-69: [q[close_paren_pos + 1]] is an access past the end when the
    parenthesis is the last character. *)
Definition cast_str (q : str) : option str :=
  match sv_find_last 41 q with
  | Some close_paren_pos =>
      match nth_error q (close_paren_pos + 1) with
      | Some ch => if (ch =? 58)%N then after_colon q else Some q
      | None => None
      end
  | None => after_colon q
  end.
(** ct_conversions.hpp:35-72. *)
Definition enum_as_string (value_string : str) : option str := q <- qual_str value_string;; cast_str q.
