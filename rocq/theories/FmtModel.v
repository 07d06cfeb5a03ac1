(** Model of the freestanding formatter of include/stdx/detail/fmt.hpp.  It runs at compile time:
    reading or writing outside an array, or a loop that does not end, is a program that does not
    compile ([None]). *)
From Verif Require Import Base CtStringModel.
Open Scope ub_scope.
Open Scope N_scope.

(** The values the overloads of formatted_size and format_to take: ranges of characters, pointers
    to NUL-terminated characters, characters and integers ([IBool] is bool). *)
Inductive ity := IBool | IInt (signed : bool) (w : N).
Inductive value :=
| VRange (cs : list N)
| VPtr (mem : list N)
| VChar (c : N)
| VInt (t : ity) (i : Z).

(** fmt.hpp:31-35. *)
Record fmt_spec := mk_spec { sp_len : N; sp_base : Z }.
(** fmt.hpp:37-50; [Some None] is not well-formed. *)
Definition parse_fmt_spec (fmt : cts) : option (option fmt_spec) :=
  let i := find_in 123 fmt in
  if i =? len fmt then None
  else
    c <- rd fmt (i + 1);;
    if c =? 125 then Some (Some (mk_spec 2 10))
    else if c =? 58 then
      d <- rd fmt (i + 2);;
      if d =? 120 then e <- rd fmt (i + 3);; Some (if e =? 125 then Some (mk_spec 4 16) else None) else Some None
    else Some None.
(** static_cast<I>(base) *)
Definition cast_base (t : ity) (base : Z) : Z := match t with IBool => if (base =? 0)%Z then 0 else 1 | IInt _ _ => base end.
(** fmt.hpp:57-64, 106-112: the characters up to the NUL. *)
Fixpoint until_nul (mem : list N) : option (list N) :=
  match mem with [] => None | c :: r => if c =? 0 then Some [] else cs <- until_nul r;; Some (c :: cs) end.
(** fmt.hpp:78-81: the loop of formatted_size; [fuel] bounds the number of turns. *)
Fixpoint count_loop (fuel : nat) (base i : Z) (sz : N) : option N :=
  if (i =? 0)%Z then Some sz
  else match fuel with O => None | S f => count_loop f base (Z.quot i base) (sz + 1) end.
(** The loops over an integer divide by at least 2 in each turn, so as many turns as bits are enough. *)
Definition turns (t : ity) : nat := match t with IBool => 1 | IInt _ w => N.to_nat w end.
(** fmt.hpp:52-84. *)
Definition value_size (fuel : nat) (s : fmt_spec) (v : value) : option N :=
  match v with
  | VRange cs => Some (len cs)
  | VPtr mem => cs <- until_nul mem;; Some (len cs)
  | VChar _ => Some 1
  | VInt t i =>
      if (i =? 0)%Z then Some 1
      else count_loop fuel (cast_base t (sp_base s)) i (if (i <? 0)%Z then 1 else 0)
  end.
Definition fuel_of (v : value) : nat := match v with VInt t _ => turns t | _ => O end.
(** fmt.hpp:87-95. *)
Definition formatted_size (fmt : cts) (v : value) : option N :=
  ms <- parse_fmt_spec fmt;;
  match ms with
  | None => None
  | Some s => n <- value_size (fuel_of v) s v;; Some (size fmt - sp_len s + n)
  end.

(** An output position in the buffer. *)
Definition put (b : list N * N) (c : N) : option (list N * N) := l <- wr (fst b) (snd b) c;; Some (l, snd b + 1).
Fixpoint puts (b : list N * N) (cs : list N) : option (list N * N) :=
  match cs with [] => Some b | c :: r => b' <- put b c;; puts b' r end.
(** fmt.hpp:126: the characters of "0123456789abcdef". *)
Definition hex_table : list N := [48;49;50;51;52;53;54;55;56;57;97;98;99;100;101;102].
Definition to_digit (n : Z) : option N := if (n <? 0)%Z then None else rd hex_table (Z.to_N n).
(** fmt.hpp:133-137. *)
Fixpoint digit_loop (fuel : nat) (base i : Z) (b : list N * N) : option (list N * N) :=
  if (i =? 0)%Z then Some b
  else match fuel with
       | O => None
       | S f => d <- to_digit (Z.abs (Z.rem i base));; b' <- put b d;; digit_loop f base (Z.quot i base) b'
       end.
(** fmt.hpp:139-144. *)
Fixpoint reverse_loop (fuel : nat) (buf : list N) (b e : N) : option (list N) :=
  if b <? e then
    match fuel with
    | O => None
    | S f => tmp <- rd buf b;; x <- rd buf e;; l <- wr buf b x;; l' <- wr l e tmp;; reverse_loop f l' (b + 1) (e - 1)
    end
  else Some buf.
(** fmt.hpp:97-147. *)
Definition value_to (fuel : nat) (s : fmt_spec) (b : list N * N) (v : value) : option (list N * N) :=
  match v with
  | VRange cs => puts b cs
  | VPtr mem => cs <- until_nul mem;; puts b cs
  | VChar c => put b c
  | VInt t i =>
      if (i =? 0)%Z then put b 48
      else
        b0 <- (if (i <? 0)%Z then put b 45 else Some b);;
        b1 <- digit_loop fuel (cast_base t (sp_base s)) i b0;;
        l <- reverse_loop (length (fst b1)) (fst b1) (snd b0) (snd b1 - 1);;
        Some (l, snd b1)
  end.
(** fmt.hpp:151-172 (parse_fmt_spec gives length 0 when it is not well-formed; formatted_size has
    already rejected that). *)
Definition format_to (b : list N * N) (fmt : cts) (v : value) : option (list N * N) :=
  ms <- parse_fmt_spec fmt;;
  match ms with
  | None => None
  | Some s =>
      let i := find_in 123 fmt in
      b1 <- puts b (firstn (N.to_nat i) fmt);;
      b2 <- value_to (fuel_of v) s b1 v;;
      rest <- until_nul (skipn (N.to_nat (i + sp_len s)) fmt);;
      puts b2 rest
  end.
(** ct_format.hpp:326-331. *)
Definition perform_format (n : N) (fmt : cts) (v : value) : option cts :=
  r <- format_to (repeat 0 (N.to_nat (n + 1)), 0) fmt v;; Some (fst r).
(** ct_format.hpp:341-342, 348-349: size first, then format. *)
Definition fmt_format (fmt : cts) (v : value) : option cts :=
  n <- formatted_size fmt v;; perform_format n fmt v.
