(** Model of include/stdx/ct_format.hpp: finding and splitting specifiers, named arguments,
    format results and ct_format.  Strings are lists of character codes; a ct_string inside a
    result is its characters without the terminator (see CtStringModel).  [None] is a program that
    does not compile. *)
From Verif Require Import Base CtStringModel.
Open Scope ub_scope.
Open Scope N_scope.

(** ct_format.hpp:126-138: find_spec, as the number of characters before the specifier (all of
    them when there is none). *)
Fixpoint find_spec (s : list N) : N :=
  match s with
  | [] => 0
  | c :: r =>
      if c =? 123 then
        match r with
        | [] => 1
        | d :: r' => if d =? 123 then 2 + find_spec r' else 0
        end
      else 1 + find_spec r
  end.
(** ct_format.hpp:140-148; each turn goes past at least one character. *)
Fixpoint count_from (fuel : nat) (s : list N) : option N :=
  let k := find_spec s in
  if k =? len s then Some 0
  else match fuel with
       | O => None
       | S f => n <- count_from f (skipn (N.to_nat (k + 1)) s);; Some (n + 1)
       end.
Definition count_specifiers (s : list N) : option N := count_from (length s) s.

(** ct_format.hpp:150-157. *)
Record split_spec := mk_split { sp_view : list N; sp_start : N }.
(** ct_format.hpp:159-183: the pieces; [room] is what is left of the array. *)
Fixpoint split_from (fuel : nat) (room : nat) (s : list N) : option (list split_spec) :=
  match room with
  | O => None
  | S room' =>
      let k := find_spec s in
      if k =? len s then Some (mk_split s (len s) :: repeat (mk_split [] 0) room')
      else match fuel with
           | O => None
           | S f =>
               let e := k + find_in 125 (skipn (N.to_nat k) s) in
               let e' := if e =? len s then e else e + 1 in
               rest <- split_from f room' (skipn (N.to_nat e') s);;
               Some (mk_split (firstn (N.to_nat e') s) k :: rest)
           end
  end.
Definition split_specifiers (n : N) (s : list N) : option (list split_spec) := split_from (length s) (N.to_nat n) s.

(** A slice [start, start + size) of a string; sizes and positions come from size_t arithmetic, so
    a negative one does not compile. *)
Definition slice (s : list N) (start size : Z) : option (list N) :=
  if ((0 <=? start) && (0 <=? size) && (start + size <=? Z.of_N (len s)))%Z
  then Some (firstn (Z.to_nat size) (skipn (Z.to_nat start) s)) else None.
(** ct_format.hpp:185-227: the piece without the name, and the name.  (The code looks for the colon
    up to and including the terminator, which is not a colon.) *)
Definition extract_format1_str (s : list N) (start : N) : option (list N * list N) :=
  let name_start := start + 1 in
  if len s + 1 <? name_start then None
  else
    let k := find_in 58 (skipn (N.to_nat name_start) s) in
    if name_start + k =? N.max name_start (len s) then
      if (Z.of_N start =? Z.of_N (len s) - 2)%Z then Some (s, [])
      else
        let suffix_start := (Z.of_N (len s) - 1)%Z in
        name <- slice s (Z.of_N name_start) (suffix_start - Z.of_N name_start);;
        pre <- slice s 0 (Z.of_N name_start);;
        suf <- slice s suffix_start 1;;
        Some (pre ++ suf, name)
    else
      let it := name_start + k in
      name <- slice s (Z.of_N name_start) (Z.of_N k);;
      pre <- slice s 0 (Z.of_N name_start);;
      suf <- slice s (Z.of_N it) (Z.of_N (len s - it));;
      Some (pre ++ suf, name).

(** ct_format.hpp:29-51 (int overflow is not modelled). *)
Record named_arg := mk_named { na_name : list N; na_begin : Z; na_end : Z }.
Definition is_runtime (a : named_arg) : bool := (na_end a <? na_begin a)%Z.
Definition apply_offset (so ao : N) (a : named_arg) : named_arg :=
  let off := Z.of_N (if is_runtime a then ao else so) in
  mk_named (na_name a) (na_begin a + off) (na_end a + off).

(** ct_format.hpp:66-115: a result with its runtime arguments and named arguments. *)
Record result (X : Type) := mk_result { r_str : list N; r_args : list X; r_named : list named_arg }.
Arguments mk_result {X} _ _ _.
Arguments r_str {X} _.
Arguments r_args {X} _.
Arguments r_named {X} _.
(** ct_format.hpp:287-300. *)
Definition plus {X} (r1 r2 : result X) : result X :=
  mk_result (r_str r1 ++ r_str r2) (r_args r1 ++ r_args r2)
    (r_named r1 ++ map (apply_offset (len (r_str r1)) (len (r_args r1))) (r_named r2)).
(** ct_format.hpp:275-285. *)
Definition plus_str {X} (r : result X) (s : list N) : result X := mk_result (r_str r ++ s) (r_args r) (r_named r).
Definition str_plus {X} (s : list N) (r : result X) : result X :=
  mk_result (s ++ r_str r) (r_args r) (map (apply_offset (len s) 0) (r_named r)).

(** What an argument is: a compile-time value, a format result (compile-time or not), or a
    runtime value.  Simplification: a runtime value is not a stdx::tuple (MakeTupleModel: C103). *)
Inductive arg (V X : Type) := ACt (v : V) | ARes (r : result X) | ARt (x : X).
Arguments ACt {V X} _.
Arguments ARes {V X} _.
Arguments ARt {V X} _.

Section Format.
Context {V X : Type}.
(** formatting one piece with one value: the text, or no compilation; and the value that a string
    is ([convert_input]). *)
Variable fmt1 : list N -> V -> option (list N).
Variable of_str : list N -> V.

(** ct_format.hpp:333-372. *)
Definition format1 (fmt name : list N) (start : N) (a : arg V X) : option (result X) :=
  match a with
  | ACt v =>
      t <- fmt1 fmt v;;
      Some (mk_result t [] (if len name =? 0 then [] else [mk_named name (Z.of_N start) (Z.of_N (len t))]))
  | ARes r =>
      t <- fmt1 fmt (of_str (r_str r));;
      Some (mk_result t (r_args r) (map (apply_offset start 0) (r_named r)))
  | ARt x =>
      Some (mk_result fmt [x] (if len name =? 0 then [] else [mk_named name 0 (-1)]))
  end.
(** ct_format.hpp:418-425. *)
Definition format_piece (p : split_spec) (a : arg V X) : option (result X) :=
  e <- extract_format1_str (sp_view p) (sp_start p);;
  format1 (fst e) (snd e) (sp_start p) a.
(** ct_format.hpp:427-431: the fold over the pieces and the last string. *)
Fixpoint format_all (ps : list split_spec) (args : list (arg V X)) : option (result X) :=
  match ps, args with
  | [last], [] => Some (mk_result (sp_view last) [] [])
  | p :: ps', a :: args' => r <- format_piece p a;; rest <- format_all ps' args';; Some (plus r rest)
  | _, _ => None
  end.
(** ct_format.hpp:381-387, 405-436. *)
Definition ct_format (fmt : list N) (args : list (arg V X)) : option (result X) :=
  n <- count_specifiers fmt;;
  ps <- split_specifiers (n + 1) fmt;;
  if n =? len args then format_all ps args else None.
End Format.
