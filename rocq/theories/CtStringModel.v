(** Model of include/stdx/ct_string.hpp.  A ct_string<N> is its array of N characters (codes);
    everything is evaluated at compile time, so an access outside an array or a negative size
    makes the program ill-formed ([None]). *)
From Verif Require Import Base.
Open Scope ub_scope.
Open Scope N_scope.

Notation chr := N (only parsing).
Notation cts := (list N) (only parsing).

(** ct_string.hpp:31-36: from an array of N characters. *)
Definition of_array (str : list chr) : cts := str.
(** ct_string.hpp:42-45, 128-135: copying [src] into [dst] from position [off] on. *)
Fixpoint copy_at (dst : list chr) (off : N) (src : list chr) : option (list chr) :=
  match src with
  | [] => Some dst
  | c :: r => d <- wr dst off c;; copy_at d (off + 1) r
  end.
(** ct_string.hpp:41-46: ct_string<n>(ptr, sz), the array zero-initialised first. *)
Definition of_ptr (n : N) (ptr : list chr) (sz : N) : option cts :=
  if sz <=? len ptr then copy_at (repeat 0 (N.to_nat n)) 0 (firstn (N.to_nat sz) ptr) else None.
(** ct_string.hpp:67-68. *)
Definition size (s : cts) : N := len s - 1.
Definition empty (s : cts) : bool := len s =? 1.
(** ct_string.hpp:51-58, 70-72: begin to end, and the string_view, leave out the last character. *)
Definition view (s : cts) : list chr := firstn (length s - 1) s.
(** ct_string.hpp:59-64: rbegin skips the last character. *)
Definition reversed (s : cts) : list chr := tl (rev s).
(** ct_string.hpp:80-85. *)
Fixpoint chars_eq (a b : list chr) : bool :=
  match a, b with
  | [], [] => true
  | x :: a', y :: b' => (x =? y) && chars_eq a' b'
  | _, _ => false
  end.
Definition equal (a b : cts) : bool := chars_eq (view a) (view b).
(** ct_string.hpp:87-97: to and from a type with a list of characters. *)
Definition from_type (cs : list chr) : cts := cs ++ [0].
Fixpoint gets (s : cts) (is : list N) : option (list chr) :=
  match is with [] => Some [] | i :: r => c <- rd s i;; cs <- gets s r;; Some (c :: cs) end.
Definition to_type (s : cts) : option (list chr) := gets s (map N.of_nat (seq 0 (N.to_nat (size s)))).
(** ct_string.hpp:102-121: split at the first C, looking at the whole array. *)
Fixpoint find_in (c : chr) (s : list chr) : N :=
  match s with [] => 0 | x :: r => if x =? c then 0 else 1 + find_in c r end.
Definition split (c : chr) (s : cts) : option (cts * cts) :=
  let it := find_in c s in
  if it =? len s then Some (s, [0])
  else if size s <? it + 1 then None      (* suffix_size = size - prefix_size is 0: ct_string<0> *)
  else
    let prefix_size := it in
    let suffix_size := size s - prefix_size in
    p <- of_ptr (prefix_size + 1) s prefix_size;;
    q <- of_ptr suffix_size (skipn (N.to_nat (it + 1)) s) (suffix_size - 1);;
    Some (p, q).
(** ct_string.hpp:123-137. *)
Definition concat (a b : cts) : option cts :=
  let ret := repeat 0 (N.to_nat (len a + len b - 1)) in
  r1 <- copy_at ret 0 (view a);; copy_at r1 (len a - 1) (view b).
