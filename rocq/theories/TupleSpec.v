(** What a user expects of tuples: they are lists of elements. *)
From Verif Require Import Base.
From Coq Require Import Permutation.

(** ** Calls made in order *)
Inductive calls {W X Y} (f : W -> X -> W * Y) : W -> list X -> W -> list Y -> Prop :=
| calls_none w : calls f w [] w []
| calls_more w x w1 y xs w2 ys : f w x = (w1, y) -> calls f w1 xs w2 ys -> calls f w (x :: xs) w2 (y :: ys).

(** ** Several tuples in step *)
(** [r] holds the elements number [i] of the tuples. *)
Definition is_row {E} (ts : list (list E)) (i : nat) (r : list E) : Prop :=
  Forall2 (fun t e => nth_error t i = Some e) ts r.
(** The rows of the tuples, as many as the shortest has elements (none without tuples). *)
Definition is_rows {E} (ts : list (list E)) (rows : list (list E)) : Prop :=
  (forall i r, nth_error rows i = Some r -> is_row ts i r) /\
  (ts = [] -> rows = []) /\
  (ts <> [] -> Forall (fun t => length rows <= length t) ts /\ Exists (fun t => length rows = length t) ts).

(** The predicate is called on a prefix of the rows, up to the first that answers [stop]. *)
Definition until {W E} (stop : bool) (f : W -> list E -> W * bool) (w : W) (rows : list (list E)) (w' : W) (found : bool) : Prop :=
  exists k, k <= length rows /\
  if found then exists j, k = S j /\ calls f w (firstn k rows) w' (repeat (negb stop) j ++ [stop])
  else k = length rows /\ calls f w rows w' (repeat (negb stop) k).

(** ** Chunks *)
(** [cs] cuts [t] into maximal runs of equal [key]. *)
Record chunking {E K} (key : E -> K) (t : list E) (cs : list (list E)) : Prop := {
  cuts : concat cs = t;
  nonempty : Forall (fun c => c <> []) cs;
  homogeneous : forall c x y, In c cs -> In x c -> In y c -> key x = key y;
  maximal : forall i c d x y, nth_error cs i = Some c -> nth_error cs (S i) = Some d -> In x c -> In y d -> key x <> key y }.

(** [cs] groups [t]: one group for every key. *)
Record grouping {E K} (key : E -> K) (t : list E) (cs : list (list E)) : Prop := {
  regroups : Permutation t (concat cs);
  g_nonempty : Forall (fun c => c <> []) cs;
  g_homogeneous : forall c x y, In c cs -> In x c -> In y c -> key x = key y;
  g_distinct : forall i j c d x y, nth_error cs i = Some c -> nth_error cs j = Some d -> In x c -> In y d ->
    key x = key y -> i = j }.

(** ** Names *)
(** operator< of string_view: lexicographic in the characters (as unsigned values). *)
Fixpoint name_lt (a b : list N) : Prop :=
  match a, b with
  | _, [] => False
  | [], _ :: _ => True
  | x :: a', y :: b' => (x < y)%N \/ (x = y /\ name_lt a' b')
  end.
(** Every later element is not less than every earlier one. *)
Definition ordered {X} (nm : X -> list N) (l : list X) : Prop :=
  forall i j x y, i < j -> nth_error l i = Some x -> nth_error l j = Some y -> ~ name_lt (nm y) (nm x).
Definition strictly_ordered {X} (nm : X -> list N) (l : list X) : Prop :=
  forall i j x y, i < j -> nth_error l i = Some x -> nth_error l j = Some y -> name_lt (nm x) (nm y).
(** What the standard promises of std::sort comparing the names: it need not be stable. *)
Definition sorts (std_sort : list (list N * nat) -> list (list N * nat)) : Prop :=
  forall a, Permutation a (std_sort a) /\ ordered fst (std_sort a).
(** Different types have different names. *)
Definition injective {X Y} (f : X -> Y) : Prop := forall x y, f x = f y -> x = y.
Definition decides {X} (same : X -> X -> bool) : Prop := forall x y, same x y = true <-> x = y.

(** ** Sets *)
(** The elements whose type no earlier element has, in order. *)
Definition first_of_type {E T} (same : T -> T -> bool) (ty : E -> T) (t : list E) : list E :=
  map snd (List.filter (fun ie => negb (existsb (fun e' => same (ty e') (ty (snd ie))) (firstn (fst ie) t)))
                       (combine (seq 0 (length t)) t)).

(** ** Products *)
Definition product (ns : list nat) : nat := List.fold_right Nat.mul 1 ns.
(** A choice of one position in each tuple, and what it picks. *)
Definition choice {E} (ts : list (list E)) (is : list nat) : Prop := Forall2 (fun t i => i < length t) ts is.
Definition picks {E} (ts : list (list E)) (is : list nat) (c : list E) : Prop :=
  length is = length ts /\ length c = length ts /\
  forall k t i, nth_error ts k = Some t -> nth_error is k = Some i -> nth_error c k = nth_error t i.
(** How many choices come before this one in lexicographic order. *)
Fixpoint rank (ns : list nat) (is : list nat) : nat :=
  match ns, is with n :: ns', i :: is' => i * product ns' + rank ns' is' | _, _ => 0 end.
(** Lexicographic order of choices. *)
Fixpoint before (is js : list nat) : Prop :=
  match is, js with i :: is', j :: js' => i < j \/ (i = j /\ before is' js') | _, _ => False end.

(** ** Comparison: the first difference decides. *)
Definition lexicographic {E E'} (cmp : E -> E' -> option comparison) (l : list E) (r : list E') (c : option comparison) : Prop :=
  (c = Some Eq /\ Forall2 (fun x y => cmp x y = Some Eq) l r) \/
  (c <> Some Eq /\ exists l0 x l1 r0 y r1, l = l0 ++ x :: l1 /\ r = r0 ++ y :: r1 /\
     Forall2 (fun x y => cmp x y = Some Eq) l0 r0 /\ cmp x y = c).
