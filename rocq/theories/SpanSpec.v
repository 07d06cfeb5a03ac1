(** What a user expects of spans: windows onto one array. *)
From Verif Require Import Base SpanModel.
Open Scope N_scope.

(** A window: where it starts, how many elements it shows, and its static extent if any. *)
Record window := Window { off : N; cnt : N; fixed : option N }.
Record sview (A : Type) := SView { elems : list A; wins : list window }.
Arguments SView {A}.
Arguments elems {A}.
Arguments wins {A}.

(** The elements a window shows. *)
Definition shown {A} (l : list A) (w : window) : list A :=
  firstn (N.to_nat (cnt w)) (skipn (N.to_nat (off w)) l).
(** Every window lies within the array; a static extent is the number of elements shown. *)
Definition good_window (n : N) (w : window) : Prop :=
  off w + cnt w <= n /\ match fixed w with Some e => e = cnt w | None => True end.
(** The extent argument [e] as a static extent. *)
Definition static_of (e : N) : option N := if e =? dyn then None else Some e.
(** A window of [c] elements from [o]; extent argument [e] must be [c] or dynamic. *)
Definition width_ok (e c : N) : Prop := e = dyn \/ e = c.

Section Spec.
Context {A : Type}.
Definition at_win (m : sview A) (s : N) (P : window -> Prop) : Prop := exists w, rd (wins m) s = Some w /\ P w.
Definition has_reg (m : sview A) (d : N) : Prop := d < len (wins m).

(** [e = dyn] asks for a dynamic extent.  A static extent may be smaller than what it is
    built from. *)
Definition spre (m : sview A) (op : sop A) : Prop :=
  match op with
  | SArray d e => has_reg m d /\ (e = dyn \/ e <= len (elems m))
  | SIter d e p c => has_reg m d /\ p + c <= len (elems m) /\ (e = dyn \/ e <= c)
  | SConvert d s e => has_reg m d /\ at_win m s (fun w => e = dyn \/ e <= cnt w)
  | SFirstS d s c | SLastS d s c => has_reg m d /\ at_win m s (fun w => c <= cnt w)
  | SFirst d s c | SLast d s c => has_reg m d /\ at_win m s (fun w => c <= cnt w)
  | SSubS d s o c => has_reg m d /\ at_win m s (fun w => o <= cnt w /\ (c = dyn \/ o + c <= cnt w))
  | SSub d s o c => has_reg m d /\ at_win m s (fun w => o <= cnt w)
  | SSize s | SEmpty s | SAll s | SRev s => at_win m s (fun _ => True)
  | SFront s | SBack s => at_win m s (fun w => 0 < cnt w)
  | SAt s i | SPut s i _ | SGet s i => at_win m s (fun w => i < cnt w)
  end.

(** Register [d] now holds the window [w]; the array is unchanged. *)
Definition holds (m m' : sview A) (d : N) (w : window) : Prop :=
  elems m' = elems m /\ wr (wins m) d w = Some (wins m').

Definition sspec (m : sview A) (op : sop A) (o : sout A) (m' : sview A) : Prop :=
  let upto e c := match static_of e with Some x => x | None => c end in
  match op with
  | SArray d e => o = SUnit /\ holds m m' d (Window 0 (upto e (len (elems m))) (static_of e))
  | SIter d e p c => o = SUnit /\ holds m m' d (Window p (upto e c) (static_of e))
  | SConvert d s e => o = SUnit /\ at_win m s (fun w => holds m m' d (Window (off w) (upto e (cnt w)) (static_of e)))
  | SFirstS d s c => o = SUnit /\ at_win m s (fun w => holds m m' d (Window (off w) c (Some c)))
  | SFirst d s c => o = SUnit /\ at_win m s (fun w => holds m m' d (Window (off w) c None))
  | SLastS d s c => o = SUnit /\ at_win m s (fun w => holds m m' d (Window (off w + cnt w - c) c (Some c)))
  | SLast d s c => o = SUnit /\ at_win m s (fun w => holds m m' d (Window (off w + cnt w - c) c None))
  | SSubS d s p c => o = SUnit /\ at_win m s (fun w => holds m m' d
      (Window (off w + p) (if c =? dyn then cnt w - p else c)
              (if c =? dyn then match fixed w with Some e => Some (e - p) | None => None end else Some c)))
  | SSub d s p c => o = SUnit /\ at_win m s (fun w => holds m m' d (Window (off w + p) (N.min c (cnt w - p)) None))
  | SSize s => m' = m /\ at_win m s (fun w => o = SNum (len (shown (elems m) w)))
  | SEmpty s => m' = m /\ at_win m s (fun w => exists b, o = SBool b /\ (b = true <-> shown (elems m) w = []))
  | SFront s => m' = m /\ at_win m s (fun w => exists v r, shown (elems m) w = v :: r /\ o = SVal v)
  | SBack s => m' = m /\ at_win m s (fun w => exists v r, shown (elems m) w = r ++ [v] /\ o = SVal v)
  | SAt s i | SGet s i => m' = m /\ at_win m s (fun w => exists v, rd (shown (elems m) w) i = Some v /\ o = SVal v)
  | SPut s i v => o = SUnit /\ wins m' = wins m /\ at_win m s (fun w => wr (elems m) (off w + i) v = Some (elems m'))
  | SAll s => m' = m /\ at_win m s (fun w => o = SList (shown (elems m) w))
  | SRev s => m' = m /\ at_win m s (fun w => o = SList (rev (shown (elems m) w)))
  end.
End Spec.

(** The window a span stands for. *)
Definition window_of (s : span) : window := Window (ptr s) (size s) (static_of (ext s)).
Definition view {A} (st : sstate A) : sview A := SView (arr st) (map window_of (spans st)).
Definition good_sstate {A} (st : sstate A) : Prop :=
  len (arr st) < dyn /\ Forall (fun s => good_window (len (arr st)) (window_of s)) (spans st).

(** Forming a span within another: the operations that narrow, as functions on lists. *)
Inductive narrow := NFirst (c : N) | NLast (c : N) | NSub (o c : N).
Definition narrow_model (static : bool) (n : N) (k : narrow) (s : span) : made :=
  match k with
  | NFirst c => if static then first_s c s else first_d c s
  | NLast c => if static then last_s n c s else last_d n c s
  | NSub o c => if static then subspan_s n o c s else subspan_d n o c s
  end.
Definition narrow_list {A} (k : narrow) (l : list A) : list A :=
  match k with
  | NFirst c => firstn (N.to_nat c) l
  | NLast c => skipn (length l - N.to_nat c) l
  | NSub o c => firstn (N.to_nat c) (skipn (N.to_nat o) l)
  end.
Fixpoint narrow_all (n : N) (ks : list (bool * narrow)) (s : span) : made :=
  match ks with
  | [] => Formed s
  | (b, k) :: rest => match narrow_model b n k s with Formed s' => narrow_all n rest s' | x => x end
  end.

(** [r] is the least number of objects of [su] bytes that can hold [sz] objects of [st]. *)
Definition least_count (st su sz r : N) : Prop := sz * st <= r * su /\ forall r', sz * st <= r' * su -> r <= r'.

(** The bounds a user must respect for one narrowing step of a span showing [n] elements. *)
Definition fits (static : bool) (k : narrow) (n : N) : Prop :=
  match k with
  | NFirst c | NLast c => c <= n
  | NSub o c => o <= n /\ (static = true -> c = dyn \/ o + c <= n)
  end.
Fixpoint fits_all {A} (ks : list (bool * narrow)) (l : list A) : Prop :=
  match ks with
  | [] => True
  | (b, k) :: rest => fits b k (len l) /\ fits_all rest (narrow_list k l)
  end.
Definition narrow_lists {A} (ks : list (bool * narrow)) (l : list A) : list A :=
  fold_left (fun x k => narrow_list (snd k) x) ks l.
