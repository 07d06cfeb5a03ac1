(** Model of latched and cached (include/stdx/latched.hpp, cached.hpp) shared by threads: the steps in
    which one call reads and writes the std::optional, and their interleavings.

    The steps are those of std::optional's members; a call of the user's function is one step, and the
    function does not use the object.  [out i] is the outcome of the i-th call of the function: a value
    or a throw.  Two threads that are about to use the std::optional, one of them to change it, race. *)
From Verif Require Import Base LatchedModel.

Section Threads.
Context {V : Type}.
Variable out : nat -> option V.

(** What a thread does next in its current call. *)
Inductive phase :=
| Start                                      (* the call begins *)
| Test                                       (* latched.hpp:49: opt.has_value() in populate *)
| Clear                                      (* latched.hpp:50: emplace, which first destroys what there is *)
| Call                                       (* latched.hpp:50: emplace, which calls the function *)
| Store (v : V)                              (* latched.hpp:50: emplace, which stores the result *)
| Load.                                      (* latched.hpp:28, 32, 37, cached.hpp:15: *opt, opt.operator->() *)
Record thread := Thread { at_ : phase; todo : list op; results : list (result V) }.
Record memory := Memory { held : option V; calls : nat }.

Inductive access := Reads | Writes | Nothing.
(** The use of the std::optional that the next step of a thread makes. *)
Definition next_access (t : thread) : access :=
  match todo t with
  | [] => Nothing
  | o :: _ =>
      match at_ t with
      | Start => match o with Access | HasValue => Reads | Reset | Refresh => Writes end
      | Test | Load => Reads
      | Clear | Store _ => Writes
      | Call => Nothing
      end
  end.
(** The current call ends with [r]. *)
Definition ends (t : thread) (r : result V) : thread := Thread Start (tl (todo t)) (results t ++ [r]).
Definition goes (t : thread) (p : phase) : thread := Thread p (todo t) (results t).
(** latched.hpp:49-51: has_value() of populate, and where it leads. *)
Definition test (m : memory) (t : thread) : thread := goes t (match held m with Some _ => Load | None => Clear end).
(** One step of a thread; [None]: *opt of an empty std::optional. *)
Definition step1 (m : memory) (t : thread) : option (memory * thread) :=
  match todo t with
  | [] => Some (m, t)
  | o :: _ =>
      match at_ t with
      | Start =>
          match o with
          | Access => Some (m, test m t)                                                   (* latched.hpp:26-45 *)
          | HasValue => Some (m, ends t (Says (match held m with Some _ => true | None => false end)))  (* latched.hpp:19-24 *)
          | Reset => Some (Memory None (calls m), ends t Done)                             (* cached.hpp:11 *)
          | Refresh => Some (Memory None (calls m), goes t Test)                           (* cached.hpp:13 *)
          end
      | Test => Some (m, test m t)
      | Clear => Some (Memory None (calls m), goes t Call)
      | Call => Some (Memory (held m) (S (calls m)), match out (calls m) with Some v => goes t (Store v) | None => ends t Threw end)
      | Store v => Some (Memory (Some v) (calls m), goes t Load)
      | Load => match held m with Some v => Some (m, ends t (Got v)) | None => None end
      end
  end.

(** Thread [i] makes a step. *)
Fixpoint put (l : list thread) (i : nat) (t : thread) : list thread :=
  match l, i with [], _ => [] | _ :: r, O => t :: r | x :: r, S i' => x :: put r i' t end.
Definition system := (memory * list thread)%type.
Definition sys_step (s : system) (i : nat) : option system :=
  match nth_error (snd s) i with
  | None => Some s
  | Some t => match step1 (fst s) t with Some (m, t') => Some (m, put (snd s) i t') | None => None end
  end.
(** A schedule says which thread makes each step. *)
Fixpoint run (s : system) (sched : list nat) : option system :=
  match sched with [] => Some s | i :: r => match sys_step s i with Some s' => run s' r | None => None end end.

(** Threads that are to make the given calls, on an object that holds a value or none. *)
Definition begin (h : option V) (progs : list (list op)) : system := (Memory h 0, map (fun p => Thread Start p []) progs).
End Threads.
Arguments system : clear implicits.
Arguments memory : clear implicits.
Arguments thread : clear implicits.
