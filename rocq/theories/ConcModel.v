(** Threads sharing one atomic word.
    The primitives ::atomic::load, store, exchange and fetch_* come from another library
    (<conc/atomic.hpp>, used at include/stdx/atomic.hpp:3 and atomic_bitset.hpp:12): they are
    modelled as indivisible steps on the word, in an interleaving (sequentially consistent)
    semantics, which is what the default order memory_order_seq_cst promises.  A call of the
    stdx API is a program over these primitives; its invocation, each primitive and its
    return are separate steps, so other threads may run in between. *)
From Verif Require Import Base BitModel.
Open Scope N_scope.

Inductive prim :=
| PLoad | PStore (v : N) | PExchange (v : N) | PAdd (v : N) | PSub (v : N)
| PAnd (v : N) | POr (v : N) | PXor (v : N).

(** New contents and returned value, for a word of [w] bits; arguments are converted to the
    word type. *)
Definition exec_prim (w : N) (p : prim) (m : N) : N * N :=
  match p with
  | PLoad => (m, m)
  | PStore v => (wrap w v, 0)
  | PExchange v => (wrap w v, m)
  | PAdd v => (wrap w (m + wrap w v), m)
  | PSub v => (wrap w (m + 2 ^ w - wrap w v), m)
  | PAnd v => (N.land m (wrap w v), m)
  | POr v => (N.lor m (wrap w v), m)
  | PXor v => (N.lxor m (wrap w v), m)
  end.

(** A call in progress: finished, undefined behaviour, or a primitive to perform next. *)
Inductive prog (Out : Type) :=
| Ret (o : Out)
| Bad
| Do (p : prim) (k : N -> prog Out).
Arguments Ret {Out} _.
Arguments Bad {Out}.
Arguments Do {Out} _ _.

Record thread (Op Out : Type) := Thread { cur : option (Op * prog Out); todo : list Op }.
Arguments Thread {Op Out} _ _.
Arguments cur {Op Out} _.
Arguments todo {Op Out} _.

Inductive event (Op Out : Type) := Inv (i : N) (op : Op) | Res (i : N) (op : Op) (o : Out).
Arguments Inv {Op Out} _ _.
Arguments Res {Op Out} _ _ _.

Section Run.
Context {Op Out : Type}.
Variable w : N.
Variable code : Op -> prog Out.

(** One step of thread [i] in state [t]: [None] is undefined behaviour. *)
Definition tstep (i : N) (mem : N) (t : thread Op Out) : option (N * thread Op Out * list (event Op Out)) :=
  match cur t with
  | None =>
      match todo t with
      | [] => Some (mem, t, [])
      | op :: rest => Some (mem, Thread (Some (op, code op)) rest, [Inv i op])
      end
  | Some (op, Do p k) => let '(mem', r) := exec_prim w p mem in Some (mem', Thread (Some (op, k r)) (todo t), [])
  | Some (op, Ret o) => Some (mem, Thread None (todo t), [Res i op o])
  | Some (op, Bad) => None
  end.

(** A schedule names the thread that takes each step (ignored if there is no such thread). *)
Fixpoint run_threads (sched : list N) (mem : N) (ts : list (thread Op Out))
  : option (N * list (thread Op Out) * list (event Op Out)) :=
  match sched with
  | [] => Some (mem, ts, [])
  | i :: rest =>
      match rd ts i with
      | None => run_threads rest mem ts
      | Some t =>
          match tstep i mem t with
          | None => None
          | Some (mem', t', es) =>
              match wr ts i t' with
              | None => None
              | Some ts' =>
                  match run_threads rest mem' ts' with
                  | None => None
                  | Some (mem'', ts'', h) => Some (mem'', ts'', es ++ h)
                  end
              end
          end
      end
  end.

(** Threads about to run the given programs. *)
Definition start (programs : list (list Op)) : list (thread Op Out) := map (Thread None) programs.
Definition finished (ts : list (thread Op Out)) : Prop := Forall (fun t => cur t = None /\ todo t = []) ts.
End Run.
