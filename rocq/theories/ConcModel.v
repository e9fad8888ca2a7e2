(** * Interleaved execution of tasks

    A parallel algorithm of fern splits its work in tasks (one per block of elements) that
    are executed by the worker threads of the thread pool
    ([algorithm/policy/execution_policy.h], [core/thread_pool.cc]).  Here a set of tasks
    is executed by letting a schedule -- an arbitrary list of task numbers -- decide which
    task performs its next single memory access.  How tasks get onto threads is modelled
    in [PoolModel.v].

    Simplification: sequentially consistent interleaving.  For programs without data races
    (which is what the footprint conditions establish) this is what C++11 guarantees. *)

From Coq Require Import ZArith List Bool.
From Verif Require Import LangModel.
Import ListNotations.
Open Scope Z_scope.

Section Conc.
Context {V A : Type}.

(** One memory access of a program; [None] is undefined behaviour.  A finished program
    stays as it is. *)
Definition step (p : prog V A) (m : mem V) : option (prog V A * mem V) :=
  match p with
  | Ret a => Some (Ret a, m)
  | RdV b i k => match mval m b i with Some v => Some (k v, m) | None => None end
  | WrV b i v k =>
      match mval m b i with Some _ => Some (k, set_v m b i v) | None => None end
  | RdM b i k => match mmsk m b i with Some x => Some (k x, m) | None => None end
  | WrM b i x k =>
      match mmsk m b i with Some _ => Some (k, set_m m b i x) | None => None end
  | UB => None
  end.

Fixpoint replace_nth {X} (l : list X) (k : nat) (x : X) : list X :=
  match l, k with
  | [], _ => []
  | _ :: l', O => x :: l'
  | y :: l', S k' => y :: replace_nth l' k' x
  end.

(** Task [k] performs its next access. *)
Definition step_task (ps : list (prog V A)) (m : mem V) (k : nat)
  : option (list (prog V A) * mem V) :=
  match nth_error ps k with
  | None => Some (ps, m)
  | Some p =>
      match step p m with
      | None => None
      | Some (p', m') => Some (replace_nth ps k p', m')
      end
  end.

(** Execute a schedule: a list of task numbers. *)
Fixpoint exec (sched : list nat) (ps : list (prog V A)) (m : mem V)
  : option (list (prog V A) * mem V) :=
  match sched with
  | [] => Some (ps, m)
  | k :: sched' =>
      match step_task ps m k with
      | None => None
      | Some (ps', m') => exec sched' ps' m'
      end
  end.

End Conc.
