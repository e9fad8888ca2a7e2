(** * The thread pool

    core/thread_pool.{h,cc}: worker threads that pop tasks from a queue.  One client thread
    performs a script of actions on the pool; a schedule -- an arbitrary list of thread choices --
    decides who takes the next step.

    Simplifications: the queue's calls are single steps ([QueueProps.v] proves that they can
    be taken as such); tasks do not throw (an exception would be kept in the future);
    thread creation does not fail, and a thread that has not been created yet is one that has
    not been scheduled yet; the time-out of 100 ms is a step that a waiting thread can take at
    any moment, which also covers spurious wake-ups; a task's function is its sequence of
    memory accesses. *)
From Coq Require Import ZArith List Bool Arith.
From Verif Require Import LangModel ConcModel.
Import ListNotations.
Open Scope nat_scope.

Section Pool.
Context {V : Type}.

(** What the client does.  [SetDone], [NotifyAll] and [Join] are the parts of the destructor,
    [Push] and [Notify] those of submit. *)
Inductive action :=
  | Push (p : prog V unit)
  | Notify
  | Wait (id : nat)
  | Do (p : prog V unit)
  | SetDone
  | NotifyAll
  | Join (i : nat).

(** thread_pool.h:105-122: push the task (line 115), notify one thread (line 119).  Tasks are
    numbered in the order in which they are pushed; the future is that number. *)
Definition submit (p : prog V unit) : list action := [Push p; Notify].

(** thread_pool.cc:80-84, join_threads.cc:23-30: raise the flag, notify all threads, join them
    one after the other (the joiner is the first member to be destructed). *)
Definition destruct_pool (nr_threads : nat) : list action :=
  SetDone :: NotifyAll :: map Join (List.seq 0 nr_threads).

(** Where a worker is in execute_task_or_wait (thread_pool.cc:130-162): about to test the flag
    (line 134), to pop a task (140), executing task [id] (143), about to lock the mutex (155),
    to test the flag again (156), waiting (157), woken up and about to lock the mutex again
    (157), about to unlock it (160), or returned. *)
Inductive wpc :=
  | WCheck | WPop | WRun (id : nat) | WLock | WTest | WWait | WWake | WUnlock | WExit.

(** The pool, its client and memory.  [p_started] is the list of tasks started so far, oldest
    first; it is only there to state properties. *)
Record pool := {
  p_queue : list nat;
  p_workers : list wpc;
  p_mutex : option nat;
  p_done : bool;
  p_tasks : list (prog V unit);
  p_ready : list bool;
  p_script : list action;
  p_mem : mem V;
  p_started : list nat }.

(** thread_pool.cc:51-74 *)
Definition pool_init (nr_threads : nat) (script : list action) (m : mem V) : pool :=
  {| p_queue := []; p_workers := repeat WCheck nr_threads; p_mutex := None; p_done := false;
     p_tasks := []; p_ready := []; p_script := script; p_mem := m; p_started := [] |}.

(** Who is next; [Client h]: the client; a notification wakes the waiting thread [h] (if [h]
    is not waiting, no thread: the notification is lost). *)
Inductive choice := Client (h : nat) | Worker (i : nat).

(** A step is taken, is not possible now, or has undefined behaviour. *)
Inductive outcome := Step (s : pool) | Blocked | Fault.

Definition wake (w : wpc) : wpc := match w with WWait => WWake | _ => w end.

(** thread_pool.h:119: notify_one.  If a thread is waiting the scheduler picks one; the case
    that it picks none, although one is waiting, is allowed. *)
Definition notify_one (ws : list wpc) (h : nat) : list wpc :=
  match nth_error ws h with Some w => replace_nth ws h (wake w) | None => ws end.

Definition client_step (s : pool) (h : nat) : outcome :=
  match p_script s with
  | [] => Blocked
  | act :: rest =>
      match act with
      | Push p =>
          Step {| p_queue := p_queue s ++ [length (p_tasks s)]; p_workers := p_workers s;
                  p_mutex := p_mutex s; p_done := p_done s;
                  p_tasks := p_tasks s ++ [p]; p_ready := p_ready s ++ [false];
                  p_script := rest; p_mem := p_mem s; p_started := p_started s |}
      | Notify =>
          Step {| p_queue := p_queue s; p_workers := notify_one (p_workers s) h;
                  p_mutex := p_mutex s; p_done := p_done s; p_tasks := p_tasks s;
                  p_ready := p_ready s; p_script := rest; p_mem := p_mem s;
                  p_started := p_started s |}
      | Wait id =>
          match nth_error (p_ready s) id with
          | Some true =>
              Step {| p_queue := p_queue s; p_workers := p_workers s;
                      p_mutex := p_mutex s; p_done := p_done s; p_tasks := p_tasks s;
                      p_ready := p_ready s; p_script := rest; p_mem := p_mem s;
                      p_started := p_started s |}
          | _ => Blocked
          end
      | Do p =>
          match p, step p (p_mem s) with
          | Ret _, _ =>
              Step {| p_queue := p_queue s; p_workers := p_workers s;
                      p_mutex := p_mutex s; p_done := p_done s; p_tasks := p_tasks s;
                      p_ready := p_ready s; p_script := rest; p_mem := p_mem s;
                      p_started := p_started s |}
          | _, Some (p', m') =>
              Step {| p_queue := p_queue s; p_workers := p_workers s;
                      p_mutex := p_mutex s; p_done := p_done s; p_tasks := p_tasks s;
                      p_ready := p_ready s; p_script := Do p' :: rest; p_mem := m';
                      p_started := p_started s |}
          | _, None => Fault
          end
      | SetDone =>
          Step {| p_queue := p_queue s; p_workers := p_workers s;
                  p_mutex := p_mutex s; p_done := true; p_tasks := p_tasks s;
                  p_ready := p_ready s; p_script := rest; p_mem := p_mem s;
                  p_started := p_started s |}
      | NotifyAll =>
          Step {| p_queue := p_queue s; p_workers := map wake (p_workers s);
                  p_mutex := p_mutex s; p_done := p_done s; p_tasks := p_tasks s;
                  p_ready := p_ready s; p_script := rest; p_mem := p_mem s;
                  p_started := p_started s |}
      | Join i =>
          match nth_error (p_workers s) i with
          | Some WExit =>
              Step {| p_queue := p_queue s; p_workers := p_workers s;
                      p_mutex := p_mutex s; p_done := p_done s; p_tasks := p_tasks s;
                      p_ready := p_ready s; p_script := rest; p_mem := p_mem s;
                      p_started := p_started s |}
          | _ => Blocked
          end
      end
  end.

(** Worker [i] continues at [w]; the mutex becomes [l]. *)
Definition go (s : pool) (i : nat) (w : wpc) (l : option nat) : outcome :=
  Step {| p_queue := p_queue s; p_workers := replace_nth (p_workers s) i w;
          p_mutex := l; p_done := p_done s; p_tasks := p_tasks s;
          p_ready := p_ready s; p_script := p_script s; p_mem := p_mem s;
          p_started := p_started s |}.

Definition worker_step (s : pool) (i : nat) : outcome :=
  match nth_error (p_workers s) i with
  | None => Blocked
  | Some WCheck => go s i (if p_done s then WExit else WPop) (p_mutex s)
  | Some WPop =>
      match p_queue s with
      | [] => go s i WLock (p_mutex s)
      | id :: queue =>
          Step {| p_queue := queue; p_workers := replace_nth (p_workers s) i (WRun id);
                  p_mutex := p_mutex s; p_done := p_done s; p_tasks := p_tasks s;
                  p_ready := p_ready s; p_script := p_script s; p_mem := p_mem s;
                  p_started := p_started s ++ [id] |}
      end
  | Some (WRun id) =>
      match nth_error (p_tasks s) id with
      | None => Fault
      | Some (Ret _) =>
          Step {| p_queue := p_queue s; p_workers := replace_nth (p_workers s) i WCheck;
                  p_mutex := p_mutex s; p_done := p_done s; p_tasks := p_tasks s;
                  p_ready := replace_nth (p_ready s) id true;
                  p_script := p_script s; p_mem := p_mem s; p_started := p_started s |}
      | Some p =>
          match step p (p_mem s) with
          | Some (p', m') =>
              Step {| p_queue := p_queue s; p_workers := p_workers s;
                      p_mutex := p_mutex s; p_done := p_done s;
                      p_tasks := replace_nth (p_tasks s) id p';
                      p_ready := p_ready s; p_script := p_script s; p_mem := m';
                      p_started := p_started s |}
          | None => Fault
          end
      end
  | Some WLock => match p_mutex s with None => go s i WTest (Some i) | Some _ => Blocked end
  | Some WTest => if p_done s then go s i WUnlock (p_mutex s) else go s i WWait None
  | Some WWait => go s i WWake (p_mutex s)
  | Some WWake => match p_mutex s with None => go s i WUnlock (Some i) | Some _ => Blocked end
  | Some WUnlock => go s i WCheck None
  | Some WExit => Blocked
  end.

Definition pool_step (s : pool) (c : choice) : outcome :=
  match c with Client h => client_step s h | Worker i => worker_step s i end.

(** Execute a schedule; a thread that cannot take a step is passed over. *)
Fixpoint pool_run (sched : list choice) (s : pool) : option pool :=
  match sched with
  | [] => Some s
  | c :: sched' =>
      match pool_step s c with
      | Step s' => pool_run sched' s'
      | Blocked => pool_run sched' s
      | Fault => None
      end
  end.

(** binary_local_operation.h:622-651, binary_aggregate_operation.h:435-479 and the like: the
    parallel algorithms submit a task per block, wait for all of them in order, and may do
    something with the results.  [base] tasks have been submitted before. *)
Definition par_call (base : nat) (tasks : list (prog V unit)) (join : prog V unit) : list action :=
  flat_map submit tasks ++ map Wait (List.seq base (length tasks)) ++ [Do join].

(** A sequence of such calls. *)
Fixpoint par_calls (base : nat) (calls : list (list (prog V unit) * prog V unit)) : list action :=
  match calls with
  | [] => []
  | (tasks, join) :: calls' => par_call base tasks join ++ par_calls (base + length tasks) calls'
  end.
End Pool.
Arguments action : clear implicits.
Arguments pool : clear implicits.
Arguments outcome : clear implicits.
