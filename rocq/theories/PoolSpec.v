(** * What is expected of the thread pool *)
From Coq Require Import ZArith List Bool Arith.
From Verif Require Import LangModel ConcModel LoopModel LoopSpec PoolModel.
Import ListNotations.
Open Scope nat_scope.

Section PoolSpec.
Context {V : Type}.

(** A state that the pool can be in: [n] worker threads, client script [script]. *)
Definition reaches (n : nat) (script : list (action V)) (m : mem V) (s : pool V) : Prop :=
  exists sched, pool_run sched (pool_init n script m) = Some s.

Definition finished (p : prog V unit) : Prop := p = Ret tt.

(** The client may wait for a task that has been submitted ([k] so far), and the destructor,
    if it is called, is called last. *)
Fixpoint proper (n k : nat) (script : list (action V)) : Prop :=
  match script with
  | [] => True
  | Push _ :: rest => proper n (S k) rest
  | Wait id :: rest => id < k /\ proper n k rest
  | Notify :: rest | Do _ :: rest => proper n k rest
  | SetDone :: rest => rest = NotifyAll :: map Join (List.seq 0 n)
  | NotifyAll :: _ | Join _ :: _ => False
  end.

(** Calls of parallel algorithms, executed in order: the tasks of a call are interleaved with
    one another, and with nothing else, until they have all completed. *)
Inductive effects : list (list (prog V unit) * prog V unit) -> mem V -> mem V -> Prop :=
  | effects_nil m : effects [] m m
  | effects_cons tasks join calls m m1 m2 m' sched ps :
      exec sched tasks m = Some (ps, m1) -> all_done ps = true ->
      run join m1 = Some (tt, m2) -> effects calls m2 m' ->
      effects ((tasks, join) :: calls) m m'.

(** No task of a call faults, however the tasks are interleaved, and neither does what is done
    with their results. *)
Fixpoint never_fault (calls : list (list (prog V unit) * prog V unit)) (m : mem V) : Prop :=
  match calls with
  | [] => True
  | (tasks, join) :: calls' =>
      (forall sched, exec sched tasks m <> None) /\
      forall sched ps m1, exec sched tasks m = Some (ps, m1) -> all_done ps = true ->
      exists m2, run join m1 = Some (tt, m2) /\ never_fault calls' m2
  end.

(** In an infinite schedule every one of [n] workers, and the client, gets its turn again and
    again. *)
Definition fair (n : nat) (sched : nat -> choice) : Prop :=
  (forall t, exists t' h, t <= t' /\ sched t' = Client h) /\
  (forall i t, i < n -> exists t', t <= t' /\ sched t' = Worker i).

Definition first_choices (t : nat) (sched : nat -> choice) : list choice :=
  map sched (List.seq 0 t).

(** The tasks that a script submits, in order. *)
Definition pushes (script : list (action V)) : list (prog V unit) :=
  flat_map (fun a => match a with Push p => [p] | _ => [] end) script.

(** All workers have returned. *)
Definition all_exited (s : pool V) : Prop := forall w, In w (p_workers s) -> w = WExit.

(** Number of workers that have tested the flag and are about to pop a task. *)
Definition about_to_pop (s : pool V) : nat :=
  length (filter (fun w => match w with WPop => true | _ => false end) (p_workers s)).
End PoolSpec.
