(** * The thread-safe queue

    core/thread_safe_queue.h: a std::queue behind a mutex.  Threads perform the calls of
    their script one after the other; a schedule -- an arbitrary list of thread numbers --
    decides who takes the next step.  The calls are cut at every access to shared state, so
    that the mutex has something to do: between moving the front element out of the queue and
    popping it the queue contains a moved-from element ([None]).

    Simplification: std::queue is a list (front first); allocation failure is not modelled. *)
From Coq Require Import List Bool Arith.
Import ListNotations.

Section Queue.
Context {T : Type}.

(** thread_safe_queue.h:27-37: the calls and what they return.  try_pop returns the value
    through its argument; [Popped None] is a moved-from value. *)
Inductive qop := Push (v : T) | TryPop | Empty.
Inductive qres := Pushed | NotPopped | Popped (v : option T) | IsEmpty (b : bool).

(** A call is identified by its thread and its number in that thread. *)
Definition opid := (nat * nat)%type.
Inductive event := Call (id : opid) (op : qop) | Return (id : opid) (r : qres).

(** Where a thread is.  [AtFront v]: the front element has been moved to [v] (line 79), not
    yet popped (line 80).  [Unlock]: the lock_guard's destructor is next. *)
Inductive qpc :=
  | Outside
  | Lock (op : qop)
  | Inside (op : qop)
  | AtFront (v : option T)
  | Unlock (op : qop) (r : qres)
  | Leaving (r : qres).

(** A thread: position, number of calls started, calls still to do. *)
Record qthread := { q_pc : qpc; q_calls : nat; q_todo : list qop }.

(** The queue (lines 41-43), the mutex, the threads and, to state properties, the history of
    calls and returns. *)
Record qstate := {
  q_data : list (option T);
  q_lock : option nat;
  q_threads : list qthread;
  q_history : list event }.

Definition q_init (scripts : list (list qop)) : qstate :=
  {| q_data := []; q_lock := None;
     q_threads := map (fun s => {| q_pc := Outside; q_calls := 0; q_todo := s |}) scripts;
     q_history := [] |}.

Fixpoint set_nth {X} (l : list X) (k : nat) (x : X) : list X :=
  match l, k with
  | [], _ => []
  | _ :: l', O => x :: l'
  | y :: l', S k' => y :: set_nth l' k' x
  end.

(** Thread [i] continues at [pc]. *)
Definition at_pc (s : qstate) (i : nat) (t : qthread) (pc : qpc) : list qthread :=
  set_nth (q_threads s) i {| q_pc := pc; q_calls := q_calls t; q_todo := q_todo t |}.

(** One step of thread [i], if it can take one. *)
Definition q_step (s : qstate) (i : nat) : option qstate :=
  match nth_error (q_threads s) i with
  | None => None
  | Some t =>
      match q_pc t with
      | Outside =>
          match q_todo t with
          | [] => None
          | op :: todo =>
              Some {| q_data := q_data s; q_lock := q_lock s;
                      q_threads := set_nth (q_threads s) i
                        {| q_pc := Lock op; q_calls := S (q_calls t); q_todo := todo |};
                      q_history := q_history s ++ [Call (i, q_calls t) op] |}
          end
      | Lock op =>   (* lines 62, 73, 90: lock_guard; blocks while another thread has the mutex *)
          match q_lock s with
          | Some _ => None
          | None => Some {| q_data := q_data s; q_lock := Some i;
                            q_threads := at_pc s i t (Inside op); q_history := q_history s |}
          end
      | Inside (Push v) =>   (* line 63 *)
          Some {| q_data := q_data s ++ [Some v]; q_lock := q_lock s;
                  q_threads := at_pc s i t (Unlock (Push v) Pushed); q_history := q_history s |}
      | Inside TryPop =>   (* lines 75-79 *)
          match q_data s with
          | [] => Some {| q_data := []; q_lock := q_lock s;
                          q_threads := at_pc s i t (Unlock TryPop NotPopped);
                          q_history := q_history s |}
          | v :: rest => Some {| q_data := None :: rest; q_lock := q_lock s;
                                 q_threads := at_pc s i t (AtFront v);
                                 q_history := q_history s |}
          end
      | Inside Empty =>   (* line 91 *)
          Some {| q_data := q_data s; q_lock := q_lock s;
                  q_threads := at_pc s i t
                    (Unlock Empty (IsEmpty (match q_data s with [] => true | _ => false end)));
                  q_history := q_history s |}
      | AtFront v =>   (* lines 80-82 *)
          Some {| q_data := tl (q_data s); q_lock := q_lock s;
                  q_threads := at_pc s i t (Unlock TryPop (Popped v)); q_history := q_history s |}
      | Unlock op r =>
          Some {| q_data := q_data s; q_lock := None;
                  q_threads := at_pc s i t (Leaving r); q_history := q_history s |}
      | Leaving r =>
          Some {| q_data := q_data s; q_lock := q_lock s;
                  q_threads := at_pc s i t Outside;
                  q_history := q_history s ++ [Return (i, pred (q_calls t)) r] |}
      end
  end.

(** Execute a schedule; a thread that cannot take a step is passed over. *)
Fixpoint q_run (sched : list nat) (s : qstate) : qstate :=
  match sched with
  | [] => s
  | i :: sched' => q_run sched' (match q_step s i with Some s' => s' | None => s end)
  end.
End Queue.
Arguments qop : clear implicits.
Arguments qres : clear implicits.
Arguments event : clear implicits.
Arguments qpc : clear implicits.
Arguments qthread : clear implicits.
Arguments qstate : clear implicits.
