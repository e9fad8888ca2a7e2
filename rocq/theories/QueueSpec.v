(** * What a linearizable FIFO queue is *)
From Coq Require Import List Bool Arith.
From Verif Require Import QueueModel.
Import ListNotations.

Section QueueSpec.
Context {T : Type}.

(** A first-in first-out queue used by one thread: content and result of a call. *)
Definition fifo (l : list T) (op : qop T) : list T * qres T :=
  match op, l with
  | Push v, _ => (l ++ [v], Pushed)
  | TryPop, [] => ([], NotPopped)
  | TryPop, v :: l' => (l', Popped (Some v))
  | Empty, [] => ([], IsEmpty true)
  | Empty, _ => (l, IsEmpty false)
  end.

(** Calls one after the other, with their results, are those of a FIFO queue that goes from
    content [l] to content [l']. *)
Fixpoint fifo_history (l : list T) (calls : list (opid * qop T * qres T)) (l' : list T) : Prop :=
  match calls with
  | [] => l = l'
  | (_, op, r) :: calls' => snd (fifo l op) = r /\ fifo_history (fst (fifo l op)) calls' l'
  end.

(** [x] comes before [y] in [l]. *)
Definition before {X} (l : list X) (x y : X) : Prop :=
  exists l1 l2 l3, l = l1 ++ x :: l2 ++ y :: l3.

(** A history of concurrent calls is linearizable: there is an order of the calls in which one
    thread could have done them, with the same results; it contains every call that has
    returned, and no call that has not been made; and a call that returned before another one
    was made comes before that one. *)
Definition linearizes (h : list (event T)) (calls : list (opid * qop T * qres T)) : Prop :=
  NoDup (map (fun c => fst (fst c)) calls) /\
  (forall id op r, In (id, op, r) calls -> In (Call id op) h) /\
  (forall id r, In (Return id r) h -> exists op, In (id, op, r) calls) /\
  (forall id r id' op', before h (Return id r) (Call id' op') ->
     forall c', In c' calls -> fst (fst c') = id' ->
     exists c, fst (fst c) = id /\ before calls c c').

(** Values pushed and popped by a list of calls. *)
Definition pushed (calls : list (opid * qop T * qres T)) : list T :=
  flat_map (fun c => match snd (fst c) with Push v => [v] | _ => [] end) calls.
Definition popped (calls : list (opid * qop T * qres T)) : list T :=
  flat_map (fun c => match snd c with Popped (Some v) => [v] | _ => [] end) calls.

(** Number of steps taken in a schedule. *)
Fixpoint steps_taken (sched : list nat) (s : qstate T) : nat :=
  match sched with
  | [] => 0
  | i :: sched' =>
      match q_step s i with
      | Some s' => S (steps_taken sched' s')
      | None => steps_taken sched' s
      end
  end.
End QueueSpec.
