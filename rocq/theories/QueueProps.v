(** * Property C29: the thread-safe queue is a linearizable FIFO queue *)
From Coq Require Import List Bool Arith Lia.
From Verif Require Import QueueModel QueueSpec QueueProofs.
Import ListNotations.

(** For every number of threads, calls per thread and schedule: the history of calls and
    returns is that of a FIFO queue; while no thread is inside, the queue holds the FIFO
    queue's content. *)
Theorem C29_linearizable : forall T (scripts : list (list (qop T))) sched,
  let s := q_run sched (q_init scripts) in
  exists calls content,
    linearizes (q_history s) calls /\ fifo_history [] calls content /\
    (q_lock s = None -> q_data s = map Some content).
Proof.
  intros T scripts sched s. destruct (inv_run sched _ _ _ (inv_init scripts)) as (lin & content & H).
  exists lin, content. split; [apply H|]. split; [apply H|].
  intros E. pose proof (i_data _ _ _ H) as Hd. unfold data_ok in Hd. fold s in Hd. rewrite E in Hd. auto.
Qed.
Print Assumptions C29_linearizable.

(** In such a history the values popped, followed by those left, are the values pushed, in
    order: none is lost, duplicated or reordered. *)
Theorem C29_nothing_lost : forall T (calls : list (opid * qop T * qres T)) content,
  fifo_history [] calls content -> pushed calls = popped calls ++ content.
Proof. intros T calls content H. exact (fifo_values calls [] content H). Qed.
Print Assumptions C29_nothing_lost.

(** No two threads are ever inside the queue. *)
Theorem C29_mutual_exclusion : forall T (scripts : list (list (qop T))) sched i j t u,
  let s := q_run sched (q_init scripts) in
  let inside pc := match pc with Inside _ | AtFront _ | Unlock _ _ => True | _ => False end in
  nth_error (q_threads s) i = Some t -> nth_error (q_threads s) j = Some u ->
  inside (q_pc t) -> inside (q_pc u) -> i = j.
Proof.
  intros T scripts sched i j t u s inside Ht Hu It Iu.
  destruct (inv_run sched _ _ _ (inv_init scripts)) as (lin & content & H).
  assert (A : q_lock s = Some i) by (apply (i_lock _ _ _ H i t Ht); destruct (q_pc t); auto; destruct It).
  assert (B : q_lock s = Some j) by (apply (i_lock _ _ _ H j u Hu); destruct (q_pc u); auto; destruct Iu).
  congruence.
Qed.
Print Assumptions C29_mutual_exclusion.

(** All calls return: while some thread has not finished its script some thread can take a
    step, and there are at most six steps per call. *)
Theorem C29_calls_return : forall T (scripts : list (list (qop T))) sched,
  let s := q_run sched (q_init scripts) in
  ((exists t, In t (q_threads s) /\ ~ (q_pc t = Outside /\ q_todo t = [])) ->
   exists i, q_step s i <> None) /\
  steps_taken sched (q_init scripts) <= 6 * length (concat scripts).
Proof.
  intros T scripts sched s. split.
  - intros (t & Hin & N).
    destruct (inv_run sched _ _ _ (inv_init scripts)) as (lin & content & H).
    apply In_nth_error in Hin as [i Hi].
    destruct (can_step _ _ _ i t H Hi) as (j & s' & Hs).
    + unfold thread_left. intros E. apply N. destruct (q_todo t), (q_pc t); cbn in E; try lia. auto.
    + exists j. fold s in Hs. congruence.
  - assert (G : forall sched s0, steps_taken sched s0 + steps_left (q_run sched s0) <= @steps_left T s0).
    { clear. induction sched as [|i sched IH]; intros s0; cbn; auto.
      destruct (q_step s0 i) as [s1|] eqn:E; auto. apply step_decreases in E. specialize (IH s1). lia. }
    specialize (G sched (q_init scripts)).
    enough (E : steps_left (q_init scripts) = 6 * length (concat scripts)) by lia.
    unfold steps_left, q_init. cbn. rewrite map_map. clear.
    induction scripts as [|x l IH]; auto. cbn [map concat list_sum fold_right]. rewrite app_length.
    unfold thread_left at 1; cbn [q_todo q_pc pc_left]. unfold list_sum in IH. lia.
Qed.
Print Assumptions C29_calls_return.

(** Two pushers and a popper, interleaved. *)
Example C29_case :
  let s := q_run [0; 1; 1; 0; 1; 1; 2; 2; 0; 0; 1; 2; 2; 0; 0; 0; 2; 2; 2; 0; 0; 2; 0; 0; 0; 0; 0; 2; 2; 2; 2; 2; 2]
             (q_init [[Push 1]; [Push 2]; [TryPop; Empty]]) in
  q_history s = [Call (0, 0) (Push 1); Call (1, 0) (Push 2); Call (2, 0) TryPop; Return (1, 0) Pushed;
                 Return (2, 0) (Popped (Some 2)); Call (2, 1) Empty; Return (0, 0) Pushed;
                 Return (2, 1) (IsEmpty false)] /\
  q_data s = [Some 1].
Proof. vm_compute. split; reflexivity. Qed.
