(** * Property C30: tasks with disjoint footprints *)
From Coq Require Import ZArith List Bool Lia Permutation.
From Verif Require Import LangModel LangProofs ConcModel ConcProofs.
Import ListNotations.
Open Scope Z_scope.

(** C30.  [Rs k] and [Ws k] bound what task [k] reads and writes; no task writes what
    another one reads or writes; and the tasks, run one after the other, do not fault.
    Then no interleaving faults; every interleaving in which all tasks have completed
    returns the same results and leaves the same memory as the sequential run; every
    partial interleaving can be completed; and running the tasks in another order gives
    the same memory and the same result per task. *)
Theorem C30_schedule_independence :
  forall (V A : Type) (ps : list (prog V A)) (Rs Ws : nat -> loc -> bool) (m0 : mem V)
    (outs : list A) (m1 : mem V),
  (forall k p, nth_error ps k = Some p -> fits (Rs k) (Ws k) p) ->
  (forall i j l, (i < length ps)%nat -> (j < length ps)%nat -> i <> j ->
     Ws i l = true -> Rs j l = false /\ Ws j l = false) ->
  run (seq_all ps) m0 = Some (outs, m1) ->
  (forall sched, exists ps' m', exec sched ps m0 = Some (ps', m') /\
     forall outs', ps' = map Ret outs' -> outs' = outs /\ mem_eq m' m1) /\
  (forall sched, exists sched' m',
     exec (sched ++ sched') ps m0 = Some (map Ret outs, m') /\ mem_eq m' m1) /\
  (forall order d, Permutation order (List.seq 0%nat (length ps)) ->
     exists outs' m',
       run (seq_all (map (fun k => nth k ps d) order)) m0 = Some (outs', m') /\
       (forall k a, nth_error outs k = Some a ->
          exists j, nth_error order j = Some k /\ nth_error outs' j = Some a) /\
       mem_eq m' m1).
Proof.
  intros V A ps Rs Ws m0 outs m1 Hfit Hdis Hrun.
  assert (Hrf : race_free (length ps) Rs Ws).
  { intros i j Hi Hj Hij l Hl. unfold union.
    destruct (Hdis i j l Hi Hj Hij Hl) as [-> ->]. reflexivity. }
  split; [|split].
  - intros sched. eapply interleaving_sequential; eauto.
  - intros sched.
    destruct (interleaving_completes (length ps) Rs Ws m0 ps outs m1 sched)
      as (s' & ps' & m' & E & -> & Hm); auto. eauto.
  - intros order d Hp.
    eapply reordered_sequential; eauto.
    + intros k. split.
      * intros Hk. apply (Permutation_in _ Hp) in Hk. apply in_seq in Hk. lia.
      * intros Hk. apply (Permutation_in _ (Permutation_sym Hp)). apply in_seq. lia.
    + eapply Permutation_NoDup; [apply Permutation_sym; exact Hp|apply seq_NoDup].
Qed.
Print Assumptions C30_schedule_independence.

(** Two tasks that both read buffer 0 and write different elements of buffer 1. *)
Example C30_case :
  let task i := RdV 0%nat 0 (fun v => WrV 1%nat i (v + i) (Ret i)) in
  let ps := [task 1; task 2] in
  let Rs := fun (_ : nat) l => match l with LV O 0 => true | _ => false end in
  let Ws := fun k l => match l with LV (S O) i => i =? Z.of_nat k + 1 | _ => false end in
  let m0 := {| mval := fun b i => Some 10; mmsk := fun _ _ => None |} in
  (forall k p, nth_error ps k = Some p -> fits (Rs k) (Ws k) p) /\
  (forall i j l, (i < length ps)%nat -> (j < length ps)%nat -> i <> j ->
     Ws i l = true -> Rs j l = false /\ Ws j l = false) /\
  exists m1, run (seq_all ps) m0 = Some ([1; 2], m1) /\
    mval m1 1%nat 1 = Some 11 /\ mval m1 1%nat 2 = Some 12.
Proof.
  simpl. split; [|split].
  - intros [|[|k]] p H; try (destruct k; discriminate); inversion H; subst; simpl; auto.
  - intros i j [[|[|b]] x|b x] Hi Hj Hij H; try discriminate.
    split; auto. apply Z.eqb_eq in H. apply Z.eqb_neq. lia.
  - eexists; repeat split.
Qed.
