(** * Properties of the thread pool *)
From Coq Require Import ZArith List Bool Arith Lia.
From Verif Require Import LangModel LangProofs ConcModel ConcProofs LoopModel LoopSpec PoolModel PoolSpec PoolProofs PoolLive PoolSim.
Import ListNotations.
Open Scope nat_scope.

(** ** C27: every task is executed once, and calls see the results of their tasks *)

(** Tasks are started in the order of submission, each at most once; what is not started is
    queued.  A task is executed by one worker at a time. *)
Theorem C27_at_most_once : forall (V : Type) n script (m : mem V) s,
  proper n 0 script -> reaches n script m s ->
  p_started s ++ p_queue s = List.seq 0 (length (p_tasks s)) /\
  NoDup (p_started s) /\
  (forall i j id, nth_error (p_workers s) i = Some (WRun id) -> nth_error (p_workers s) j = Some (WRun id) -> i = j) /\
  (forall id, In id (p_started s) -> nth_error (p_ready s) id = Some true \/
     exists i, nth_error (p_workers s) i = Some (WRun id)).
Proof.
  intros V n script m s Hp Hr. pose proof (pinv_reaches _ _ _ _ Hp Hr) as H.
  split; [apply (v_order _ _ H)|]. split.
  - pose proof (started_nodup _ _ H) as N. clear -N. induction (p_started s) as [|x l IH]; [constructor|].
    cbn in N. inversion N; subst. constructor; auto. rewrite in_app_iff in *. tauto.
  - split; [apply (v_inj _ _ H)|apply (v_started _ _ H)].
Qed.
Print Assumptions C27_at_most_once.

(** A task that is queued has not been executed, not even in part: it is as submitted. *)
Theorem C27_queued_tasks_untouched : forall (V : Type) n script (m : mem V) s,
  proper n 0 script -> reaches n script m s ->
  forall id, In id (p_queue s) ->
  nth_error (p_tasks s) id = nth_error (pushes script) id /\ nth_error (p_ready s) id = Some false.
Proof.
  intros V n script m s Hp [sched Hr].
  assert (G : forall sched s0 s, pinv n s0 ->
    (exists sub, pushes script = sub ++ pushes (p_script s0) /\ length sub = length (p_tasks s0) /\
       forall id, In id (p_queue s0) -> nth_error (p_tasks s0) id = nth_error sub id) ->
    pool_run sched s0 = Some s -> pinv n s /\
    (exists sub, pushes script = sub ++ pushes (p_script s) /\ length sub = length (p_tasks s) /\
       forall id, In id (p_queue s) -> nth_error (p_tasks s) id = nth_error sub id)).
  { clear s sched Hr. induction sched as [|c sched IH]; intros s0 s Hv Hi E; cbn in E.
    - inversion E; subst. auto.
    - destruct (pool_step s0 c) as [s1| |] eqn:Ec; [|eauto|discriminate].
      eapply IH; [eapply pinv_step; eauto| |exact E]. clear IH E.
      destruct Hi as (sub & H1 & H2 & H3). destruct c as [h|i].
      + cbn in Ec. unfold client_step in Ec. destruct (p_script s0) as [|act rest] eqn:Es; [discriminate|].
        destruct act as [q| |x|q| | |j].
        * inversion Ec; subst s1; cbn [p_tasks p_queue p_script]. exists (sub ++ [q]).
          split; [rewrite <- app_assoc; exact H1|]. split; [rewrite !app_length; cbn; lia|].
          intros id Hid. apply in_app_or in Hid as [Hid|[<-|[]]].
          -- assert (L : id < length (p_tasks s0)).
             { assert (In id (p_started s0 ++ p_queue s0)) as G by (apply in_or_app; auto).
               rewrite (v_order _ _ Hv) in G. apply in_seq in G. lia. }
             rewrite !nth_error_app1 by lia. auto.
          -- rewrite !nth_error_app2 by lia. rewrite H2. auto.
        * inversion Ec; subst s1; cbn. exists sub. auto.
        * destruct (nth_error (p_ready s0) x) as [[|]|]; try discriminate. inversion Ec; subst s1; cbn. exists sub. auto.
        * destruct (step q (p_mem s0)) as [[q' m']|] eqn:Eq;
            destruct q as [a|b z k'|b z v k'|b z k'|b z y k'|]; rewrite ?Eq in Ec; try discriminate;
            inversion Ec; subst s1; cbn; exists sub; auto.
        * inversion Ec; subst s1; cbn. exists sub. auto.
        * inversion Ec; subst s1; cbn. exists sub. auto.
        * destruct (nth_error (p_workers s0) j) as [[]|]; try discriminate. inversion Ec; subst s1; cbn. exists sub. auto.
      + exists sub. destruct (worker_effect _ _ _ Ec) as [Esc _]. rewrite Esc.
        pose proof (started_nodup _ _ Hv) as Nd. pose proof (v_run _ _ Hv) as Hrun.
        cbn in Ec. unfold worker_step, go in Ec.
        destruct (nth_error (p_workers s0) i) as [[| |id| | | | | |]|] eqn:Ew; try discriminate;
          try (inversion Ec; subst s1; cbn; auto; fail).
        * destruct (p_queue s0) as [|id q] eqn:Eq; inversion Ec; subst s1; cbn; rewrite ?Eq; auto.
          split; auto. split; auto. intros x Hx. apply H3. right. auto.
        * destruct (Hrun _ _ Ew) as [Hst _].
          assert (Nq : ~ In id (p_queue s0)).
          { intros Hq. apply in_split in Hst as (a & b & Ea). rewrite Ea in Nd.
            rewrite <- app_assoc in Nd. cbn in Nd. apply NoDup_remove_2 in Nd. apply Nd.
            rewrite !in_app_iff. auto. }
          destruct (nth_error (p_tasks s0) id) as [q|]; [|discriminate].
          destruct (step q (p_mem s0)) as [[q' m']|] eqn:Eq;
            destruct q as [a|b z k'|b z v k'|b z k'|b z y k'|]; rewrite ?Eq in Ec; try discriminate;
            inversion Ec; subst s1; cbn; rewrite ?rep_length; auto;
            (split; [auto|]; split; [auto|]; intros x Hx; rewrite rep_other; [auto|intros ->; auto]).
        * destruct (p_mutex s0); inversion Ec; subst s1; cbn; auto.
        * destruct (p_done s0); inversion Ec; subst s1; cbn; auto.
        * destruct (p_mutex s0); inversion Ec; subst s1; cbn; auto. }
  apply G in Hr; [|apply pinv_init; auto|exists []; cbn; auto].
  destruct Hr as (Hv & sub & H1 & H2 & H3). intros id Hid.
  assert (L : id < length (p_tasks s)).
  { assert (In id (p_started s ++ p_queue s)) as Q by (apply in_or_app; auto).
    rewrite (v_order _ _ Hv) in Q. apply in_seq in Q. lia. }
  split.
  - rewrite H3, H1, nth_error_app1 by (auto; lia). auto.
  - destruct (nth_error (p_ready s) id) as [[|]|] eqn:E; auto.
    + exfalso. destruct (v_ready _ _ Hv _ E) as [Hst _].
      pose proof (started_nodup _ _ Hv) as Nd. apply in_split in Hst as (a & b & Ea). rewrite Ea in Nd.
      rewrite <- app_assoc in Nd. cbn in Nd. apply NoDup_remove_2 in Nd. apply Nd.
      rewrite !in_app_iff. auto.
    + apply nth_error_None in E. rewrite (v_readylen _ _ Hv) in E. lia.
Qed.
Print Assumptions C27_queued_tasks_untouched.

(** A future is ready only when its task has been executed to the end; so when waiting for it
    returns, it has been. *)
Theorem C27_wait : forall (V : Type) n script (m : mem V) s h s' id rest,
  proper n 0 script -> reaches n script m s ->
  p_script s = Wait id :: rest -> pool_step s (Client h) = Step s' ->
  p_script s' = rest /\ In id (p_started s) /\ nth_error (p_tasks s) id = Some (Ret tt).
Proof.
  intros V n script m s h s' id rest Hp Hr Es E. pose proof (pinv_reaches _ _ _ _ Hp Hr) as H.
  cbn in E. unfold client_step in E. rewrite Es in E.
  destruct (nth_error (p_ready s) id) as [[|]|] eqn:Er; try discriminate.
  inversion E; subst s'. split; auto. apply (v_ready _ _ H). auto.
Qed.
Print Assumptions C27_wait.

(** The client calls one parallel algorithm after the other, then possibly destroys the pool. *)
Definition program {V} (n : nat) calls (destroy : bool) : list (action V) :=
  par_calls 0 calls ++ if destroy then destruct_pool n else [].

Lemma program_proper {V} n calls destroy : @proper V n 0 (program n calls destroy).
Proof. apply proper_calls. intros b. destruct destroy; cbn; auto. Qed.
Lemma program_quiet {V} n (destroy : bool) : quiet (if destroy then @destruct_pool V n else []).
Proof.
  destruct destroy; [|constructor]. constructor; [exact I|]. constructor; [exact I|].
  apply Forall_forall. intros a Ha. apply in_map_iff in Ha as (i & <- & _). exact I.
Qed.

(** When it is through, memory is what it is after executing the calls one after the other,
    the tasks of each of them interleaved in some way: no task is lost, repeated, or still
    running when its call returns, whatever number of threads there is. *)
Theorem C27_effects : forall (V : Type) n calls destroy (m : mem V) s,
  reaches n (program n calls destroy) m s -> p_script s = [] -> effects calls m (p_mem s).
Proof.
  intros V n calls destroy m s [sched Hr] E.
  eapply sim_end; [|exact E]. eapply (sim_run n calls _ m (program_quiet n destroy)); [| |exact Hr].
  - apply pinv_init, program_proper.
  - apply sim_init.
Qed.
Print Assumptions C27_effects.

(** If no task faults, under no interleaving of the tasks of its own call, then the program
    does not, whatever the schedule. *)
Theorem C27_never_faults : forall (V : Type) n calls destroy (m : mem V) sched,
  never_fault calls m -> pool_run sched (pool_init n (program n calls destroy) m) <> None.
Proof.
  intros V n calls destroy m sched Hn.
  apply (sim_safe n calls _ m (program_quiet n destroy)); auto.
  - apply pinv_init, program_proper.
  - apply sim_init.
Qed.
Print Assumptions C27_never_faults.

(** So what has been proved about the tasks of a parallel algorithm under all schedules holds
    for its execution by the pool. *)
Theorem C27_parallel_algorithm : forall (V : Type) n tasks destroy (m m1 : mem V),
  always_yields tasks m m1 ->
  forall sched, exists s, pool_run sched (pool_init n (program n [(tasks, Ret tt)] destroy) m) = Some s /\
    (p_script s = [] -> mem_eq (p_mem s) m1).
Proof.
  intros V n tasks destroy m m1 [_ H] sched.
  destruct (pool_run sched (pool_init n (program n [(tasks, Ret tt)] destroy) m)) as [s|] eqn:E.
  - exists s. split; auto. intros Es.
    assert (X : effects [(tasks, Ret tt)] m (p_mem s)).
    { apply (C27_effects _ n _ destroy); auto. exists sched. auto. }
    inversion X as [|ts jn cs a m2 m3 a' sc ps E1 E2 E3 E4]; subst.
    destruct (H sc) as (ps' & m' & A & B & _). rewrite A in E1. inversion E1; subst.
    cbn in E3. inversion E3; subst. inversion E4; subst. auto.
  - exfalso. revert E. apply C27_never_faults. cbn. split.
    + intros sc. destruct (H sc) as (? & ? & -> & _). discriminate.
    + intros sc ps m2 E2 D. exists m2. auto.
Qed.
Print Assumptions C27_parallel_algorithm.

(** ** C28: no deadlock, and destruction *)

(** With at least one thread and a fair scheduler the client always gets to the end of its
    script: no call and no destructor blocks for ever. *)
Theorem C28_client_finishes : forall (V : Type) n script (m : mem V) sched,
  1 <= n -> proper n 0 script -> fair n sched ->
  (forall t, pool_run (first_choices t sched) (pool_init n script m) <> None) ->
  exists t s, pool_run (first_choices t sched) (pool_init n script m) = Some s /\ p_script s = [].
Proof.
  intros V n script m sched Hn Hp Hf Hs.
  destruct (script_ends n script m sched Hn Hp Hf Hs _ 0 eq_refl) as (t & _ & E).
  exists t, (st n script m sched t). split; auto. apply st_run; auto.
Qed.
Print Assumptions C28_client_finishes.

(** For the calls of parallel algorithms: they all return, with the result that is expected. *)
Theorem C28_calls_return : forall (V : Type) n calls destroy (m : mem V) sched,
  1 <= n -> never_fault calls m -> fair n sched ->
  exists t s, pool_run (first_choices t sched) (pool_init n (program n calls destroy) m) = Some s /\
    p_script s = [] /\ effects calls m (p_mem s) /\ (destroy = true -> all_exited s).
Proof.
  intros V n calls destroy m sched Hn Hnf Hf.
  destruct (C28_client_finishes V n (program n calls destroy) m sched Hn) as (t & s & A & B); auto.
  - apply program_proper.
  - intros t. apply C27_never_faults. auto.
  - exists t, s. split; auto. split; auto. split.
    + eapply C27_effects; eauto. exists (first_choices t sched). eauto.
    + intros ->. assert (Hr : reaches n (program n calls true) m s) by (eexists; eauto).
      pose proof (pinv_reaches _ _ _ _ (program_proper n calls true) Hr) as Hv.
      intros w Hw. apply In_nth_error in Hw as [i Hi].
      assert (Dn : forall sched (s0 s1 : pool V), pool_run sched s0 = Some s1 -> pinv n s0 ->
        In SetDone (p_script s0) \/ p_done s0 = true -> In SetDone (p_script s1) \/ p_done s1 = true).
      { clear. induction sched as [|c sched IH]; intros s0 s1 E Hv H; cbn in E; [congruence|].
        destruct (pool_step s0 c) as [s2| |] eqn:Ec; [|eauto|discriminate].
        eapply IH; [exact E|eapply pinv_step; eauto|].
        destruct H as [H|H]; [|right; eapply step_monotone; eauto].
        destruct c as [h|i]; [|left; destruct (worker_effect _ _ _ Ec) as [-> _]; auto].
        cbn in Ec. unfold client_step in Ec. destruct (p_script s0) as [|act rest]; [discriminate|].
        destruct act as [q| |x|q| | |j].
        - inversion Ec; subst s2; cbn. destruct H as [H|H]; [discriminate|auto].
        - inversion Ec; subst s2; cbn. destruct H as [H|H]; [discriminate|auto].
        - destruct (nth_error (p_ready s0) x) as [[|]|]; try discriminate. inversion Ec; subst s2; cbn.
          destruct H as [H|H]; [discriminate|auto].
        - destruct H as [H|H]; [discriminate|]. left.
          destruct (step q (p_mem s0)) as [[q' m']|] eqn:Eq;
            destruct q as [a|b z k'|b z v k'|b z k'|b z y k'|]; rewrite ?Eq in Ec; try discriminate;
            inversion Ec; subst s2; cbn; auto.
        - inversion Ec; subst s2; cbn. auto.
        - inversion Ec; subst s2; cbn. destruct H as [H|H]; [discriminate|auto].
        - destruct (nth_error (p_workers s0) j) as [[]|]; try discriminate. inversion Ec; subst s2; cbn.
          destruct H as [H|H]; [discriminate|auto]. }
      destruct (Dn _ _ _ A) as [Q|Q].
      * apply pinv_init, program_proper.
      * left. cbn. unfold program. apply in_or_app. right. left. auto.
      * rewrite B in Q. destruct Q.
      * destruct (v_script _ _ Hv) as [(Z & _)|(_ & [Z|(k & Z & X)])]; [congruence|rewrite B in Z; discriminate|].
        rewrite B in Z. pose proof (nth_lt _ _ _ Hi) as L. rewrite (v_len _ _ Hv) in L.
        assert (n <= k). { destruct (n - k) eqn:En; [lia|discriminate]. }
        rewrite X in Hi by lia. congruence.
Qed.
Print Assumptions C28_calls_return.

Lemma step_not_done {V} (s : pool V) c s' L : pool_step s c = Step s' ->
  p_done s = false -> ~ In SetDone (p_script s) -> length (p_tasks s) + length (pushes (p_script s)) = L ->
  p_done s' = false /\ ~ In SetDone (p_script s') /\ length (p_tasks s') + length (pushes (p_script s')) = L.
Proof.
  intros E I1 I2 I3. destruct c as [h|i].
  - cbn in E. unfold client_step in E. destruct (p_script s) as [|act rest] eqn:Er; [discriminate|].
    assert (I2' : ~ In SetDone rest) by (intros X; apply I2; right; auto).
    destruct act as [q| |x|q| | |j].
    + inversion E; subst s'; cbn. rewrite app_length. cbn in *. split; auto. split; [auto|].
      unfold pushes in I3. lia.
    + inversion E; subst s'; cbn. auto.
    + destruct (nth_error (p_ready s) x) as [[|]|]; try discriminate. inversion E; subst s'; cbn; auto.
    + destruct (step q (p_mem s)) as [[q' m']|] eqn:Eq;
        destruct q as [a|b z k'|b z v k'|b z k'|b z y k'|]; rewrite ?Eq in E; try discriminate;
        inversion E; subst s'; cbn in *; (split; [auto|split; [try (intros [X|X]; [discriminate|auto])|auto]]); auto.
    + exfalso. apply I2. left. auto.
    + inversion E; subst s'; cbn; auto.
    + destruct (nth_error (p_workers s) j) as [[]|]; try discriminate. inversion E; subst s'; cbn; auto.
  - destruct (worker_effect _ _ _ E) as [-> Eff].
    split; [|split; auto].
    + cbn in E. unfold worker_step, go in E.
      destruct (nth_error (p_workers s) i) as [[| |id| | | | | |]|]; try discriminate;
        try (inversion E; subst s'; cbn; auto; fail).
      * destruct (p_queue s); inversion E; subst s'; auto.
      * destruct (nth_error (p_tasks s) id) as [q|]; [|discriminate].
        destruct (step q (p_mem s)) as [[q' m']|] eqn:Eq;
          destruct q as [a|b z k'|b z v k'|b z k'|b z y k'|]; rewrite ?Eq in E; try discriminate;
          inversion E; subst s'; cbn; auto.
      * destruct (p_mutex s); inversion E; subst s'; auto.
      * rewrite I1 in E; inversion E; subst s'; auto.
      * destruct (p_mutex s); inversion E; subst s'; auto.
    + destruct Eff as [[-> _]|(id & p & p' & m' & _ & _ & _ & -> & _)]; rewrite ?rep_length; auto.
Qed.

(** As long as the pool is not destroyed, every submitted task is eventually executed to the
    end, waited for or not. *)
Theorem C28_tasks_complete : forall (V : Type) n script (m : mem V) sched,
  1 <= n -> proper n 0 script -> ~ In SetDone script -> fair n sched ->
  (forall t, pool_run (first_choices t sched) (pool_init n script m) <> None) ->
  exists t s, pool_run (first_choices t sched) (pool_init n script m) = Some s /\ p_script s = [] /\
    length (p_tasks s) = length (pushes script) /\
    forall id, id < length (pushes script) ->
      nth_error (p_ready s) id = Some true /\ nth_error (p_tasks s) id = Some (Ret tt).
Proof.
  intros V n script m sched Hn Hp Hnd Hf Hs.
  set (st := st n script m sched).
  assert (Nd : forall t, p_done (st t) = false /\ ~ In SetDone (p_script (st t)) /\
    length (p_tasks (st t)) + length (pushes (p_script (st t))) = length (pushes script)).
  { induction t as [|t (I1 & I2 & I3)]; [cbn; auto|].
    destruct (st_step n script m sched Hs t) as [(s' & E & E')|(E & E')]; fold st in E, E'; rewrite E'; auto.
    eapply step_not_done; eauto. }
  destruct (script_ends n script m sched Hn Hp Hf Hs _ 0 eq_refl) as (t0 & _ & E0). fold st in E0.
  assert (All : forall k, k <= length (pushes script) -> exists t, t0 <= t /\
    forall id, id < k -> nth_error (p_ready (st t)) id = Some true).
  { induction k as [|k IH]; intros Hk; [exists t0; split; [auto|intros; lia]|].
    destruct IH as (t1 & L1 & H1); [lia|].
    assert (Hk1 : k < length (p_tasks (st t1))).
    { destruct (Nd t0) as (_ & _ & X). rewrite E0 in X. cbn in X.
      destruct (mono n script m sched Hn Hp Hs t0 t1 L1) as (_ & _ & _ & Y). fold st in Y. lia. }
    destruct (is_started n script m sched Hn Hp Hf Hs k t1 Hk1) as (t2 & L2 & [S|S]); fold st in S;
      [|destruct (Nd t2); congruence].
    destruct (completes n script m sched Hn Hp Hf Hs k t2 S) as (t3 & L3 & R). fold st in R.
    exists t3. split; [lia|]. intros id Hid. destruct (Nat.eq_dec id k) as [->|]; auto.
    destruct (mono n script m sched Hn Hp Hs t1 t3 ltac:(lia)) as (Y & _). apply Y. apply H1. lia. }
  destruct (All (length (pushes script)) (le_n _)) as (t & L & H).
  assert (Es : p_script (st t) = []).
  { clear H. induction L as [|t L IH]; auto.
    destruct (st_step n script m sched Hs t) as [(s' & E & E')|(E & E')]; fold st in E, E'; rewrite E'; auto.
    destruct (sched t) as [h|i].
    - cbn in E. unfold client_step in E. rewrite IH in E. discriminate.
    - destruct (worker_effect _ _ _ E) as [-> _]. auto. }
  exists t, (st t). split; [apply st_run; auto|]. split; auto.
  destruct (Nd t) as (_ & _ & X). rewrite Es in X. cbn in X. split; [lia|].
  intros id Hid. split; auto. eapply v_ready; [apply (st_inv n script m sched Hp Hs t)|]. apply H. auto.
Qed.
Print Assumptions C28_tasks_complete.

(** Once the flag has been raised, workers finish what they have started and start at most
    one more task each: those that had tested the flag just before. *)
Theorem C28_after_destruction_begins : forall (V : Type) n script (m : mem V) s sched s',
  proper n 0 script -> reaches n script m s -> p_done s = true -> pool_run sched s = Some s' ->
  p_done s' = true /\ length (p_started s') <= length (p_started s) + about_to_pop s /\
  about_to_pop s <= n /\ pushes (p_script s) = [].
Proof.
  intros V n script m s sched s' Hp Hr D E. pose proof (pinv_reaches _ _ _ _ Hp Hr) as Hv.
  destruct (run_starts _ _ _ D E) as [A B]. split; auto. split; [lia|]. split.
  - unfold about_to_pop. rewrite <- (v_len _ _ Hv). clear. induction (p_workers s) as [|w l IH]; cbn; auto.
    destruct w; cbn; lia.
  - destruct (v_script _ _ Hv) as [(X & _)|(_ & [X|(k & X & _)])]; [congruence| |]; rewrite X.
    + unfold pushes. cbn [flat_map app]. clear. induction (List.seq 0 n); cbn; auto.
    + clear. induction (List.seq k (n - k)); cbn; auto.
Qed.
Print Assumptions C28_after_destruction_begins.

(** When the destructor returns, all threads have; every task has been executed completely, or
    not at all. *)
Theorem C28_after_destruction : forall (V : Type) n pre (m : mem V) s,
  proper n 0 (pre ++ destruct_pool n) -> reaches n (pre ++ destruct_pool n) m s ->
  p_script s = [] -> p_done s = true ->
  all_exited s /\
  forall id, id < length (p_tasks s) ->
    (In id (p_started s) /\ nth_error (p_tasks s) id = Some (Ret tt) /\ nth_error (p_ready s) id = Some true) \/
    (In id (p_queue s) /\ nth_error (p_tasks s) id = nth_error (pushes pre) id /\ nth_error (p_ready s) id = Some false).
Proof.
  intros V n pre m s Hp Hr Es D. pose proof (pinv_reaches _ _ _ _ Hp Hr) as Hv.
  assert (X : all_exited s).
  { intros w Hw. apply In_nth_error in Hw as [i Hi].
    destruct (v_script _ _ Hv) as [(Z & _)|(_ & [Z|(k & Z & X)])]; [congruence|rewrite Es in Z; discriminate|].
    rewrite Es in Z. pose proof (nth_lt _ _ _ Hi) as L. rewrite (v_len _ _ Hv) in L.
    assert (n <= k). { destruct (n - k) eqn:En; [lia|discriminate]. }
    rewrite X in Hi by lia. congruence. }
  split; auto. intros id Hid.
  assert (In id (p_started s ++ p_queue s)) as Q by (rewrite (v_order _ _ Hv); apply in_seq; lia).
  apply in_app_or in Q as [Q|Q].
  - left. split; auto. destruct (v_started _ _ Hv id Q) as [A|(i & A)].
    + split; auto. apply (v_ready _ _ Hv). auto.
    + apply nth_error_In, X in A. discriminate.
  - right. split; auto. destruct (C27_queued_tasks_untouched _ _ _ _ _ Hp Hr id Q) as [A B].
    assert (Pd : pushes (@destruct_pool V n) = []).
    { unfold pushes, destruct_pool. cbn [flat_map app]. clear. induction (List.seq 0 n); cbn; auto. }
    split; auto. rewrite A. unfold pushes. rewrite flat_map_app. fold (pushes pre) (pushes (@destruct_pool V n)).
    rewrite Pd, app_nil_r. auto.
Qed.
Print Assumptions C28_after_destruction.

Definition no_mem : mem Z := {| mval := fun _ _ => None; mmsk := fun _ _ => None |}.

(** The second case happens: a task that is still queued when the pool is destroyed is never
    executed; whoever waits for it (no one here) would wait for ever. *)
Theorem C28_queued_tasks_are_dropped :
  exists (script : list (action Z)) m s, proper 1 0 script /\ reaches 1 script m s /\
    p_script s = [] /\ all_exited s /\ p_queue s = [0] /\ nth_error (p_ready s) 0 = Some false.
Proof.
  exists (submit (Ret tt) ++ destruct_pool 1), no_mem.
  set (sched := [Client 0; Client 0; Client 0; Worker 0; Client 0; Client 0]).
  destruct (pool_run sched (pool_init 1 (submit (Ret tt) ++ destruct_pool 1) no_mem))
    as [s|] eqn:E; [|vm_compute in E; discriminate].
  exists s. split; [vm_compute; auto|]. split; [exists sched; exact E|].
  vm_compute in E. inversion E; subst s. cbn. repeat split; auto. intros w [<-|[]]. auto.
Qed.
Print Assumptions C28_queued_tasks_are_dropped.

(** A notification can be lost: a task is queued, all workers are waiting, and no notification
    is to come, although the client waits for the task.  It is only the time-out of the wait
    that makes a worker look again. *)
Theorem C28_notification_can_be_lost :
  exists m (s : pool Z), reaches 1 (program 1 [([Ret tt], Ret tt)] false) m s /\
    p_queue s = [0] /\ p_workers s = [WWait] /\ p_script s = [Wait 0; Do (Ret tt)] /\
    (forall h, pool_step s (Client h) = Blocked) /\
    exists s', pool_step s (Worker 0) = Step s' /\ p_workers s' = [WWake].
Proof.
  exists no_mem.
  set (sched := [Worker 0; Worker 0; Worker 0; Client 0; Client 0; Worker 0]).
  destruct (pool_run sched (pool_init 1 (program 1 [([Ret tt], Ret tt)] false) no_mem))
    as [s|] eqn:E; [|vm_compute in E; discriminate].
  exists s. split; [exists sched; exact E|].
  vm_compute in E. inversion E; subst s. cbn. repeat split; auto.
  eexists. split; reflexivity.
Qed.
Print Assumptions C28_notification_can_be_lost.

(** ** The hypotheses are met *)
Definition round_robin (n t : nat) : choice :=
  match t mod (S n) with O => Client 0 | S i => Worker i end.

Example C28_fair : forall n, fair n (round_robin n).
Proof.
  intros n. split.
  - intros t. exists (t * S n), 0. split; [nia|]. unfold round_robin.
    rewrite Nat.mod_mul by lia. auto.
  - intros i t Hi. exists (t * S n + S i). split; [nia|]. unfold round_robin.
    rewrite Nat.add_comm, Nat.mod_add, Nat.mod_small by lia. auto.
Qed.

(** Two tasks that write different elements, then a third after they have completed. *)
Definition case_calls : list (list (prog Z unit) * prog Z unit) :=
  let task i := RdV 0 i (fun v => WrV 0 i (v + 1)%Z (Ret tt)) in
  [([task 0%Z; task 1%Z], Ret tt); ([task 0%Z], WrV 0 1%Z 7%Z (Ret tt))].
Definition case_mem : mem Z := {| mval := fun _ _ => Some 5%Z; mmsk := fun _ _ => None |}.

Example C27_case :
  exists s, pool_run (first_choices 150 (round_robin 2)) (pool_init 2 (program 2 case_calls true) case_mem) = Some s /\
    p_script s = [] /\ p_started s = [0; 1; 2] /\ p_ready s = [true; true; true] /\
    p_workers s = [WExit; WExit] /\ mval (p_mem s) 0 0%Z = Some 7%Z /\ mval (p_mem s) 0 1%Z = Some 7%Z.
Proof.
  match goal with |- exists s, ?r = Some s /\ _ => destruct r as [s|] eqn:E end; [|vm_compute in E; discriminate].
  exists s. split; auto. vm_compute in E. inversion E; subst s. cbn. repeat split; auto.
Qed.

(** They never fault. *)
Example C27_case_never_faults : never_fault case_calls case_mem.
Proof.
  assert (G : forall (ts : list (prog Z unit)) m,
    (forall p, In p ts -> exists i, (p = RdV 0 i (fun v => WrV 0 i (v + 1)%Z (Ret tt))) \/ (exists v, p = WrV 0 i v (Ret tt)) \/ p = Ret tt) ->
    (forall i, mval m 0 i <> None) -> forall sc, exists ps m',
      exec sc ts m = Some (ps, m') /\ forall i, mval m' 0 i <> None).
  { intros ts m Hts Hm sc. revert ts m Hts Hm. induction sc as [|k sc IH]; intros ts m Hts Hm; cbn; [eauto|].
    unfold step_task. destruct (nth_error ts k) as [p|] eqn:E; [|auto].
    assert (Step : exists p' m', step p m = Some (p', m') /\ (forall i, mval m' 0 i <> None) /\
      exists i, (p' = RdV 0 i (fun v => WrV 0 i (v + 1)%Z (Ret tt))) \/ (exists v, p' = WrV 0 i v (Ret tt)) \/ p' = Ret tt).
    { destruct (Hts p) as (i & [->|[(v & ->)| ->]]); [eapply nth_error_In; eauto| | |].
      - cbn. destruct (mval m 0 i) eqn:Ei; [|exfalso; eapply Hm; eauto]. do 2 eexists. split; eauto. split; auto.
        exists i. right. left. eauto.
      - cbn. destruct (mval m 0 i) eqn:Ei; [|exfalso; eapply Hm; eauto]. do 2 eexists. split; eauto. split; [|exists i; auto].
        intros j. cbn. destruct (Z.eqb i j); [discriminate|auto].
      - cbn. do 2 eexists. split; [reflexivity|]. split; [auto|]. exists i; auto. }
    destruct Step as (p' & m' & -> & A & B). apply IH; auto.
    intros q Hq. apply In_nth_error in Hq as [j Hj]. apply rep_inv in Hj as [[-> ->]|[_ Hj]]; auto.
    apply Hts. eapply nth_error_In; eauto. }
  cbn. split.
  - intros sc. destruct (G [RdV 0 0%Z (fun v => WrV 0 0%Z (v + 1)%Z (Ret tt)); RdV 0 1%Z (fun v => WrV 0 1%Z (v + 1)%Z (Ret tt))] case_mem) with (sc := sc) as (ps & m' & -> & _); [| |discriminate].
    + intros p [<-|[<-|[]]]; eauto.
    + discriminate.
  - intros sc ps m1 E _. exists m1. split; auto.
    assert (Hm1 : forall i, mval m1 0 i <> None).
    { destruct (G [RdV 0 0%Z (fun v => WrV 0 0%Z (v + 1)%Z (Ret tt)); RdV 0 1%Z (fun v => WrV 0 1%Z (v + 1)%Z (Ret tt))] case_mem) with (sc := sc) as (ps' & m' & E' & H).
      - intros p [<-|[<-|[]]]; eauto.
      - discriminate.
      - rewrite E' in E. inversion E; subst. auto. }
    assert (G2 : forall sc, exists ps m', exec sc [RdV 0 0%Z (fun v => WrV 0 0%Z (v + 1)%Z (Ret tt))] m1 = Some (ps, m') /\ forall i, mval m' 0 i <> None).
    { apply G; auto. intros p [<-|[]]; eauto. }
    split.
    + intros sc2. destruct (G2 sc2) as (? & ? & -> & _). discriminate.
    + intros sc2 ps2 m2 E2 _. destruct (G2 sc2) as (? & m2' & E2' & H2). rewrite E2' in E2. inversion E2; subst.
      destruct (mval m2 0 1%Z) eqn:Ez; [|exfalso; eapply H2; eauto]. eexists. split; [reflexivity|exact I].
Qed.
