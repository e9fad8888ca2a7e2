(** * Under a fair schedule the thread pool gets its work done *)
From Coq Require Import ZArith List Bool Arith Lia.
From Verif Require Import LangModel ConcModel LoopModel LoopSpec PoolModel PoolSpec PoolProofs.
Import ListNotations.
Open Scope nat_scope.

Lemma app_prefix {X} (l1 l2 l3 l4 : list X) : length l1 = length l3 -> l1 ++ l2 = l3 ++ l4 -> l1 = l3.
Proof.
  revert l3; induction l1 as [|x l1 IH]; intros [|y l3] L E; cbn in *; try discriminate; auto.
  inversion E; subst. f_equal. eauto.
Qed.

Section Live.
Context {V : Type}.
Implicit Types (s : pool V).

Lemma pool_run_app cs1 cs2 s : pool_run (cs1 ++ cs2) s =
  match pool_run cs1 s with Some s' => pool_run cs2 s' | None => None end.
Proof.
  revert s; induction cs1 as [|c cs1 IH]; intros s; cbn; auto. destruct (pool_step s c); auto.
Qed.

(** ** Weights: what decreases until a task is started, or until a worker has exited *)
Definition weight (d : bool) (w : wpc) : nat :=
  match w with
  | WExit => 0 | WCheck => 1 | WUnlock => 2 | WWake => 3 | WWait => 4 | WTest => 5 | WLock => 6
  | WRun _ => 7 | WPop => if d then 8 else 0
  end.
Fixpoint sum_weights (d : bool) (ws : list wpc) : nat :=
  match ws with [] => 0 | w :: ws' => weight d w + sum_weights d ws' end.

Lemma sum_rep d ws : forall i w w', nth_error ws i = Some w ->
  sum_weights d (replace_nth ws i w') + weight d w = sum_weights d ws + weight d w'.
Proof.
  induction ws as [|x ws IH]; intros [|i] w w' H; cbn in *; try discriminate.
  - inversion H; subst. lia.
  - specialize (IH i w w' H). lia.
Qed.
Lemma weight_wake d w : weight d (wake w) <= weight d w.
Proof. destruct w; cbn; auto. Qed.
Lemma sum_wake d ws : sum_weights d (map wake ws) <= sum_weights d ws /\
  (sum_weights d (map wake ws) = sum_weights d ws -> map wake ws = ws).
Proof.
  induction ws as [|w ws [IH1 IH2]]; cbn; auto. pose proof (weight_wake d w). split; [lia|].
  intros E. f_equal; [|apply IH2; lia].
  destruct w; auto. cbn in E. lia.
Qed.
Lemma sum_notify d ws h : sum_weights d (notify_one ws h) <= sum_weights d ws /\
  (sum_weights d (notify_one ws h) = sum_weights d ws -> notify_one ws h = ws).
Proof.
  unfold notify_one. destruct (nth_error ws h) as [w|] eqn:E; auto.
  pose proof (sum_rep d _ _ _ (wake w) E). pose proof (weight_wake d w). split; [lia|].
  intros G. destruct w; try (cbn in *; lia); clear -E;
    revert h E; induction ws as [|x ws IH]; intros [|h] E; cbn in *; try discriminate; f_equal; auto; congruence.
Qed.
Lemma sum_zero ws : sum_weights true ws = 0 -> forall i w, nth_error ws i = Some w -> w = WExit.
Proof.
  induction ws as [|x ws IH]; intros E [|i] w H; cbn in *; try discriminate.
  - inversion H; subst. destruct w; cbn in E; auto; lia.
  - eapply IH; eauto. lia.
Qed.
Lemma sum_pos ws i w : nth_error ws i = Some w -> w <> WExit -> sum_weights true ws <> 0.
Proof. intros H N E. apply N. eapply sum_zero; eauto. Qed.

(** Waiting for weight to drop below [W], or else a task after the [k]th to be started, or
    else the flag to be raised. *)
Definition waiting (d : bool) (W k : nat) s : Prop :=
  sum_weights d (p_workers s) = W /\ p_done s = d /\
  (d = false -> length (p_started s) = k /\ k < length (p_tasks s)).
Definition advanced (d : bool) (W k : nat) s : Prop :=
  (sum_weights d (p_workers s) < W /\ p_done s = d /\
   (d = false -> length (p_started s) = k /\ k < length (p_tasks s))) \/
  (d = false /\ (k < length (p_started s) \/ p_done s = true)).

Lemma weight_step n d W k s c s' : pinv n s -> waiting d W k s -> pool_step s c = Step s' ->
  advanced d W k s' \/
  (waiting d W k s' /\ p_workers s' = p_workers s /\ p_mutex s' = p_mutex s /\
   forall i, c = Worker i -> exists id, nth_error (p_workers s) i = Some (WRun id)).
Proof.
  intros H (HW & HD & HK) E. unfold waiting, advanced. destruct c as [h|i]; cbn in E.
  - assert (Same : p_workers s' = p_workers s -> p_mutex s' = p_mutex s -> p_done s' = p_done s ->
      p_started s' = p_started s -> length (p_tasks s) <= length (p_tasks s') ->
      waiting d W k s' /\ p_workers s' = p_workers s /\ p_mutex s' = p_mutex s /\
      forall i, Client h = Worker i -> exists id, nth_error (p_workers s) i = Some (WRun id)).
    { intros A B C D F. unfold waiting. rewrite A, B, C, D. repeat split; auto; try discriminate.
      - apply HK; auto. - apply HK in H0. lia. }
    unfold client_step in E. destruct (p_script s) as [|act rest]; [discriminate|].
    destruct act as [p| |id|p| | |j].
    + right. inversion E; subst s'. apply Same; cbn; auto. rewrite app_length. lia.
    + inversion E; subst s'; clear E Same. cbn. destruct (sum_notify d (p_workers s) h) as [L1 L2].
      destruct (Nat.eq_dec (sum_weights d (notify_one (p_workers s) h)) W) as [Eq|Ne].
      * right. rewrite L2 by congruence. repeat split; auto; try discriminate; apply HK; auto.
      * left. left. split; [lia|]. auto.
    + destruct (nth_error (p_ready s) id) as [[|]|]; try discriminate. right. inversion E; subst s'.
      apply Same; cbn; auto.
    + right. destruct p as [a|b z k'|b z v k'|b z k'|b z x k'|]; cbn [step] in E;
        repeat match type of E with
        | match ?d with _ => _ end = _ => destruct d; try discriminate
        end; inversion E; subst s'; apply Same; cbn; auto.
    + inversion E; subst s'. destruct d.
      * right. apply Same; cbn; auto.
      * left. right. cbn. auto.
    + inversion E; subst s'; clear E Same. cbn. destruct (sum_wake d (p_workers s)) as [L1 L2].
      destruct (Nat.eq_dec (sum_weights d (map wake (p_workers s))) W) as [Eq|Ne].
      * right. rewrite L2 by congruence. repeat split; auto; try discriminate; apply HK; auto.
      * left. left. split; [lia|]. auto.
    + destruct (nth_error (p_workers s) j) as [[]|]; try discriminate. right. inversion E; subst s'.
      apply Same; cbn; auto.
  - unfold worker_step in E. destruct (nth_error (p_workers s) i) as [w|] eqn:Ew; [|discriminate].
    assert (Go : forall w' l, weight d w' < weight d w -> go s i w' l = Step s' ->
      (sum_weights d (p_workers s') < W /\ p_done s' = d /\
       (d = false -> length (p_started s') = k /\ k < length (p_tasks s'))) \/
      (d = false /\ (k < length (p_started s') \/ p_done s' = true))).
    { intros w' l L G. unfold go in G. inversion G; subst s'; cbn. left.
      pose proof (sum_rep d _ _ _ w' Ew). split; [lia|]. auto. }
    destruct w as [| |id| | | | | |].
    + rewrite HD in E. left. destruct d; eapply Go; eauto; cbn; lia.
    + destruct (p_queue s) as [|id queue] eqn:Eq.
      * left. destruct d; [eapply Go; eauto; cbn; lia|].
        exfalso. destruct (HK eq_refl) as [K1 K2]. pose proof (v_order _ _ H) as O.
        rewrite Eq, app_nil_r in O. rewrite O, seq_length in K1. lia.
      * left. inversion E; subst s'; cbn. destruct d.
        -- left. pose proof (sum_rep true _ _ _ (WRun id) Ew) as G. cbn in G. split; [lia|]. split; auto. discriminate.
        -- right. rewrite app_length. cbn. destruct (HK eq_refl). split; auto. left. lia.
    + destruct (nth_error (p_tasks s) id) as [p|] eqn:Et; [|discriminate].
      destruct p as [a|b z k'|b z v k'|b z k'|b z x k'|]; cbn [step] in E;
        repeat match type of E with
        | match ?d with _ => _ end = _ => destruct d eqn:?; try discriminate
        end; inversion E; subst s'; cbn.
      * left. left. pose proof (sum_rep d _ _ _ WCheck Ew) as G. cbn in G. split; [lia|]. auto.
      * right. rewrite rep_length. repeat split; auto; try apply HK; auto. intros j Ej. inversion Ej; subst. eauto.
      * right. rewrite rep_length. repeat split; auto; try apply HK; auto. intros j Ej. inversion Ej; subst. eauto.
      * right. rewrite rep_length. repeat split; auto; try apply HK; auto. intros j Ej. inversion Ej; subst. eauto.
      * right. rewrite rep_length. repeat split; auto; try apply HK; auto. intros j Ej. inversion Ej; subst. eauto.
    + destruct (p_mutex s); [discriminate|]. left. eapply Go; eauto; cbn; lia.
    + rewrite HD in E. left. destruct d; eapply Go; eauto; cbn; lia.
    + left. eapply Go; eauto; cbn; lia.
    + destruct (p_mutex s); [discriminate|]. left. eapply Go; eauto; cbn; lia.
    + left. eapply Go; eauto; cbn; lia.
    + discriminate.
Qed.

(** ** What steps of others leave alone *)
Lemma keeps_running n s c s' i id p : pinv n s -> pool_step s c = Step s' -> c <> Worker i ->
  nth_error (p_workers s) i = Some (WRun id) -> nth_error (p_tasks s) id = Some p ->
  nth_error (p_workers s') i = Some (WRun id) /\ nth_error (p_tasks s') id = Some p.
Proof.
  intros H E N Hw Ht. destruct c as [h|j]; cbn in E.
  - unfold client_step in E. destruct (p_script s) as [|act rest]; [discriminate|].
    destruct act as [q| |x|q| | |j].
    + inversion E; subst s'; cbn. split; auto. rewrite nth_error_app1; auto. eapply nth_lt; eauto.
    + inversion E; subst s'; cbn. split; auto.
      destruct (woken_back _ _ _ _ (woken_one (p_workers s) h) Hw) as (w' & A & [->| ->]); auto.
    + destruct (nth_error (p_ready s) x) as [[|]|]; try discriminate. inversion E; subst s'; auto.
    + destruct q as [a|b z k'|b z v k'|b z k'|b z x k'|]; cbn [step] in E;
        repeat match type of E with
        | match ?d with _ => _ end = _ => destruct d; try discriminate
        end; inversion E; subst s'; auto.
    + inversion E; subst s'; auto.
    + inversion E; subst s'; cbn. split; auto.
      destruct (woken_back _ _ _ _ (woken_all (p_workers s)) Hw) as (w' & A & [->| ->]); auto.
    + destruct (nth_error (p_workers s) j) as [[]|]; try discriminate. inversion E; subst s'; auto.
  - assert (Nj : i <> j) by congruence. unfold worker_step, go in E.
    destruct (nth_error (p_workers s) j) as [w|] eqn:Ew; [|discriminate].
    destruct w as [| |id'| | | | | |].
    + inversion E; subst s'; cbn. rewrite rep_other by auto. auto.
    + destruct (p_queue s); inversion E; subst s'; cbn; rewrite rep_other by auto; auto.
    + assert (Nid : id <> id') by (intros ->; apply Nj; eapply (v_inj _ _ H); eauto).
      destruct (nth_error (p_tasks s) id') as [q|] eqn:Et; [|discriminate].
      destruct q as [a|b z k'|b z v k'|b z k'|b z x k'|]; cbn [step] in E;
        repeat match type of E with
        | match ?d with _ => _ end = _ => destruct d eqn:?; try discriminate
        end; inversion E; subst s'; cbn; rewrite ?rep_other by auto; auto.
    + destruct (p_mutex s); inversion E; subst s'; cbn; rewrite rep_other by auto; auto.
    + destruct (p_done s); inversion E; subst s'; cbn; rewrite rep_other by auto; auto.
    + inversion E; subst s'; cbn; rewrite rep_other by auto; auto.
    + destruct (p_mutex s); inversion E; subst s'; cbn; rewrite rep_other by auto; auto.
    + inversion E; subst s'; cbn; rewrite rep_other by auto; auto.
    + discriminate.
Qed.

Lemma worker_script s i s' : pool_step s (Worker i) = Step s' -> p_script s' = p_script s.
Proof.
  cbn. unfold worker_step, go. intros E.
  destruct (nth_error (p_workers s) i) as [[| |id| | | | | |]|]; try discriminate.
  - inversion E; auto.
  - destruct (p_queue s); inversion E; auto.
  - destruct (nth_error (p_tasks s) id) as [q|] eqn:Et; [|discriminate].
    destruct q as [a|b z k'|b z v k'|b z k'|b z x k'|]; cbn [step] in E;
      repeat match type of E with
      | match ?d with _ => _ end = _ => destruct d eqn:?; try discriminate
      end; inversion E; subst s'; auto.
  - destruct (p_mutex s); inversion E; auto.
  - destruct (p_done s); inversion E; auto.
  - inversion E; auto.
  - destruct (p_mutex s); inversion E; auto.
  - inversion E; auto.
Qed.

(** What never goes back. *)
Lemma step_monotone n s c s' : pinv n s -> pool_step s c = Step s' ->
  (forall id, nth_error (p_ready s) id = Some true -> nth_error (p_ready s') id = Some true) /\
  (forall i, nth_error (p_workers s) i = Some WExit -> nth_error (p_workers s') i = Some WExit) /\
  (p_done s = true -> p_done s' = true) /\
  length (p_tasks s) <= length (p_tasks s').
Proof.
  intros H E. destruct c as [h|j]; cbn in E.
  - unfold client_step in E. destruct (p_script s) as [|act rest]; [discriminate|].
    destruct act as [q| |x|q| | |j].
    + inversion E; subst s'; cbn. split; [|rewrite app_length; repeat split; auto; lia].
      intros id Hid. rewrite nth_error_app1; auto. eapply nth_lt; eauto.
    + inversion E; subst s'; cbn. repeat split; auto. intros i Hw.
      destruct (woken_back _ _ _ _ (woken_one (p_workers s) h) Hw) as (w' & A & [->| ->]); auto.
    + destruct (nth_error (p_ready s) x) as [[|]|]; try discriminate. inversion E; subst s'; auto.
    + destruct q as [a|b z k'|b z v k'|b z k'|b z x k'|]; cbn [step] in E;
        repeat match type of E with
        | match ?d with _ => _ end = _ => destruct d; try discriminate
        end; inversion E; subst s'; auto.
    + inversion E; subst s'; cbn; auto.
    + inversion E; subst s'; cbn. repeat split; auto. intros i Hw.
      destruct (woken_back _ _ _ _ (woken_all (p_workers s)) Hw) as (w' & A & [->| ->]); auto.
    + destruct (nth_error (p_workers s) j) as [[]|]; try discriminate. inversion E; subst s'; auto.
  - unfold worker_step, go in E.
    destruct (nth_error (p_workers s) j) as [w|] eqn:Ew; [|discriminate].
    assert (X : w <> WExit -> forall w' i, nth_error (p_workers s) i = Some WExit ->
      nth_error (replace_nth (p_workers s) j w') i = Some WExit).
    { intros Nx w' i Hi. rewrite rep_other; auto. intros ->. congruence. }
    destruct w as [| |id'| | | | | |].
    + inversion E; subst s'; cbn. repeat split; auto. intros; apply X; auto; discriminate.
    + destruct (p_queue s); inversion E; subst s'; cbn; (repeat split; auto; intros; apply X; auto; discriminate).
    + destruct (nth_error (p_tasks s) id') as [q|] eqn:Et; [|discriminate].
      destruct q as [a|b z k'|b z v k'|b z k'|b z x k'|]; cbn [step] in E;
        repeat match type of E with
        | match ?d with _ => _ end = _ => destruct d eqn:?; try discriminate
        end; inversion E; subst s'; cbn; rewrite ?rep_length; auto.
      split; [|split; [intros; apply X; auto; discriminate|auto]].
      intros id Hid. destruct (Nat.eq_dec id id') as [->|Ni].
      * apply rep_same. eapply nth_lt; eauto.
      * rewrite rep_other; auto.
    + destruct (p_mutex s); inversion E; subst s'; cbn; (repeat split; auto; intros; apply X; auto; discriminate).
    + destruct (p_done s); inversion E; subst s'; cbn; (repeat split; auto; intros; apply X; auto; discriminate).
    + inversion E; subst s'; cbn; (repeat split; auto; intros; apply X; auto; discriminate).
    + destruct (p_mutex s); inversion E; subst s'; cbn; (repeat split; auto; intros; apply X; auto; discriminate).
    + inversion E; subst s'; cbn; (repeat split; auto; intros; apply X; auto; discriminate).
    + discriminate.
Qed.

(** ** An infinite execution *)
Section Run.
Variables (n : nat) (script : list (action V)) (m : mem V) (sched : nat -> choice).
Hypothesis Hn : 1 <= n.
Hypothesis Hproper : proper n 0 script.
Hypothesis Hfair : fair n sched.
Hypothesis Hsafe : forall t, pool_run (first_choices t sched) (pool_init n script m) <> None.

Fixpoint st (t : nat) : pool V :=
  match t with
  | O => pool_init n script m
  | S t' => match pool_step (st t') (sched t') with Step s' => s' | _ => st t' end
  end.

Lemma first_S t : first_choices (S t) sched = first_choices t sched ++ [sched t].
Proof using. clear. unfold first_choices. rewrite seq_S, map_app. reflexivity. Qed.

Lemma st_run t : pool_run (first_choices t sched) (pool_init n script m) = Some (st t).
Proof.
  induction t as [|t IH]; [reflexivity|].
  pose proof (Hsafe (S t)) as Hs. rewrite first_S, pool_run_app, IH in *. cbn in *.
  destruct (pool_step (st t) (sched t)); auto. congruence.
Qed.
Lemma st_inv t : pinv n (st t).
Proof. eapply pinv_run; [|apply (st_run t)]. apply pinv_init; auto. Qed.
Lemma st_step t : (exists s', pool_step (st t) (sched t) = Step s' /\ st (S t) = s') \/
  (pool_step (st t) (sched t) = Blocked /\ st (S t) = st t).
Proof.
  pose proof (Hsafe (S t)) as Hs. rewrite first_S, pool_run_app, st_run in Hs. cbn in *.
  destruct (pool_step (st t) (sched t)); eauto. congruence.
Qed.

(** If [mine] gets its turn at [t0], [P] holds until then unless [Q] comes true, and [mine]
    then makes [Q] true, then [Q] comes true. *)
Lemma until (P Q : pool V -> Prop) (mine : choice -> Prop) t t0 :
  (forall c, mine c \/ ~ mine c) ->
  t <= t0 -> mine (sched t0) ->
  (forall s c s', pinv n s -> P s -> ~ mine c -> pool_step s c = Step s' -> P s' \/ Q s') ->
  (forall s c, pinv n s -> P s -> mine c -> pool_step s c = Fault \/ exists s', pool_step s c = Step s' /\ Q s') ->
  P (st t) -> exists t', t <= t' /\ Q (st t').
Proof.
  intros Dec Ht Hmine Hoth Hme HP.
  remember (t0 - t) as d eqn:Ed. revert t Ht Ed HP. induction d as [|d IH]; intros t Ht Ed HP.
  - assert (t = t0) by lia. subst t0.
    destruct (Hme _ _ (st_inv t) HP Hmine) as [F|(s' & E & HQ)].
    + destruct (st_step t) as [(s' & E & _)|(E & _)]; congruence.
    + exists (S t). split; [lia|]. cbn. rewrite E. auto.
  - destruct (Dec (sched t)) as [Y|N].
    + destruct (Hme _ _ (st_inv t) HP Y) as [F|(s' & E & HQ)].
      * destruct (st_step t) as [(s' & E & _)|(E & _)]; congruence.
      * exists (S t). split; [lia|]. cbn. rewrite E. auto.
    + assert (G : P (st (S t)) \/ Q (st (S t))).
      { destruct (st_step t) as [(s' & E & ->)|(E & ->)]; auto.
        eapply Hoth; eauto using st_inv. }
      destruct G as [G|G]; [|exists (S t); split; [lia|auto]].
      destruct (IH (S t)) as (t' & L & Q'); auto; try lia. exists t'. split; [lia|auto].
Qed.

Lemma until_worker (P Q : pool V -> Prop) i t : i < n ->
  (forall s c s', pinv n s -> P s -> c <> Worker i -> pool_step s c = Step s' -> P s' \/ Q s') ->
  (forall s, pinv n s -> P s -> pool_step s (Worker i) = Fault \/ exists s', pool_step s (Worker i) = Step s' /\ Q s') ->
  P (st t) -> exists t', t <= t' /\ Q (st t').
Proof.
  intros Hi H1 H2 HP. destruct (proj2 Hfair i t Hi) as (t0 & L & E).
  apply (until P Q (fun c => c = Worker i) t t0); auto.
  - intros [h|j]; [right; discriminate|]. destruct (Nat.eq_dec j i); [left; congruence|right; congruence].
  - intros s c Hv Hp ->. auto.
Qed.
Lemma until_client (P Q : pool V -> Prop) t :
  (forall s i s', pinv n s -> P s -> pool_step s (Worker i) = Step s' -> P s' \/ Q s') ->
  (forall s h, pinv n s -> P s -> pool_step s (Client h) = Fault \/ exists s', pool_step s (Client h) = Step s' /\ Q s') ->
  P (st t) -> exists t', t <= t' /\ Q (st t').
Proof.
  intros H1 H2 HP. destruct (proj1 Hfair t) as (t0 & h & L & E).
  apply (until P Q (fun c => exists h, c = Client h) t t0); auto.
  - intros [h'|j]; [left; eauto|right; intros [? ?]; discriminate].
  - rewrite E. eauto.
  - intros s [h'|j] s' Hv Hp Hc Es; [exfalso; eauto|eauto].
  - intros s c Hv Hp [h' ->]. auto.
Qed.

(** A running task completes. *)
Lemma running (J G : pool V -> Prop) i id :
  (forall s c s', pinv n s -> J s -> nth_error (p_workers s) i = Some (WRun id) -> pool_step s c = Step s' ->
     (nth_error (p_workers s') i = Some (WRun id) /\ J s') \/ G s') ->
  forall p t, J (st t) -> nth_error (p_workers (st t)) i = Some (WRun id) ->
  nth_error (p_tasks (st t)) id = Some p -> exists t', t <= t' /\ G (st t').
Proof.
  intros HJ.
  set (at_p := fun p s => J s /\ nth_error (p_workers s) i = Some (WRun id) /\ nth_error (p_tasks s) id = Some p).
  assert (Main : forall p t, at_p p (st t) -> exists t', t <= t' /\ G (st t')).
  { assert (Hi : forall p s, pinv n s -> at_p p s -> i < n).
    { intros p s Hv (_ & Hw & _). rewrite <- (v_len _ _ Hv). eapply nth_lt; eauto. }
    assert (Oth : forall p (Q : pool V -> Prop) s c s', pinv n s -> at_p p s -> c <> Worker i -> pool_step s c = Step s' ->
      at_p p s' \/ (G s' \/ Q s')).
    { intros p Q s c s' Hv (A & B & C) Nc E. destruct (keeps_running _ _ _ _ _ _ _ Hv E Nc B C).
      destruct (HJ _ _ _ Hv A B E) as [[_ D]|D]; [left; split; auto|auto]. }
    assert (Sub : forall p p' t (Hp : at_p p (st t)),
      (forall s, at_p p s -> pool_step s (Worker i) = Fault \/
        exists s' q, pool_step s (Worker i) = Step s' /\ p' q /\ nth_error (p_tasks s') id = Some q) ->
      exists t', t <= t' /\ (G (st t') \/ exists q, p' q /\ at_p q (st t'))).
    { intros p p' t Hp Hs. apply (until_worker (at_p p) (fun s => G s \/ exists q, p' q /\ at_p q s) i);
        [eapply Hi; eauto using st_inv| | |exact Hp].
      { intros s c s' Hv H' Nc E. apply (Oth p (fun s => exists q, p' q /\ at_p q s) s c s'); auto. }
      intros s Hv Hp'. destruct (Hs s Hp') as [F|(s' & q & E & Hq & T)]; auto. right. exists s'. split; auto.
      destruct Hp' as (A & B & C). destruct (HJ _ _ _ Hv A B E) as [[D1 D2]|D]; auto.
      right. exists q. split; auto. split; auto. }
    induction p as [a|b z k IH|b z v p IH|b z k IH|b z x p IH|]; intros t Hp.
    - apply (until_worker (at_p (Ret a)) G i); [eapply Hi; eauto using st_inv| | |exact Hp].
      + intros s c s' Hv H' Nc E. destruct (Oth _ (fun _ => False) _ _ _ Hv H' Nc E) as [?|[?|[]]]; auto.
      + intros s Hv (A & B & C). right.
        assert (E : exists s', pool_step s (Worker i) = Step s' /\ nth_error (p_workers s') i = Some WCheck).
        { cbn. unfold worker_step. rewrite B, C. eexists. split; [reflexivity|]. cbn. apply rep_same. eapply nth_lt; eauto. }
        destruct E as (s' & E & Ei). exists s'. split; auto.
        destruct (HJ _ _ _ Hv A B E) as [[D _]|D]; auto. congruence.
    - destruct (Sub (RdV b z k) (fun q => exists v, q = k v) t Hp) as (t' & L & [D|(q & (v & ->) & D)]).
      + intros s (A & B & C). cbn. unfold worker_step. rewrite B, C. cbn [step].
        destruct (mval (p_mem s) b z) as [v|]; auto. right. eexists. exists (k v). split; [reflexivity|].
        split; eauto. cbn. apply rep_same. eapply nth_lt; eauto.
      + eauto.
      + destruct (IH v t' D) as (t2 & L2 & D2). exists t2. split; [lia|auto].
    - destruct (Sub (WrV b z v p) (fun q => q = p) t Hp) as (t' & L & [D|(q & -> & D)]).
      + intros s (A & B & C). cbn. unfold worker_step. rewrite B, C. cbn [step].
        destruct (mval (p_mem s) b z) as [v'|]; auto. right. eexists. exists p. split; [reflexivity|].
        split; eauto. cbn. apply rep_same. eapply nth_lt; eauto.
      + eauto.
      + destruct (IH t' D) as (t2 & L2 & D2). exists t2. split; [lia|auto].
    - destruct (Sub (RdM b z k) (fun q => exists v, q = k v) t Hp) as (t' & L & [D|(q & (v & ->) & D)]).
      + intros s (A & B & C). cbn. unfold worker_step. rewrite B, C. cbn [step].
        destruct (mmsk (p_mem s) b z) as [v|]; auto. right. eexists. exists (k v). split; [reflexivity|].
        split; eauto. cbn. apply rep_same. eapply nth_lt; eauto.
      + eauto.
      + destruct (IH v t' D) as (t2 & L2 & D2). exists t2. split; [lia|auto].
    - destruct (Sub (WrM b z x p) (fun q => q = p) t Hp) as (t' & L & [D|(q & -> & D)]).
      + intros s (A & B & C). cbn. unfold worker_step. rewrite B, C. cbn [step].
        destruct (mmsk (p_mem s) b z) as [v'|]; auto. right. eexists. exists p. split; [reflexivity|].
        split; eauto. cbn. apply rep_same. eapply nth_lt; eauto.
      + eauto.
      + destruct (IH t' D) as (t2 & L2 & D2). exists t2. split; [lia|auto].
    - apply (until_worker (at_p UB) G i); [eapply Hi; eauto using st_inv| | |exact Hp].
      + intros s c s' Hv H' Nc E. destruct (Oth _ (fun _ => False) _ _ _ Hv H' Nc E) as [?|[?|[]]]; auto.
      + intros s Hv (A & B & C). left. cbn. unfold worker_step. rewrite B, C. reflexivity. }
  intros p t A B C. apply (Main p t). split; auto.
Qed.

(** The weight drops. *)
Lemma advances d W k t : waiting d W k (st t) ->
  (exists i w, nth_error (p_workers (st t)) i = Some w /\ w <> WExit) ->
  exists t', t <= t' /\ advanced d W k (st t').
Proof.
  intros Hw (i0 & w0 & Hi0 & Nx0).
  assert (Pick : exists j w, nth_error (p_workers (st t)) j = Some w /\ w <> WExit /\
    (p_mutex (st t) = None \/ p_mutex (st t) = Some j)).
  { destruct (p_mutex (st t)) as [j|] eqn:Em; [|exists i0, w0; auto].
    pose proof (v_mutex _ _ (st_inv t) j Em) as Lj. rewrite <- (v_len _ _ (st_inv t)) in Lj.
    destruct (nth_error (p_workers (st t)) j) as [w|] eqn:Ej; [|apply nth_error_None in Ej; lia].
    exists j, w. split; auto. split; auto. intros ->.
    apply (v_hold _ _ (st_inv t) j _ Ej) in Em. discriminate. }
  destruct Pick as (j & w & Hj & Nx & Hm).
  assert (Lj : j < n) by (rewrite <- (v_len _ _ (st_inv t)); eapply nth_lt; eauto).
  assert (R : (exists id, w = WRun id) \/ forall id, w <> WRun id).
  { destruct w; try (right; discriminate). left; eauto. }
  destruct R as [[id ->]|NR].
  - assert (Hp : exists p, nth_error (p_tasks (st t)) id = Some p).
    { destruct (v_run _ _ (st_inv t) _ _ Hj) as [A _]. apply (started_lt _ _ _ (st_inv t)) in A.
      destruct (nth_error (p_tasks (st t)) id) eqn:E; eauto. apply nth_error_None in E. lia. }
    destruct Hp as [p Hp]. apply (running (waiting d W k) (advanced d W k) j id) with p; auto.
    intros s c s' Hv HJ Hr E. destruct (weight_step _ _ _ _ _ _ _ Hv HJ E) as [A|(A & B & _)]; auto.
    left. rewrite B. auto.
  - apply (until_worker (fun s => waiting d W k s /\ nth_error (p_workers s) j = Some w /\
      (p_mutex s = None \/ p_mutex s = Some j)) (advanced d W k) j); auto.
    + intros s c s' Hv (A & B & C) Nc E.
      destruct (weight_step _ _ _ _ _ _ _ Hv A E) as [D|(D1 & D2 & D3 & _)]; auto. left. rewrite D2, D3. auto.
    + intros s Hv (A & B & C). right.
      assert (S : exists s', pool_step s (Worker j) = Step s').
      { cbn. unfold worker_step, go. rewrite B. pose proof (v_hold _ _ Hv j w B) as Hh.
        destruct w as [| |id| | | | | |]; eauto; try congruence.
        - destruct (p_queue s); eauto.
        - destruct C as [->|C]; eauto. apply Hh in C. discriminate.
        - destruct (p_done s); eauto.
        - destruct C as [->|C]; eauto. apply Hh in C. discriminate. }
      destruct S as [s' S]. exists s'. split; auto.
      destruct (weight_step _ _ _ _ _ _ _ Hv A S) as [D|(_ & _ & _ & D)]; auto.
      destruct (D j eq_refl) as [id E]. rewrite B in E. inversion E. exfalso. eapply NR; eauto.
Qed.

(** The next task is started, unless the flag is raised. *)
Lemma starts_next t : p_done (st t) = false -> length (p_started (st t)) < length (p_tasks (st t)) ->
  exists t', t <= t' /\ (length (p_started (st t)) < length (p_started (st t')) \/ p_done (st t') = true).
Proof.
  intros D L. remember (length (p_started (st t))) as k eqn:Ek.
  assert (Main : forall W t, waiting false W k (st t) ->
    exists t', t <= t' /\ (k < length (p_started (st t')) \/ p_done (st t') = true)).
  { clear t D L Ek. induction W as [W IH] using lt_wf_ind. intros t Hw.
    assert (Hd : p_done (st t) = false) by apply Hw.
    destruct (advances false W k t Hw) as (t' & L' & [(A & B & C)|(_ & A)]).
    - pose proof (v_len _ _ (st_inv t)) as Hl. destruct (p_workers (st t)) as [|w ws] eqn:Ew; [cbn in Hl; lia|].
      exists 0, w. split; auto. intros ->.
      destruct (v_script _ _ (st_inv t)) as [(_ & N & _)|(N & _)]; [|congruence].
      apply (N 0). rewrite Ew. reflexivity.
    - destruct (IH _ A t') as (t2 & L2 & R); [split; auto|]. exists t2. split; [lia|auto].
    - exists t'. auto. }
  apply (Main (sum_weights false (p_workers (st t)))). split; auto.
Qed.

Lemma started_mono t t' : t <= t' -> length (p_started (st t)) <= length (p_started (st t')).
Proof.
  induction 1 as [|t' L IH]; auto. etransitivity; [exact IH|].
  destruct (st_step t') as [(s' & E & ->)|(E & ->)]; auto.
  destruct (sched t') as [h|j]; cbn in E.
  - unfold client_step in E. destruct (p_script (st t')) as [|act rest]; [discriminate|].
    destruct act as [q| |x|q| | |j]; try (inversion E; subst s'; cbn; auto; fail).
    + destruct (nth_error (p_ready (st t')) x) as [[|]|]; try discriminate. inversion E; subst s'; auto.
    + destruct q as [a|b z k'|b z v k'|b z k'|b z x k'|]; cbn [step] in E;
        repeat match type of E with
        | match ?d with _ => _ end = _ => destruct d; try discriminate
        end; inversion E; subst s'; auto.
    + destruct (nth_error (p_workers (st t')) j) as [[]|]; try discriminate. inversion E; subst s'; auto.
  - unfold worker_step, go in E.
    destruct (nth_error (p_workers (st t')) j) as [[| |id| | | | | |]|]; try discriminate;
      try (inversion E; subst s'; cbn; auto; fail).
    + destruct (p_queue (st t')); inversion E; subst s'; cbn; auto. rewrite app_length. lia.
    + destruct (nth_error (p_tasks (st t')) id) as [q|]; [|discriminate].
      destruct q as [a|b z k'|b z v k'|b z k'|b z x k'|]; cbn [step] in E;
        repeat match type of E with
        | match ?d with _ => _ end = _ => destruct d; try discriminate
        end; inversion E; subst s'; auto.
    + destruct (p_mutex (st t')); inversion E; subst s'; auto.
    + destruct (p_done (st t')); inversion E; subst s'; auto.
    + destruct (p_mutex (st t')); inversion E; subst s'; auto.
Qed.

Lemma mono t t' : t <= t' ->
  (forall id, nth_error (p_ready (st t)) id = Some true -> nth_error (p_ready (st t')) id = Some true) /\
  (forall i, nth_error (p_workers (st t)) i = Some WExit -> nth_error (p_workers (st t')) i = Some WExit) /\
  (p_done (st t) = true -> p_done (st t') = true) /\
  length (p_tasks (st t)) <= length (p_tasks (st t')).
Proof.
  induction 1 as [|t' L (I1 & I2 & I3 & I4)]; [auto|].
  destruct (st_step t') as [(s' & E & ->)|(E & ->)]; [|auto].
  destruct (step_monotone _ _ _ _ (st_inv t') E) as (J1 & J2 & J3 & J4). repeat split; auto. lia.
Qed.

(** A submitted task is started, unless the flag is raised. *)
Lemma is_started id t : id < length (p_tasks (st t)) ->
  exists t', t <= t' /\ (In id (p_started (st t')) \/ p_done (st t') = true).
Proof.
  remember (S id - length (p_started (st t))) as d eqn:Ed. revert t Ed.
  induction d as [d IH] using lt_wf_ind. intros t Ed Hid.
  assert (Pre : forall u, p_started (st u) = List.seq 0 (length (p_started (st u)))).
  { intros u. pose proof (v_order _ _ (st_inv u)) as O.
    assert (Lu : length (p_tasks (st u)) = length (p_started (st u)) + length (p_queue (st u))).
    { apply (f_equal (@length nat)) in O. rewrite app_length, seq_length in O. lia. }
    rewrite Lu, seq_app in O. apply app_prefix in O; auto. rewrite seq_length. auto. }
  destruct (Nat.lt_ge_cases id (length (p_started (st t)))) as [L|L].
  - exists t. split; auto. left. rewrite Pre. apply in_seq. lia.
  - destruct (p_done (st t)) eqn:D; [exists t; auto|].
    destruct (starts_next t D) as (t1 & L1 & [A|A]); [lia| |exists t1; auto].
    destruct (IH (S id - length (p_started (st t1))) ltac:(lia) t1 eq_refl) as (t2 & L2 & R).
    + destruct (mono t t1 L1) as (_ & _ & _ & M). lia.
    + exists t2. split; [lia|auto].
Qed.

(** A started task completes. *)
Lemma completes id t : In id (p_started (st t)) ->
  exists t', t <= t' /\ nth_error (p_ready (st t')) id = Some true.
Proof.
  intros H. destruct (v_started _ _ (st_inv t) id H) as [A|(i & A)]; [exists t; auto|].
  assert (Hp : exists p, nth_error (p_tasks (st t)) id = Some p).
  { apply (started_lt _ _ _ (st_inv t)) in H.
    destruct (nth_error (p_tasks (st t)) id) eqn:E; eauto. apply nth_error_None in E. lia. }
  destruct Hp as [p Hp].
  apply (running (fun s => In id (p_started s)) (fun s => nth_error (p_ready s) id = Some true) i id) with p; auto.
  intros s c s' Hv HJ Hr E.
  assert (Hv' := pinv_step _ _ _ _ Hv E).
  assert (Hin : In id (p_started s')).
  { clear -HJ E. destruct c as [h|j]; cbn in E.
    - unfold client_step in E. destruct (p_script s) as [|act rest]; [discriminate|].
      destruct act as [q| |x|q| | |j]; try (inversion E; subst s'; cbn; auto; fail).
      + destruct (nth_error (p_ready s) x) as [[|]|]; try discriminate. inversion E; subst s'; auto.
      + destruct q as [a|b z k'|b z v k'|b z k'|b z x k'|]; cbn [step] in E;
          repeat match type of E with
          | match ?d with _ => _ end = _ => destruct d; try discriminate
          end; inversion E; subst s'; auto.
      + destruct (nth_error (p_workers s) j) as [[]|]; try discriminate. inversion E; subst s'; auto.
    - unfold worker_step, go in E.
      destruct (nth_error (p_workers s) j) as [[| |id'| | | | | |]|]; try discriminate;
        try (inversion E; subst s'; cbn; auto; fail).
      + destruct (p_queue s); inversion E; subst s'; cbn; auto. apply in_or_app; auto.
      + destruct (nth_error (p_tasks s) id') as [q|]; [|discriminate].
        destruct q as [a|b z k'|b z v k'|b z k'|b z x k'|]; cbn [step] in E;
          repeat match type of E with
          | match ?d with _ => _ end = _ => destruct d; try discriminate
          end; inversion E; subst s'; auto.
      + destruct (p_mutex s); inversion E; subst s'; auto.
      + destruct (p_done s); inversion E; subst s'; auto.
      + destruct (p_mutex s); inversion E; subst s'; auto. }
  destruct (v_started _ _ Hv' id Hin) as [B|(j & B)]; auto. left. split; auto.
  (* The worker is still the same. *)
  assert (Hp' : exists p, nth_error (p_tasks s) id = Some p).
  { apply (started_lt _ _ _ Hv) in HJ. destruct (nth_error (p_tasks s) id) eqn:E'; eauto. apply nth_error_None in E'. lia. }
  destruct Hp' as [p' Hp'].
  assert (Dec : c = Worker i \/ c <> Worker i).
  { destruct c as [h|j']; [right; discriminate|]. destruct (Nat.eq_dec j' i); [left; congruence|right; congruence]. }
  destruct Dec as [->|Nc]; [|exact (proj1 (keeps_running _ _ _ _ _ _ _ Hv E Nc Hr Hp'))].
  cbn in E. unfold worker_step in E. rewrite Hr, Hp' in E.
  destruct p' as [a|b z k'|b z v k'|b z k'|b z x k'|]; cbn [step] in E;
    repeat match type of E with
    | match ?d with _ => _ end = _ => destruct d; try discriminate
    end; inversion E; subst s'; auto.
  cbn in B. apply rep_inv in B as [[_ B]|[Nj B]]; [discriminate|]. exfalso. apply Nj.
  eapply (v_inj _ _ Hv); eauto.
Qed.

(** After the flag has been raised all workers exit. *)
Lemma all_exit t : p_done (st t) = true -> exists t', t <= t' /\
  forall i, i < n -> nth_error (p_workers (st t')) i = Some WExit.
Proof.
  intros D.
  assert (Main : forall W t, waiting true W 0 (st t) -> exists t', t <= t' /\
    forall i, i < n -> nth_error (p_workers (st t')) i = Some WExit).
  { clear t D. induction W as [W IH] using lt_wf_ind. intros t Hw.
    destruct (Nat.eq_dec W 0) as [->|N].
    - exists t. split; auto. intros i Hi. rewrite <- (v_len _ _ (st_inv t)) in Hi.
      destruct (nth_error (p_workers (st t)) i) as [w|] eqn:E; [|apply nth_error_None in E; lia].
      f_equal. eapply sum_zero; eauto. apply Hw.
    - destruct (advances true W 0 t Hw) as (t' & L' & [(A & B & C)|(A & _)]).
      + destruct Hw as (HW & _). clear -HW N. revert W HW N.
        induction (p_workers (st t)) as [|w ws IH]; intros W HW N; cbn in HW; [lia|].
        destruct w; try (exists 0; eexists; split; [reflexivity|discriminate]).
        cbn in HW. destruct (IH W HW N) as (i & w & A & B). exists (S i), w. auto.
      + destruct (IH _ A t') as (t2 & L2 & R); [split; auto|]. exists t2. split; [lia|auto].
      + discriminate. }
  apply (Main (sum_weights true (p_workers (st t)))). split; auto. split; auto. discriminate.
Qed.

(** The script only changes by steps of the client. *)
Lemma script_until t t' : t <= t' -> p_script (st t') = p_script (st t) \/
  exists u h s', t <= u < t' /\ p_script (st u) = p_script (st t) /\
    pool_step (st u) (Client h) = Step s' /\ st (S u) = s'.
Proof.
  induction 1 as [|t' L IH]; auto. destruct IH as [IH|(u & h & s' & A & B)].
  - destruct (st_step t') as [(s' & E & Es)|(E & Es)].
    + destruct (sched t') as [h|j] eqn:Ec.
      * right. exists t', h, s'. split; [lia|]. auto.
      * left. rewrite Es. rewrite (worker_script _ _ _ E). auto.
    + left. rewrite Es. auto.
  - right. exists u, h, s'. split; [lia|auto].
Qed.

Lemma do_ends rest : forall p t, p_script (st t) = Do p :: rest -> exists t', t <= t' /\ p_script (st t') = rest.
Proof.
  assert (Sub : forall p (P : prog V unit -> Prop) t, p_script (st t) = Do p :: rest ->
    (forall s h, p_script s = Do p :: rest -> client_step s h = Fault \/
      exists s' q, client_step s h = Step s' /\ P q /\ p_script s' = Do q :: rest) ->
    exists t' q, t <= t' /\ P q /\ p_script (st t') = Do q :: rest).
  { intros p P t E Hs.
    destruct (until_client (fun s => p_script s = Do p :: rest)
                (fun s => exists q, P q /\ p_script s = Do q :: rest) t) as (t' & L & q & A & B); auto.
    - intros s i s' Hv Hp Ew. left. rewrite (worker_script _ _ _ Ew). auto.
    - intros s h Hv Hp. destruct (Hs s h Hp) as [F|(s' & q & A & B & C)]; eauto 6.
    - exists t', q. auto. }
  induction p as [a|b z k IH|b z v p IH|b z k IH|b z x p IH|]; intros t E.
  - apply (until_client (fun s => p_script s = Do (Ret a) :: rest) (fun s => p_script s = rest)); auto.
    + intros s i s' Hv Hp Ew. left. rewrite (worker_script _ _ _ Ew). auto.
    + intros s h Hv Hp. right. cbn. unfold client_step. rewrite Hp. eauto.
  - destruct (Sub _ (fun q => exists v, q = k v) t E) as (t' & q & L & (v & ->) & E').
    + intros s h Hp. unfold client_step. rewrite Hp. cbn [step]. destruct (mval (p_mem s) b z) as [u|]; [right; do 2 eexists; split; [reflexivity|]; split; [|reflexivity]; eauto|left; reflexivity].
    + destruct (IH _ t' E') as (t2 & L2 & E2). exists t2. split; [lia|auto].
  - destruct (Sub _ (fun q => q = p) t E) as (t' & q & L & -> & E').
    + intros s h Hp. unfold client_step. rewrite Hp. cbn [step]. destruct (mval (p_mem s) b z) as [u|]; [right; do 2 eexists; split; [reflexivity|]; split; [|reflexivity]; eauto|left; reflexivity].
    + destruct (IH t' E') as (t2 & L2 & E2). exists t2. split; [lia|auto].
  - destruct (Sub _ (fun q => exists v, q = k v) t E) as (t' & q & L & (v & ->) & E').
    + intros s h Hp. unfold client_step. rewrite Hp. cbn [step]. destruct (mmsk (p_mem s) b z) as [u|]; [right; do 2 eexists; split; [reflexivity|]; split; [|reflexivity]; eauto|left; reflexivity].
    + destruct (IH _ t' E') as (t2 & L2 & E2). exists t2. split; [lia|auto].
  - destruct (Sub _ (fun q => q = p) t E) as (t' & q & L & -> & E').
    + intros s h Hp. unfold client_step. rewrite Hp. cbn [step]. destruct (mmsk (p_mem s) b z) as [u|]; [right; do 2 eexists; split; [reflexivity|]; split; [|reflexivity]; eauto|left; reflexivity].
    + destruct (IH t' E') as (t2 & L2 & E2). exists t2. split; [lia|auto].
  - apply (until_client (fun s => p_script s = Do UB :: rest) (fun s => p_script s = rest)); auto.
    + intros s i s' Hv Hp Ew. left. rewrite (worker_script _ _ _ Ew). auto.
    + intros s h Hv Hp. left. cbn. unfold client_step. rewrite Hp. reflexivity.
Qed.

(** The client gets to the end of its script. *)
Lemma script_ends : forall sc t, p_script (st t) = sc -> exists t', t <= t' /\ p_script (st t') = [].
Proof.
  induction sc as [|act rest IH]; intros t Es; [exists t; auto|].
  (* It is enough that the client takes a step. *)
  assert (Enough : (exists t', t <= t' /\ p_script (st t') = rest) -> exists t', t <= t' /\ p_script (st t') = []).
  { intros (t1 & L1 & E1). destruct (IH t1 E1) as (t2 & L2 & E2). exists t2. split; [lia|auto]. }
  assert (Simple : (forall s h, p_script s = act :: rest -> exists s', client_step s h = Step s' /\ p_script s' = rest) ->
    exists t', t <= t' /\ p_script (st t') = []).
  { intros Hs. apply Enough.
    apply (until_client (fun s => p_script s = act :: rest) (fun s => p_script s = rest)); auto.
    - intros s i s' Hv Hp E. left. rewrite (worker_script _ _ _ E). auto.
    - intros s h Hv Hp. right. cbn. destruct (Hs s h Hp) as (s' & A & B). eauto. }
  (* The client waits for something that happens at [t']. *)
  assert (Blocking : forall (cond : pool V -> Prop),
    (forall t1, p_script (st t1) = act :: rest -> exists t', t1 <= t' /\ (p_script (st t') = act :: rest -> cond (st t'))) ->
    (forall s h, p_script s = act :: rest -> match client_step s h with Step s' => p_script s' = rest | _ => True end) ->
    (forall s h, p_script s = act :: rest -> cond s -> client_step s h <> Blocked /\ client_step s h <> Fault) ->
    (forall s c s', pinv n s -> pool_step s c = Step s' -> cond s -> cond s') ->
    exists t', t <= t' /\ p_script (st t') = []).
  { intros cond H1 H2 H3 H4. apply Enough. destruct (H1 t Es) as (t' & L & Hc).
    destruct (script_until t t' L) as [E|(u & h & s' & Lu & E1 & E2 & E3)].
    - rewrite Es in E. specialize (Hc E).
      destruct (until_client (fun s => p_script s = act :: rest /\ cond s) (fun s => p_script s = rest) t') as (t2 & L2 & R); auto.
      + intros s i s' Hv [Hp Hcs] Ew. left. rewrite (worker_script _ _ _ Ew). split; auto. eapply H4; eauto.
      + intros s h Hv [Hp Hcs]. right. cbn. specialize (H2 s h Hp). destruct (H3 s h Hp Hcs).
        destruct (client_step s h) as [s'| |]; try congruence. eauto.
      + exists t2. split; [lia|auto].
    - exists (S u). split; [lia|]. rewrite E3. specialize (H2 (st u) h). cbn in E2. rewrite E2 in H2.
      apply H2. congruence. }
  destruct act as [p| |id|p| | |j].
  - apply Simple. intros s h E. unfold client_step. rewrite E. eauto.
  - apply Simple. intros s h E. unfold client_step. rewrite E. eauto.
  - (* Wait *)
    apply (Blocking (fun s => nth_error (p_ready s) id = Some true)).
    + intros t1 E1.
      destruct (v_script _ _ (st_inv t1)) as [(A & B & C)|(A & [B|(k & B & _)])].
      * rewrite E1 in C. destruct C as [Hid _].
        destruct (is_started id t1 Hid) as (t2 & L2 & [S2|D2]).
        -- destruct (completes id t2 S2) as (t3 & L3 & R3). exists t3. split; [lia|auto].
        -- exists t2. split; auto. intros E2.
           destruct (v_script _ _ (st_inv t2)) as [(A' & _)|(_ & [B'|(k & B' & _)])]; [congruence| |].
           ++ rewrite E2 in B'. discriminate.
           ++ rewrite E2 in B'. destruct (List.seq k (n - k)); discriminate.
      * rewrite E1 in B. discriminate.
      * rewrite E1 in B. destruct (List.seq k (n - k)); discriminate.
    + intros s h E. unfold client_step. rewrite E. destruct (nth_error (p_ready s) id) as [[|]|]; auto.
    + intros s h E R. unfold client_step. rewrite E, R. split; discriminate.
    + intros s c s' Hv E R. apply (step_monotone _ _ _ _ Hv E); auto.
  - (* Do *)
    apply Enough. apply do_ends with p. auto.
  - apply Simple. intros s h E. unfold client_step. rewrite E. eauto.
  - apply Simple. intros s h E. unfold client_step. rewrite E. eauto.
  - (* Join *)
    apply (Blocking (fun s => nth_error (p_workers s) j = Some WExit)).
    + intros t1 E1.
      destruct (v_script _ _ (st_inv t1)) as [(A & B & C)|(A & [B|(k & B & _)])].
      * rewrite E1 in C. destruct C.
      * rewrite E1 in B. discriminate.
      * rewrite E1 in B. destruct (all_exit t1 A) as (t2 & L2 & X). exists t2. split; auto. intros _. apply X.
        assert (G : In (@Join V j) (map Join (List.seq k (n - k)))) by (rewrite <- B; left; auto).
        apply in_map_iff in G as (x & Ex & Hx). inversion Ex; subst x. apply in_seq in Hx. lia.
    + intros s h E. unfold client_step. rewrite E. destruct (nth_error (p_workers s) j) as [[]|]; auto.
    + intros s h E R. unfold client_step. rewrite E, R. split; discriminate.
    + intros s c s' Hv E R. apply (step_monotone _ _ _ _ Hv E); auto.
Qed.

End Run.
End Live.
