(** * Proofs about the thread-safe queue *)
From Coq Require Import List Bool Arith Lia.
From Verif Require Import QueueModel QueueSpec.
Import ListNotations.

Lemma set_nth_same {X} (l : list X) k x : k < length l -> nth_error (set_nth l k x) k = Some x.
Proof. revert k; induction l as [|y l IH]; intros [|k] H; cbn in *; auto; try lia. apply IH; lia. Qed.
Lemma set_nth_other {X} (l : list X) k j x : j <> k -> nth_error (set_nth l k x) j = nth_error l j.
Proof. revert k j; induction l as [|y l IH]; intros [|k] [|j] H; cbn; auto; try lia. Qed.
Lemma set_nth_length {X} (l : list X) k x : length (set_nth l k x) = length l.
Proof. revert k; induction l as [|y l IH]; intros [|k]; cbn; auto. Qed.
Lemma nth_error_lt {X} (l : list X) k x : nth_error l k = Some x -> k < length l.
Proof. intros H. apply nth_error_Some. congruence. Qed.
Lemma set_nth_inv {X} (l : list X) k x j y : nth_error (set_nth l k x) j = Some y ->
  (j = k /\ y = x) \/ (j <> k /\ nth_error l j = Some y).
Proof.
  intros H. destruct (Nat.eq_dec j k) as [->|N].
  - left. split; auto. rewrite set_nth_same in H; [congruence|].
    apply nth_error_lt in H. rewrite set_nth_length in H. auto.
  - right. rewrite set_nth_other in H; auto.
Qed.

Lemma before_snoc {X} (l : list X) z x y :
  before (l ++ [z]) x y <-> before l x y \/ (In x l /\ y = z).
Proof.
  split.
  - intros (l1 & l2 & l3 & E). destruct (exists_last (l := y :: l3)) as (l3' & z' & E3); [discriminate|].
    replace (l1 ++ x :: l2 ++ y :: l3) with ((l1 ++ x :: l2) ++ y :: l3) in E by (rewrite <- app_assoc; auto).
    rewrite E3, app_assoc in E. apply app_inj_tail in E as [E ->].
    destruct l3' as [|y' l3'].
    + right. cbn in E3. inversion E3; subst. split; auto. rewrite app_nil_r. apply in_or_app; right; left; auto.
    + left. inversion E3; subst. exists l1, l2, l3'. rewrite <- app_assoc. auto.
  - intros [(l1 & l2 & l3 & ->)|[H ->]].
    + exists l1, l2, (l3 ++ [z]). rewrite <- app_assoc. cbn. rewrite <- app_assoc. auto.
    + apply in_split in H as (l1 & l2 & ->). exists l1, l2, []. rewrite <- app_assoc. auto.
Qed.

Section Queue.
Context {T : Type}.
Implicit Types (s : qstate T) (lin : list (opid * qop T * qres T)) (content : list T).

Definition cid (c : opid * qop T * qres T) : opid := fst (fst c).

Lemma fifo_snoc lin id op r : forall l l', fifo_history l lin l' -> snd (fifo l' op) = r ->
  fifo_history l (lin ++ [(id, op, r)]) (fst (fifo l' op)).
Proof.
  induction lin as [|[[i o] q] lin IH]; intros l l' H E; cbn in *.
  - subst. auto.
  - destruct H as [H1 H2]. split; auto.
Qed.

Lemma fifo_values lin : forall l l', fifo_history l lin l' -> l ++ pushed lin = popped lin ++ l'.
Proof.
  unfold pushed, popped. induction lin as [|[[i o] q] lin IH]; intros l l' H; cbn in *.
  - subst. rewrite app_nil_r. auto.
  - destruct H as [H1 H2]. specialize (IH _ _ H2). subst q.
    destruct o as [v| |], l as [|x l]; cbn [fifo fst snd flat_map app] in *; rewrite <- IH; auto;
      rewrite <- app_assoc; auto.
Qed.

Definition holds_lock (pc : qpc T) : bool :=
  match pc with Inside _ | AtFront _ | Unlock _ _ => true | _ => false end.

(** What is known of thread [i] at [pc]. *)
Definition thread_ok s lin (i : nat) (t : qthread T) : Prop :=
  let cur := (i, pred (q_calls t)) in
  let pending op := q_calls t <> 0 /\ In (Call cur op) (q_history s) /\ ~ In cur (map cid lin) in
  match q_pc t with
  | Outside => True
  | Lock op | Inside op => pending op
  | AtFront _ => pending TryPop
  | Unlock op r => q_calls t <> 0 /\ In (cur, op, r) lin
  | Leaving r => q_calls t <> 0 /\ exists op, In (cur, op, r) lin
  end.

Definition data_ok s content : Prop :=
  match q_lock s with
  | None => q_data s = map Some content
  | Some i =>
      exists t, nth_error (q_threads s) i = Some t /\ holds_lock (q_pc t) = true /\
      match q_pc t with
      | AtFront v => exists x rest, content = x :: rest /\ v = Some x /\ q_data s = None :: map Some rest
      | _ => q_data s = map Some content
      end
  end.

Record inv s lin content : Prop := {
  i_fifo : fifo_history [] lin content;
  i_data : data_ok s content;
  i_lock : forall i t, nth_error (q_threads s) i = Some t -> holds_lock (q_pc t) = true ->
    q_lock s = Some i;
  i_threads : forall i t, nth_error (q_threads s) i = Some t -> thread_ok s lin i t;
  i_lin : forall i k, In (i, k) (map cid lin) -> exists t, nth_error (q_threads s) i = Some t /\ k < q_calls t;
  i_hist : linearizes (q_history s) lin }.

Lemma inv_init scripts : inv (q_init scripts) [] [].
Proof.
  constructor; cbn.
  - auto.
  - reflexivity.
  - intros i t H. rewrite nth_error_map in H. destruct (nth_error scripts i); inversion H; discriminate.
  - intros i t H. rewrite nth_error_map in H. destruct (nth_error scripts i); inversion H; exact I.
  - tauto.
  - split; [constructor|]. split; [intros ? ? ? []|]. split; [intros ? ? []|]. intros ? ? ? ? ? ? [].
Qed.

(** The history grows by a call. *)
Lemma lin_call h lin id op : linearizes h lin -> ~ In id (map cid lin) ->
  linearizes (h ++ [Call id op]) lin.
Proof.
  intros (H1 & H2 & H3 & H4) N. split; auto. split; [|split].
  - intros. apply in_or_app. left. eauto.
  - intros id' r' H. apply in_app_or in H as [H|[H|[]]]; [eauto|discriminate].
  - intros id1 r id2 op2 H c Hc E. apply before_snoc in H as [H|[_ H]]; [eauto|].
    inversion H; subst. exfalso. apply N. apply in_map_iff. exists c. auto.
Qed.
(** The history grows by a return. *)
Lemma lin_return h lin id op r : linearizes h lin -> In (id, op, r) lin ->
  linearizes (h ++ [Return id r]) lin.
Proof.
  intros (H1 & H2 & H3 & H4) N. split; auto. split; [|split].
  - intros. apply in_or_app. left. eauto.
  - intros id' r' H. apply in_app_or in H as [H|[H|[]]]; [eauto|inversion H; subst; eauto].
  - intros id1 r1 id2 op2 H c Hc E. apply before_snoc in H as [H|[_ H]]; [eauto|discriminate].
Qed.
(** A call takes effect. *)
Lemma lin_effect h lin id op r : linearizes h lin -> In (Call id op) h -> ~ In id (map cid lin) ->
  linearizes h (lin ++ [(id, op, r)]).
Proof.
  intros (H1 & H2 & H3 & H4) Hc N. split; [|split; [|split]].
  - rewrite map_app. cbn. apply NoDup_Add with (a := id) (l := map cid lin); [|auto].
    replace (map cid lin) with (map cid lin ++ []) at 1 by apply app_nil_r. apply Add_app.
  - intros id' op' r' H. apply in_app_or in H as [H|[H|[]]]; [eauto|]. inversion H; subst; auto.
  - intros id' r' H. destruct (H3 _ _ H) as [op' Ho]. exists op'. apply in_or_app; auto.
  - intros id1 r1 id2 op2 H c Hin E. apply in_app_or in Hin as [Hin|[<-|[]]].
    + destruct (H4 _ _ _ _ H c Hin E) as (c0 & E0 & B). exists c0. split; auto. apply before_snoc; auto.
    + assert (Hr : In (Return id1 r1) h).
      { destruct H as (l1 & l2 & l3 & ->). apply in_or_app. right. left. auto. }
      destruct (H3 _ _ Hr) as [op1 Ho]. exists (id1, op1, r1). split; auto. apply before_snoc; auto.
Qed.

Lemma inv_step s lin content i s' : inv s lin content -> q_step s i = Some s' ->
  exists lin' content', inv s' lin' content'.
Proof.
  intros [If Id Il It In' Ih] E. unfold q_step in E.
  destruct (nth_error (q_threads s) i) as [t|] eqn:Et; [|discriminate].
  pose proof (nth_error_lt _ _ _ Et) as Hlt.
  pose proof (It i t Et) as Ok. unfold thread_ok in Ok.
  (* What holds of the other threads when thread [i] steps. *)
  assert (Oth : forall s2 lin2 j u, j <> i -> nth_error (q_threads s) j = Some u ->
     (forall e, In e (q_history s) -> In e (q_history s2)) ->
     (forall k, In (j, k) (map cid lin2) -> In (j, k) (map cid lin)) ->
     (forall c, In c lin -> In c lin2) -> thread_ok s2 lin2 j u).
  { intros s2 lin2 j u Nj Hu He Hi Hc. specialize (It j u Hu). unfold thread_ok in *.
    destruct (q_pc u); auto.
    - destruct It as (A & B & C). split; auto.
    - destruct It as (A & B & C). split; auto.
    - destruct It as (A & B & C). split; auto.
    - destruct It as (A & B). split; auto.
    - destruct It as (A & op & B). split; eauto. }
  assert (Thr : forall s2 lin2 pc,
     q_threads s2 = at_pc s i t pc -> q_history s2 = q_history s ->
     (forall j k, j <> i -> In (j, k) (map cid lin2) -> In (j, k) (map cid lin)) ->
     (forall c, In c lin -> In c lin2) ->
     thread_ok s2 lin2 i {| q_pc := pc; q_calls := q_calls t; q_todo := q_todo t |} ->
     forall j u, nth_error (q_threads s2) j = Some u -> thread_ok s2 lin2 j u).
  { intros s2 lin2 pc Hs Hh Hi Hc Hme j u Hu. rewrite Hs in Hu. unfold at_pc in Hu.
    apply set_nth_inv in Hu as [[-> ->]|[N Hu]]; auto.
    apply Oth; auto. rewrite Hh; auto. }
  assert (Lk : forall s2 pc, q_threads s2 = at_pc s i t pc ->
     (holds_lock pc = true -> q_lock s2 = Some i) ->
     (q_lock s2 = q_lock s \/ forall j, q_lock s <> Some j \/ j = i) ->
     forall j u, nth_error (q_threads s2) j = Some u -> holds_lock (q_pc u) = true -> q_lock s2 = Some j).
  { intros s2 pc Hs Hp Hl j u Hu Hh. rewrite Hs in Hu. unfold at_pc in Hu.
    apply set_nth_inv in Hu as [[-> ->]|[N Hu]]; auto.
    specialize (Il j u Hu Hh). destruct Hl as [->|Hl]; auto. destruct (Hl j); congruence. }
  assert (Ids : forall s2 lin2 pc, q_threads s2 = at_pc s i t pc ->
     (forall j k, In (j, k) (map cid lin2) -> In (j, k) (map cid lin) \/ (j = i /\ k < q_calls t)) ->
     forall j k, In (j, k) (map cid lin2) -> exists u, nth_error (q_threads s2) j = Some u /\ k < q_calls u).
  { intros s2 lin2 pc Hs Hi j k H. rewrite Hs. unfold at_pc.
    destruct (Nat.eq_dec j i) as [->|N].
    - rewrite set_nth_same by auto. eexists. split; [reflexivity|]. cbn.
      destruct (Hi _ _ H) as [H'|[_ H']]; auto. destruct (In' _ _ H') as (u & Hu & L). congruence.
    - rewrite set_nth_other by auto. destruct (Hi _ _ H) as [H'|[H' _]]; [auto|congruence]. }
  (* A call takes effect and the thread is about to unlock. *)
  assert (Eff : forall op r data',
     q_pc t = Inside op \/ (op = TryPop /\ exists v, q_pc t = AtFront v) ->
     snd (fifo content op) = r -> data' = map Some (fst (fifo content op)) ->
     exists lin' content', inv {| q_data := data'; q_lock := q_lock s;
                  q_threads := at_pc s i t (Unlock op r); q_history := q_history s |} lin' content').
  { intros op r data' Hpc Hr Hd.
    assert (Hp : q_calls t <> 0 /\ In (Call (i, pred (q_calls t)) op) (q_history s) /\
                 ~ In (i, pred (q_calls t)) (map cid lin)).
    { destruct Hpc as [Hpc|[-> [v Hpc]]]; rewrite Hpc in Ok; auto. }
    destruct Hp as (P1 & P2 & P3).
    assert (Hlk : q_lock s = Some i).
    { apply (Il i t Et). destruct Hpc as [->|[_ [v ->]]]; auto. }
    exists (lin ++ [((i, pred (q_calls t)), op, r)]), (fst (fifo content op)). constructor.
    - apply fifo_snoc; auto.
    - unfold data_ok; cbn. rewrite Hlk. unfold at_pc. rewrite set_nth_same by auto.
      eexists. split; [reflexivity|]. split; [reflexivity|]. cbn. exact Hd.
    - eapply Lk; cbn; auto.
    - eapply Thr; cbn; auto.
      + intros j k N H. rewrite map_app in H. apply in_app_or in H as [H|[H|[]]]; auto. inversion H; congruence.
      + intros c H. apply in_or_app; auto.
      + unfold thread_ok; cbn. split; auto. apply in_or_app. right. left. auto.
    - eapply Ids; cbn; [reflexivity|]. intros j k H. rewrite map_app in H.
      apply in_app_or in H as [H|[H|[]]]; auto. inversion H; subst. right. split; auto. lia.
    - apply lin_effect; auto. }
  destruct (q_pc t) as [|op|op|v|op r|r] eqn:Epc.
  - (* Outside *)
    destruct (q_todo t) as [|op todo] eqn:Etodo; [discriminate|]. inversion E; subst s'; clear E.
    assert (Fresh : ~ In (i, q_calls t) (map cid lin)).
    { intros H. destruct (In' _ _ H) as (u & Hu & L). rewrite Et in Hu. inversion Hu; subst. lia. }
    exists lin, content. constructor; [exact If|..].
    + unfold data_ok in *; cbn. destruct (q_lock s) as [j|] eqn:El; auto.
      destruct Id as (u & Hu & Hh & Hd). destruct (Nat.eq_dec j i) as [->|N].
      * rewrite Et in Hu. inversion Hu; subst. rewrite Epc in Hh. discriminate.
      * exists u. rewrite set_nth_other by auto. auto.
    + cbn. intros j u Hu Hh. apply set_nth_inv in Hu as [[-> ->]|[N Hu]]; [discriminate|eauto].
    + cbn [q_threads]. intros j u Hu. apply set_nth_inv in Hu as [[-> ->]|[N Hu]].
      * unfold thread_ok; cbn. split; [lia|]. split; auto. apply in_or_app; right; left; auto.
      * apply Oth; auto. cbn. intros e He. apply in_or_app; auto.
    + cbn. intros j k H. destruct (In' _ _ H) as (u & Hu & L). destruct (Nat.eq_dec j i) as [->|N].
      * rewrite set_nth_same by auto. eexists; split; [reflexivity|]. cbn.
        rewrite Et in Hu. inversion Hu; subst. lia.
      * rewrite set_nth_other by auto. eauto.
    + apply lin_call; auto.
  - (* Lock *)
    destruct (q_lock s) as [j|] eqn:El; [discriminate|]. inversion E; subst s'; clear E.
    exists lin, content. constructor; [exact If|..].
    + unfold data_ok in *; cbn. rewrite El in Id. unfold at_pc. rewrite set_nth_same by auto.
      eexists. split; [reflexivity|]. split; [reflexivity|]. exact Id.
    + eapply Lk; cbn; auto. right. intros j. left. congruence.
    + eapply Thr; cbn; auto.
    + eapply Ids; cbn; eauto.
    + exact Ih.
  - (* Inside *)
    assert (Hlk : q_lock s = Some i) by (apply (Il i t Et); rewrite Epc; auto).
    assert (Hd : q_data s = map Some content).
    { unfold data_ok in Id. rewrite Hlk in Id. destruct Id as (u & Hu & _ & Hd).
      rewrite Et in Hu. inversion Hu; subst. rewrite Epc in Hd. auto. }
    destruct op as [v| |].
    + inversion E; subst s'. apply (Eff (Push v)); cbn; auto. rewrite Hd, map_app. auto.
    + rewrite Hd in E. destruct content as [|x rest]; cbn [map] in E; inversion E; subst s'.
      * apply (Eff TryPop); cbn; auto.
      * exists lin, (x :: rest). constructor; [exact If|..].
        -- unfold data_ok; cbn. rewrite Hlk. unfold at_pc. rewrite set_nth_same by auto.
           eexists. split; [reflexivity|]. split; [reflexivity|]. cbn. eauto.
        -- eapply Lk; cbn; auto.
        -- eapply Thr; cbn; auto.
        -- eapply Ids; cbn; eauto.
        -- exact Ih.
    + inversion E; subst s'. rewrite Hd. destruct content as [|x rest]; cbn [map]; apply (Eff Empty); cbn; auto.
  - (* AtFront *)
    assert (Hlk : q_lock s = Some i) by (apply (Il i t Et); rewrite Epc; auto).
    unfold data_ok in Id. rewrite Hlk in Id. destruct Id as (u & Hu & _ & Hd).
    rewrite Et in Hu. inversion Hu; subst u. rewrite Epc in Hd. destruct Hd as (x & rest & -> & -> & Hd).
    inversion E; subst s'. rewrite Hd. apply (Eff TryPop); cbn; eauto.
  - (* Unlock *)
    assert (Hlk : q_lock s = Some i) by (apply (Il i t Et); rewrite Epc; auto).
    assert (Hd : q_data s = map Some content).
    { unfold data_ok in Id. rewrite Hlk in Id. destruct Id as (u & Hu & _ & Hd).
      rewrite Et in Hu. inversion Hu; subst. rewrite Epc in Hd. auto. }
    inversion E; subst s'; clear E. exists lin, content.
    constructor; [exact If|..].
    + exact Hd.
    + eapply Lk; cbn; auto; [discriminate|]. right. intros j. rewrite Hlk.
      destruct (Nat.eq_dec j i); auto. left. congruence.
    + eapply Thr; cbn; auto. unfold thread_ok; cbn. destruct Ok. split; eauto.
    + eapply Ids; cbn; eauto.
    + exact Ih.
  - (* Leaving *)
    destruct Ok as (Hc & op & Hin). inversion E; subst s'; clear E. exists lin, content.
    constructor; [exact If|..].
    + unfold data_ok in *; cbn. destruct (q_lock s) as [j|] eqn:El; auto.
      destruct Id as (u & Hu & Hh & Hd). destruct (Nat.eq_dec j i) as [->|N].
      * rewrite Et in Hu. inversion Hu; subst. rewrite Epc in Hh. discriminate.
      * exists u. unfold at_pc. rewrite set_nth_other by auto. auto.
    + cbn. intros j u Hu Hh. unfold at_pc in Hu. apply set_nth_inv in Hu as [[-> ->]|[N Hu]]; [discriminate|eauto].
    + cbn [q_threads]. intros j u Hu. unfold at_pc in Hu. apply set_nth_inv in Hu as [[-> ->]|[N Hu]]; [exact I|].
      apply Oth; auto. cbn. intros e He. apply in_or_app; auto.
    + eapply Ids; cbn; eauto.
    + eapply lin_return; eauto.
Qed.

Lemma inv_run sched : forall s lin content, inv s lin content ->
  exists lin' content', inv (q_run sched s) lin' content'.
Proof.
  induction sched as [|i sched IH]; intros s lin content H; cbn; eauto.
  destruct (q_step s i) as [s'|] eqn:E; [|eauto].
  destruct (inv_step _ _ _ _ _ H E) as (lin' & content' & H'). eauto.
Qed.

(** Every step brings its thread nearer to the end of its script. *)
Definition pc_left (pc : qpc T) : nat :=
  match pc with
  | Outside => 0 | Leaving _ => 1 | Unlock _ _ => 2 | AtFront _ => 3 | Inside _ => 4 | Lock _ => 5
  end.
Definition thread_left (t : qthread T) : nat := 6 * length (q_todo t) + pc_left (q_pc t).
Definition steps_left s : nat := list_sum (map thread_left (q_threads s)).

Lemma sum_set_nth (f : qthread T -> nat) l : forall i t t', nth_error l i = Some t ->
  list_sum (map f (set_nth l i t')) + f t = list_sum (map f l) + f t'.
Proof.
  induction l as [|u l IH]; intros [|i] t t' H; cbn in *; try discriminate.
  - inversion H; subst. lia.
  - specialize (IH i t t' H). unfold list_sum in *. lia.
Qed.

Lemma step_decreases s i s' : q_step s i = Some s' -> steps_left s' < steps_left s.
Proof.
  unfold q_step, steps_left. destruct (nth_error (q_threads s) i) as [t|] eqn:Et; [|discriminate].
  intros E.
  assert (G : forall t', q_threads s' = set_nth (q_threads s) i t' -> thread_left t' < thread_left t ->
     list_sum (map thread_left (q_threads s')) < list_sum (map thread_left (q_threads s))).
  { intros t' -> L. pose proof (sum_set_nth thread_left _ _ _ t' Et). lia. }
  unfold at_pc in E.
  destruct (q_pc t) as [|op|op|v|op r|r] eqn:Epc.
  - destruct (q_todo t) as [|op todo] eqn:Etodo; [discriminate|]. inversion E; subst s'.
    eapply G; [reflexivity|]. unfold thread_left; cbn. rewrite Epc, Etodo. cbn. lia.
  - destruct (q_lock s); [discriminate|]. inversion E; subst s'.
    eapply G; [reflexivity|]. unfold thread_left; cbn. rewrite Epc. cbn. lia.
  - destruct op as [v| |]; [|destruct (q_data s)|]; inversion E; subst s';
      (eapply G; [reflexivity|]; unfold thread_left; cbn; rewrite Epc; cbn; lia).
  - inversion E; subst s'. eapply G; [reflexivity|]. unfold thread_left; cbn. rewrite Epc. cbn. lia.
  - inversion E; subst s'. eapply G; [reflexivity|]. unfold thread_left; cbn. rewrite Epc. cbn. lia.
  - inversion E; subst s'. eapply G; [reflexivity|]. unfold thread_left; cbn. rewrite Epc. cbn. lia.
Qed.

Lemma can_step s lin content i t : inv s lin content -> nth_error (q_threads s) i = Some t ->
  thread_left t <> 0 -> exists j s', q_step s j = Some s'.
Proof.
  intros [If Id Il It In' Ih] Et L.
  destruct (q_lock s) as [j|] eqn:El.
  - unfold data_ok in Id. rewrite El in Id. destruct Id as (u & Hu & Hh & _).
    exists j. unfold q_step. rewrite Hu. destruct (q_pc u) as [|op|[v| |]|v|op r|r]; try discriminate; eauto.
    destruct (q_data s); eauto.
  - exists i. unfold q_step. rewrite Et, El. unfold thread_left in L.
    destruct (q_pc t) as [|op|[v| |]|v|op r|r]; eauto.
    + destruct (q_todo t); [cbn in L; lia|eauto].
    + destruct (q_data s); eauto.
Qed.
End Queue.
