(** * The pool executes the tasks of a call, interleaved, and then continues *)
From Coq Require Import ZArith List Bool Arith Lia.
From Verif Require Import LangModel ConcModel ConcProofs LoopModel LoopSpec PoolModel PoolSpec PoolProofs PoolLive.
Import ListNotations.
Open Scope nat_scope.

Section Sim.
Context {V : Type}.
Implicit Types (s : pool V) (calls : list (list (prog V unit) * prog V unit)).

Lemma proper_calls n tail : forall calls base,
  (forall b, proper n b tail) -> @proper V n base (par_calls base calls ++ tail).
Proof.
  intros calls base Ht. revert base.
  induction calls as [|[tasks join] calls IH]; intros base; cbn [par_calls app]; auto.
  unfold par_call. rewrite <- !app_assoc.
  assert (W : forall k l X, (forall x, In x l -> x < k) -> proper n k X -> @proper V n k (map Wait l ++ X)).
  { intros k l X Hl HX. induction l as [|x l IHl]; cbn; auto. split; [apply Hl; left; auto|].
    apply IHl. intros; apply Hl; right; auto. }
  assert (S : forall ts k X, @proper V n (k + length ts) X -> proper n k (flat_map submit ts ++ X)).
  { induction ts as [|t ts IHt]; intros k X HX; cbn in *; [rewrite Nat.add_0_r in HX; auto|].
    apply IHt. replace (S k + length ts) with (k + S (length ts)) by lia. auto. }
  apply S. apply W; [intros x Hx; apply in_seq in Hx; lia|]. cbn. apply IH.
Qed.
Lemma proper_destruct n b : @proper V n b (destruct_pool n).
Proof. reflexivity. Qed.

(** What a step of a worker does to tasks and memory. *)
Lemma worker_effect s i s' : pool_step s (Worker i) = Step s' ->
  p_script s' = p_script s /\
  ((p_tasks s' = p_tasks s /\ p_mem s' = p_mem s) \/
   exists id p p' m', nth_error (p_tasks s) id = Some p /\ p <> Ret tt /\
     step p (p_mem s) = Some (p', m') /\ p_tasks s' = replace_nth (p_tasks s) id p' /\ p_mem s' = m').
Proof.
  intros E. split; [eapply worker_script; eauto|]. cbn in E. unfold worker_step, go in E.
  destruct (nth_error (p_workers s) i) as [[| |id| | | | | |]|]; try discriminate.
  - inversion E; auto.
  - destruct (p_queue s); inversion E; auto.
  - destruct (nth_error (p_tasks s) id) as [q|] eqn:Et; [|discriminate].
    destruct (step q (p_mem s)) as [[q' m']|] eqn:Eq.
    + destruct q as [a|b z k'|b z v k'|b z k'|b z x k'|]; inversion E; subst s'; cbn; auto;
        right; do 4 eexists; (split; [exact Et|]; split; [discriminate|]; split; [exact Eq|auto]).
    + destruct q; discriminate.
  - destruct (p_mutex s); inversion E; auto.
  - destruct (p_done s); inversion E; auto.
  - inversion E; auto.
  - destruct (p_mutex s); inversion E; auto.
  - inversion E; auto.
Qed.
Lemma worker_fault n s i : pinv n s -> pool_step s (Worker i) = Fault ->
  exists id p, nth_error (p_tasks s) id = Some p /\ p <> Ret tt /\ step p (p_mem s) = None.
Proof.
  intros Hv E. cbn in E. unfold worker_step, go in E.
  destruct (nth_error (p_workers s) i) as [[| |id| | | | | |]|] eqn:Ew; try discriminate.
  - destruct (p_queue s); discriminate.
  - destruct (nth_error (p_tasks s) id) as [q|] eqn:Et.
    + exists id, q. split; auto. destruct (step q (p_mem s)) as [[q' m']|] eqn:Eq.
      * destruct q; discriminate.
      * split; auto. destruct q; discriminate.
    + exfalso. destruct (v_run _ _ Hv _ _ Ew) as [A _]. apply (started_lt _ _ _ Hv) in A.
      apply nth_error_None in Et. lia.
  - destruct (p_mutex s); discriminate.
  - destruct (p_done s); discriminate.
  - destruct (p_mutex s); discriminate.
Qed.

Lemma step_run_eq (p : prog V unit) m p' m' : step p m = Some (p', m') -> run p' m' = run p m.
Proof.
  destruct p as [a|b z k|b z v k|b z k|b z x k|]; cbn; intros E.
  - inversion E; auto.
  - destruct (mval m b z); inversion E; auto.
  - destruct (mval m b z); inversion E; auto.
  - destruct (mmsk m b z); inversion E; auto.
  - destruct (mmsk m b z); inversion E; auto.
  - discriminate.
Qed.

Lemma effects_snoc dn m m1 tasks join sched ps m2 m3 :
  effects dn m m1 -> exec sched tasks m1 = Some (ps, m2) -> all_done ps = true ->
  run join m2 = Some (tt, m3) -> @effects V (dn ++ [(tasks, join)]) m m3.
Proof.
  induction 1 as [m|ts jn cs m m1 m2' m' sc ps' E1 E2 E3 H IH]; intros A B C; cbn.
  - econstructor; eauto. constructor.
  - econstructor; eauto.
Qed.
Lemma never_after dn calls : forall m m1, never_fault (dn ++ calls) m -> effects dn m m1 -> @never_fault V calls m1.
Proof.
  induction dn as [|[ts jn] dn IH]; intros m m1 H E.
  - inversion E; subst. auto.
  - inversion E; subst. cbn in H. destruct H as [_ H].
    match goal with A : exec _ ts m = Some _, B : all_done _ = true |- _ => destruct (H _ _ _ A B) as (mm & G1 & G2) end.
    eapply IH; [|eassumption]. congruence.
Qed.

Definition quiet (tail : list (action V)) : Prop :=
  Forall (fun a => match a with SetDone | NotifyAll | Join _ => True | _ => False end) tail.

Section Calls.
Variables (n : nat) (calls : list (list (prog V unit) * prog V unit)) (tail : list (action V)) (m0 : mem V).
Hypothesis Htail : quiet tail.

Definition continuation (base : nat) rest : list (action V) := par_calls base rest ++ tail.

(** The tasks of a call are being submitted, executed or awaited. *)
Definition active s : Prop :=
  exists dn ts jn rest mA old ps todo sc pre k,
    calls = dn ++ (ts, jn) :: rest /\ effects dn m0 mA /\
    p_tasks s = old ++ ps /\ Forall finished old /\
    exec sc ts mA = Some (ps ++ todo, p_mem s) /\
    p_script s = pre ++ map Wait (List.seq (length old + k) (length ts - k)) ++ Do jn ::
                 continuation (length old + length ts) rest /\
    (pre = flat_map submit todo \/ pre = Notify :: flat_map submit todo) /\
    (k = 0 \/ pre = []) /\ k <= length ts /\
    forall id, id < k -> nth_error ps id = Some (Ret tt).

(** All of its tasks have completed; the client uses their results. *)
Definition joining s : Prop :=
  exists dn ts jn rest mA m1 ps sc p,
    calls = dn ++ (ts, jn) :: rest /\ effects dn m0 mA /\
    exec sc ts mA = Some (ps, m1) /\ all_done ps = true /\
    Forall finished (p_tasks s) /\
    p_script s = Do p :: continuation (length (p_tasks s)) rest /\
    run p (p_mem s) = run jn m1.

Definition ended s : Prop :=
  effects calls m0 (p_mem s) /\ Forall finished (p_tasks s) /\ exists pre, tail = pre ++ p_script s.

Definition sim s : Prop := active s \/ joining s \/ ended s.

Lemma exec_length sc : forall (ts ps : list (prog V unit)) m m', exec sc ts m = Some (ps, m') -> length ps = length ts.
Proof.
  induction sc as [|k sc IH]; intros ts ps m m' E; cbn in E.
  - congruence.
  - unfold step_task in E. destruct (nth_error ts k); [|eauto].
    destruct (step p m) as [[p' m1]|]; [|discriminate]. apply IH in E. rewrite rep_length in E. auto.
Qed.

Lemma finished_nth l id p : Forall finished l -> nth_error l id = Some p -> p = @Ret V unit tt.
Proof. intros F H. rewrite Forall_forall in F. apply F. eapply nth_error_In; eauto. Qed.

(** At the start of the calls [rest], after [dn]. *)
Lemma begin_calls dn rest s : calls = dn ++ rest -> effects dn m0 (p_mem s) -> Forall finished (p_tasks s) ->
  p_script s = continuation (length (p_tasks s)) rest -> sim s.
Proof.
  intros Hc He Hf Hs. destruct rest as [|[ts jn] rest].
  - right. right. rewrite app_nil_r in Hc. subst dn. split; auto. split; auto.
    exists []. cbn in Hs. auto.
  - left. exists dn, ts, jn, rest, (p_mem s), (p_tasks s), [], ts, [], (flat_map submit ts), 0.
    split; auto. split; auto. split; [symmetry; apply app_nil_r|]. split; auto. split; auto.
    split; [|split; [auto|split; [auto|split; [lia|intros; lia]]]].
    rewrite Hs. unfold continuation. cbn [par_calls]. unfold par_call. rewrite <- !app_assoc. cbn [app].
    rewrite Nat.add_0_r, Nat.sub_0_r. reflexivity.
Qed.

Lemma sim_init : sim (pool_init n (par_calls 0 calls ++ tail) m0).
Proof. apply (begin_calls [] calls); cbn; auto; constructor. Qed.

Lemma all_done_finished (ps : list (prog V unit)) : all_done ps = true <-> Forall finished ps.
Proof.
  unfold all_done. rewrite forallb_forall, Forall_forall. unfold finished.
  split; intros H p Hp; specialize (H p Hp); [destruct p as [[]| | | | |]; auto; discriminate|subst; auto].
Qed.

(** A step of a worker. *)
Lemma sim_worker s i s' : sim s -> pool_step s (Worker i) = Step s' -> sim s'.
Proof.
  intros Hs E. destruct (worker_effect _ _ _ E) as [Esc Eff].
  assert (Fin : forall l, Forall finished l -> p_tasks s = l -> p_tasks s' = l /\ p_mem s' = p_mem s).
  { intros l F <-. destruct Eff as [[-> ->]|(id & p & p' & m' & A & B & _)]; auto.
    exfalso. apply B. eapply finished_nth; eauto. }
  destruct Hs as [Hs|[Hs|Hs]].
  - left. destruct Hs as (dn & ts & jn & rest & mA & old & ps & todo & sc & pre & k & A1 & A2 & A3 & A4 & A5 & A6 & A7 & A8 & A9 & A10).
    destruct Eff as [[Et Em]|(id & p & p' & m' & B1 & B2 & B3 & B4 & B5)].
    + exists dn, ts, jn, rest, mA, old, ps, todo, sc, pre, k.
      rewrite Et, Em, Esc. auto 12.
    + assert (Lid : length old <= id).
      { destruct (Nat.lt_ge_cases id (length old)) as [L|L]; auto. exfalso. apply B2.
        rewrite A3, nth_error_app1 in B1 by auto. eapply finished_nth; eauto. }
      rewrite A3, nth_error_app2 in B1 by auto. set (x := id - length old) in *.
      pose proof (nth_lt _ _ _ B1) as Lx.
      assert (R1 : replace_nth (old ++ ps) id p' = old ++ replace_nth ps x p').
      { subst x. clear -Lid. revert id Lid. induction old as [|o old IH]; intros id L; cbn.
        - now rewrite Nat.sub_0_r.
        - destruct id as [|id]; [cbn in L; lia|]. cbn in *. f_equal. apply IH. lia. }
      assert (R2 : replace_nth (ps ++ todo) x p' = replace_nth ps x p' ++ todo).
      { clear -Lx. revert Lx. generalize x. induction ps as [|q ps IH]; intros [|y] L; cbn in *; try lia; auto.
        f_equal. apply IH. lia. }
      exists dn, ts, jn, rest, mA, old, (replace_nth ps x p'), todo, (sc ++ [x]), pre, k.
      rewrite Esc. repeat (split; [now auto|]).
      split; [rewrite B4, A3; exact R1|]. split; auto. split.
      { rewrite exec_app, A5. cbn. unfold step_task. rewrite nth_error_app1, B1, B3 by auto.
        rewrite R2, B5. auto. }
      repeat (split; [now auto|]). intros y Hy. destruct (Nat.eq_dec y x) as [->|N].
      * rewrite A10 in B1 by auto. congruence.
      * rewrite rep_other; auto.
  - right. left. destruct Hs as (dn & ts & jn & rest & mA & m1 & ps & sc & p & A1 & A2 & A3 & A4 & A5 & A6 & A7).
    destruct (Fin _ A5 eq_refl) as [Et Em]. exists dn, ts, jn, rest, mA, m1, ps, sc, p.
    rewrite Et, Em, Esc. auto 12.
  - right. right. destruct Hs as (A & B & C). destruct (Fin _ B eq_refl) as [Et Em].
    unfold ended. rewrite Et, Em, Esc. auto.
Qed.

(** Once all tasks have been waited for. *)
Lemma active_do s p X : active s -> p_script s = Do p :: X -> joining s.
Proof.
  intros (dn & ts & jn & rest & mA & old & ps & todo & sc & pre & k & A1 & A2 & A3 & A4 & A5 & A6 & A7 & A8 & A9 & A10) E.
  rewrite E in A6.
  assert (Hpre : pre = []). { destruct A7 as [->| ->]; auto; [destruct todo; auto|]; discriminate. }
  subst pre. assert (todo = []) by (destruct A7 as [A7|A7]; [destruct todo; [auto|discriminate]|discriminate]). subst todo.
  rewrite app_nil_r in A5. cbn [app] in A6.
  destruct (length ts - k) as [|d] eqn:Ek; [|discriminate]. cbn in A6. injection A6 as -> ->.
  pose proof (exec_length _ _ _ _ _ A5) as Lp. assert (k = length ts) by lia. subst k.
  assert (Fp : Forall finished ps).
  { apply Forall_forall. intros q Hq. apply In_nth_error in Hq as [y Hy].
    pose proof (nth_lt _ _ _ Hy). rewrite A10 in Hy by lia. unfold finished. congruence. }
  exists dn, ts, jn, rest, mA, (p_mem s), ps, sc, jn. split; auto. split; auto. split; auto.
  split; [apply all_done_finished; auto|]. split; [rewrite A3; apply Forall_app; auto|]. split; auto.
  rewrite E, A3, app_length, Lp. reflexivity.
Qed.

Lemma sim_client s h s' : pinv n s -> sim s -> pool_step s (Client h) = Step s' -> sim s'.
Proof.
  intros Hv Hs E. cbn in E. unfold client_step in E.
  destruct (p_script s) as [|act X] eqn:Es; [discriminate|].
  assert (Cases : (active s /\ forall p, act <> Do p) \/ joining s \/ ended s).
  { destruct Hs as [Hs|[Hs|Hs]]; auto. destruct act; try (left; split; [auto|discriminate]).
    right. left. eapply active_do; eauto. }
  clear Hs. destruct Cases as [[Hs Nd]|[Hs|Hs]].
  - destruct Hs as (dn & ts & jn & rest & mA & old & ps & todo & sc & pre & k & A1 & A2 & A3 & A4 & A5 & A6 & A7 & A8 & A9 & A10).
    rewrite Es in A6.
    set (W := map Wait (List.seq (length old + k) (length ts - k)) ++ Do jn :: continuation (length old + length ts) rest) in *.
    left. destruct A7 as [->| ->].
    + destruct todo as [|t todo].
      * cbn [flat_map app] in A6. destruct (length ts - k) as [|d] eqn:Ek.
        { cbn in W. subst W. injection A6 as -> _. exfalso. eapply Nd; eauto. }
        cbn in W. subst W. injection A6 as -> ->.
        destruct (nth_error (p_ready s) (length old + k)) as [[|]|] eqn:Er; try discriminate.
        inversion E; subst s'; clear E.
        exists dn, ts, jn, rest, mA, old, ps, [], sc, [], (S k). cbn [p_tasks p_mem p_script].
        repeat (split; [now auto|]). split.
        { cbn [app]. replace (length ts - S k) with d by lia. rewrite Nat.add_succ_r. reflexivity. }
        split; auto. split; auto. split; [lia|]. intros id Hid.
        destruct (Nat.eq_dec id k) as [->|]; [|apply A10; lia].
        destruct (v_ready _ _ Hv _ Er) as [_ Hr]. rewrite A3, nth_error_app2 in Hr by lia.
        replace (length old + k - length old) with k in Hr by lia. auto.
      * destruct A8 as [->|A8]; [|discriminate].
        cbn [flat_map submit app] in A6. injection A6 as -> ->.
        inversion E; subst s'; clear E.
        exists dn, ts, jn, rest, mA, old, (ps ++ [t]), todo, sc, (Notify :: flat_map submit todo), 0.
        cbn [p_tasks p_mem p_script]. repeat (split; [now auto|]).
        split; [rewrite A3, <- app_assoc; auto|]. split; auto.
        split; [rewrite <- app_assoc; auto|]. repeat (split; [now auto|]). intros; lia.
    + cbn [app] in A6. injection A6 as -> ->.
      destruct A8 as [->|A8]; [|discriminate].
      inversion E; subst s'; clear E.
      exists dn, ts, jn, rest, mA, old, ps, todo, sc, (flat_map submit todo), 0.
      cbn [p_tasks p_mem p_script]. auto 12.
  - destruct Hs as (dn & ts & jn & rest & mA & m1 & ps & sc & p & A1 & A2 & A3 & A4 & A5 & A6 & A7).
    rewrite Es in A6. injection A6 as -> ->.
    destruct (step p (p_mem s)) as [[p' m']|] eqn:Ep.
    + pose proof (step_run_eq _ _ _ _ Ep) as Er.
      assert (Dec : (exists a, p = Ret a) \/ forall a, p <> Ret a) by (destruct p; [left; eauto|right; discriminate..]).
      destruct Dec as [[[] ->]|N].
      * inversion E; subst s'; clear E. apply (begin_calls (dn ++ [(ts, jn)]) rest); cbn; auto.
        -- rewrite <- app_assoc. auto.
        -- eapply effects_snoc; eauto.
      * assert (E' : s' = {| p_queue := p_queue s; p_workers := p_workers s;
                      p_mutex := p_mutex s; p_done := p_done s; p_tasks := p_tasks s;
                      p_ready := p_ready s; p_script := Do p' :: continuation (length (p_tasks s)) rest; p_mem := m';
                      p_started := p_started s |}).
        { destruct p as [a|b z k'|b z v k'|b z k'|b z x k'|]; [exfalso; eapply N; reflexivity|..]; rewrite Ep in E; inversion E; reflexivity. }
        subst s'. right. left. exists dn, ts, jn, rest, mA, m1, ps, sc, p'.
        cbn [p_tasks p_mem p_script]. repeat (split; [now auto|]). congruence.
    + destruct p; rewrite ?Ep in E; discriminate.
  - destruct Hs as (A & B & pre & C). rewrite Es in C.
    assert (Q : match act with SetDone | NotifyAll | Join _ => True | _ => False end).
    { unfold quiet in Htail. rewrite C, Forall_app in Htail. destruct Htail as [_ Q]. inversion Q; auto. }
    assert (Sub : tail = (pre ++ [act]) ++ X) by (rewrite <- app_assoc; auto).
    right. right. unfold ended.
    destruct act as [q| |x|q| | |j]; try destruct Q.
    + inversion E; subst s'; cbn. split; auto. split; auto. eauto.
    + inversion E; subst s'; cbn. split; auto. split; auto. eauto.
    + destruct (nth_error (p_workers s) j) as [[]|]; try discriminate.
      inversion E; subst s'; cbn. split; auto. split; auto. eauto.
Qed.

Lemma sim_fault s c : pinv n s -> sim s -> never_fault calls m0 -> pool_step s c <> Fault.
Proof.
  intros Hv Hs Hn E. destruct c as [h|i].
  - cbn in E. unfold client_step in E. destruct (p_script s) as [|act X] eqn:Es; [discriminate|].
    destruct act as [q| |x|q| | |j]; try discriminate.
    + destruct (nth_error (p_ready s) x) as [[|]|]; discriminate.
    + assert (Hj : joining s \/ ended s).
      { destruct Hs as [Hs|[Hs|Hs]]; auto. left. eapply active_do; eauto. }
      destruct Hj as [Hj|(_ & _ & pre & C)].
      * destruct Hj as (dn & ts & jn & rest & mA & m1 & ps & sc & p & A1 & A2 & A3 & A4 & A5 & A6 & A7).
        rewrite Es in A6. injection A6 as <- _. rewrite A1 in Hn. pose proof (never_after _ _ _ _ Hn A2) as G.
        cbn in G. destruct G as [_ G]. destruct (G _ _ _ A3 A4) as (m2 & R & _). rewrite R in A7.
        destruct (step_run _ _ _ _ A7) as (p1 & m3 & S & _). destruct q; rewrite ?S in E; discriminate.
      * unfold quiet in Htail. rewrite C, Es, Forall_app in Htail. destruct Htail as [_ Q]. inversion Q; auto.
    + destruct (nth_error (p_workers s) j) as [[]|]; discriminate.
  - destruct (worker_fault n s i Hv E) as (id & p & A & B & C).
    destruct Hs as [Hs|[Hs|Hs]].
    + destruct Hs as (dn & ts & jn & rest & mA & old & ps & todo & sc & pre & k & A1 & A2 & A3 & A4 & A5 & A6 & A7 & A8 & A9 & A10).
      assert (Lid : length old <= id).
      { destruct (Nat.lt_ge_cases id (length old)) as [L|L]; auto. exfalso. apply B.
        rewrite A3, nth_error_app1 in A by auto. eapply finished_nth; eauto. }
      rewrite A3, nth_error_app2 in A by auto. rewrite A1 in Hn. pose proof (never_after _ _ _ _ Hn A2) as G.
      cbn in G. destruct G as [G _]. apply (G (sc ++ [id - length old])).
      rewrite exec_app, A5. cbn. unfold step_task. rewrite nth_error_app1, A, C by (eapply nth_lt; eauto). auto.
    + destruct Hs as (dn & ts & jn & rest & mA & m1 & ps & sc & q & A1 & A2 & A3 & A4 & A5 & A6 & A7).
      apply B. eapply finished_nth; eauto.
    + destruct Hs as (_ & F & _). apply B. eapply finished_nth; eauto.
Qed.

Lemma sim_run sched : forall s s', pinv n s -> sim s -> pool_run sched s = Some s' -> sim s'.
Proof.
  induction sched as [|c sched IH]; intros s s' Hv Hs E; cbn in E; [congruence|].
  destruct (pool_step s c) as [s1| |] eqn:Ec; [|eauto|discriminate].
  eapply IH; [| |exact E]; [eapply pinv_step; eauto|].
  destruct c as [h|i]; [eapply sim_client; eauto|eapply sim_worker; eauto].
Qed.
Lemma sim_safe sched : forall s, pinv n s -> sim s -> never_fault calls m0 -> pool_run sched s <> None.
Proof.
  induction sched as [|c sched IH]; intros s Hv Hs Hn; cbn; [discriminate|].
  destruct (pool_step s c) as [s1| |] eqn:Ec; [|auto|].
  - apply IH; auto; [eapply pinv_step; eauto|].
    destruct c as [h|i]; [eapply sim_client; eauto|eapply sim_worker; eauto].
  - exfalso. eapply sim_fault; eauto.
Qed.

Lemma sim_end s : sim s -> p_script s = [] -> effects calls m0 (p_mem s).
Proof.
  intros [Hs|[Hs|Hs]] E.
  - destruct Hs as (dn & ts & jn & rest & mA & old & ps & todo & sc & pre & k & A1 & A2 & A3 & A4 & A5 & A6 & A7 & A8 & A9 & A10).
    rewrite E in A6. symmetry in A6. apply app_eq_nil in A6 as [_ A6]. apply app_eq_nil in A6 as [_ A6]. discriminate.
  - destruct Hs as (dn & ts & jn & rest & mA & m1 & ps & sc & q & A1 & A2 & A3 & A4 & A5 & A6 & A7). congruence.
  - apply Hs.
Qed.
End Calls.
End Sim.
