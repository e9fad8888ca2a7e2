(** * Proofs about the thread pool *)
From Coq Require Import ZArith List Bool Arith Lia.
From Verif Require Import LangModel ConcModel LoopModel LoopSpec PoolModel PoolSpec.
Import ListNotations.
Open Scope nat_scope.

Lemma rep_same {X} (l : list X) k x : k < length l -> nth_error (replace_nth l k x) k = Some x.
Proof. revert k; induction l as [|y l IH]; intros [|k] H; cbn in *; auto; try lia. apply IH; lia. Qed.
Lemma rep_other {X} (l : list X) k j x : j <> k -> nth_error (replace_nth l k x) j = nth_error l j.
Proof. revert k j; induction l as [|y l IH]; intros [|k] [|j] H; cbn; auto; try lia. Qed.
Lemma rep_length {X} (l : list X) k x : length (replace_nth l k x) = length l.
Proof. revert k; induction l as [|y l IH]; intros [|k]; cbn; auto. Qed.
Lemma nth_lt {X} (l : list X) k x : nth_error l k = Some x -> k < length l.
Proof. intros H. apply nth_error_Some. congruence. Qed.
Lemma rep_inv {X} (l : list X) k x j y : nth_error (replace_nth l k x) j = Some y ->
  (j = k /\ y = x) \/ (j <> k /\ nth_error l j = Some y).
Proof.
  intros H. destruct (Nat.eq_dec j k) as [->|N].
  - left. split; auto. rewrite rep_same in H; [congruence|].
    apply nth_lt in H. rewrite rep_length in H. auto.
  - right. rewrite rep_other in H; auto.
Qed.
Lemma nth_snoc {X} (l : list X) x k y : nth_error (l ++ [x]) k = Some y ->
  nth_error l k = Some y \/ (k = length l /\ y = x).
Proof.
  intros H. destruct (Nat.lt_ge_cases k (length l)).
  - rewrite nth_error_app1 in H; auto.
  - rewrite nth_error_app2 in H by auto. destruct (k - length l) as [|d] eqn:E; cbn in H.
    + right. split; [lia|congruence].
    + destruct d; discriminate.
Qed.
Lemma seq_split a b k : List.seq a (b + k) = List.seq a b ++ List.seq (a + b) k.
Proof. apply seq_app. Qed.

Section Pool.
Context {V : Type}.
Implicit Types (s : pool V).

Definition holding (w : wpc) : bool := match w with WTest | WUnlock => true | _ => false end.

Record pinv (n : nat) s : Prop := {
  v_len : length (p_workers s) = n;
  v_order : p_started s ++ p_queue s = List.seq 0 (length (p_tasks s));
  v_readylen : length (p_ready s) = length (p_tasks s);
  v_ready : forall id, nth_error (p_ready s) id = Some true ->
    In id (p_started s) /\ nth_error (p_tasks s) id = Some (Ret tt);
  v_run : forall i id, nth_error (p_workers s) i = Some (WRun id) ->
    In id (p_started s) /\ nth_error (p_ready s) id = Some false;
  v_inj : forall i j id, nth_error (p_workers s) i = Some (WRun id) ->
    nth_error (p_workers s) j = Some (WRun id) -> i = j;
  v_started : forall id, In id (p_started s) -> nth_error (p_ready s) id = Some true \/
    exists i, nth_error (p_workers s) i = Some (WRun id);
  v_hold : forall i w, nth_error (p_workers s) i = Some w ->
    (holding w = true <-> p_mutex s = Some i);
  v_mutex : forall i, p_mutex s = Some i -> i < n;
  v_script :
    (p_done s = false /\ (forall i, nth_error (p_workers s) i <> Some WExit) /\
     proper n (length (p_tasks s)) (p_script s)) \/
    (p_done s = true /\ (p_script s = NotifyAll :: map Join (List.seq 0 n) \/
      exists k, p_script s = map Join (List.seq k (n - k)) /\
        forall i, i < k -> i < n -> nth_error (p_workers s) i = Some WExit)) }.

Lemma started_lt n s id : pinv n s -> In id (p_started s) -> id < length (p_tasks s).
Proof.
  intros H Hin. assert (G : In id (p_started s ++ p_queue s)) by (apply in_or_app; auto).
  rewrite (v_order _ _ H) in G. apply in_seq in G. lia.
Qed.
Lemma started_nodup n s : pinv n s -> NoDup (p_started s ++ p_queue s).
Proof. intros H. rewrite (v_order _ _ H). apply seq_NoDup. Qed.

Lemma pinv_init n script m : proper n 0 script -> pinv n (pool_init n script m).
Proof.
  intros Hp.
  assert (R : forall i w, nth_error (repeat WCheck n) i = Some w -> w = WCheck).
  { intros i w H. apply nth_error_In in H. apply repeat_spec in H. auto. }
  constructor; cbn.
  - apply repeat_length.
  - reflexivity.
  - reflexivity.
  - intros id H. destruct id; discriminate.
  - intros i id H. apply R in H. discriminate.
  - intros i j id H. apply R in H. discriminate.
  - tauto.
  - intros i w H. apply R in H. subst. cbn. split; discriminate.
  - discriminate.
  - left. split; auto. split; auto. intros i H. apply R in H. discriminate.
Qed.

(** Worker [i] moves from [w] to [w'], neither of which executes a task. *)
Lemma pinv_go n s i w w' l : pinv n s -> nth_error (p_workers s) i = Some w ->
  (forall id, w <> WRun id) -> (forall id, w' <> WRun id) -> w <> WExit ->
  (w' = WExit -> p_done s = true) ->
  (holding w = true \/ p_mutex s = l \/ p_mutex s = None) ->
  (if holding w' then l = Some i else if holding w then l = None else l = p_mutex s) ->
  forall s', go s i w' l = Step s' -> pinv n s'.
Proof.
  intros H Hw N1 N2 N3 Hx Hm Hl s' E. unfold go in E. inversion E; subst s'; clear E.
  pose proof (nth_lt _ _ _ Hw) as Hlt.
  destruct H as [H1 H2 H3 H4 H5 H6 H7 H8 H9 H10].
  constructor; cbn; auto.
  - rewrite rep_length. auto.
  - intros j id Hj. apply rep_inv in Hj as [[-> Hj]|[_ Hj]]; [congruence|eauto].
  - intros j k id Hj Hk. apply rep_inv in Hj as [[-> Hj]|[_ Hj]]; [congruence|].
    apply rep_inv in Hk as [[-> Hk]|[_ Hk]]; [congruence|eauto].
  - intros id Hid. destruct (H7 id Hid) as [A|(j & A)]; auto. right. exists j.
    rewrite rep_other; auto. intros ->. congruence.
  - intros j u Hj. apply rep_inv in Hj as [[-> ->]|[Nj Hj]].
    + destruct (holding w').
      * subst l. tauto.
      * split; [discriminate|]. intros E. destruct (holding w) eqn:Eh; [congruence|].
        subst l. apply (H8 i w Hw) in E. congruence.
    + specialize (H8 j u Hj) as G. rewrite G. clear G. split; intros E.
      * destruct Hm as [Hm|[Hm|Hm]]; [|congruence|congruence].
        apply (H8 i w Hw) in Hm. congruence.
      * destruct (holding w'); [congruence|]. destruct (holding w); [congruence|]. congruence.
  - intros j E. destruct (holding w'); [|destruct (holding w)].
    + assert (i = j) by congruence. subst. lia.
    + congruence.
    + apply H9. congruence.
  - destruct H10 as [(A & B & C)|(A & B)]; [left|right]; split; auto.
    + split; auto. intros j Hj. apply rep_inv in Hj as [[-> Hj]|[_ Hj]]; [|eapply B; eauto].
      symmetry in Hj. apply Hx in Hj. congruence.
    + destruct B as [B|(k & B1 & B2)]; auto. right. exists k. split; auto.
      intros j Hj Hn. rewrite rep_other; auto. intros ->. rewrite B2 in Hw by auto. congruence.
Qed.

(** The client does something that concerns neither tasks nor flags. *)
Lemma wake_run w id : wake w = WRun id <-> w = WRun id.
Proof. destruct w; cbn; split; congruence. Qed.
Lemma wake_hold w : holding (wake w) = holding w.
Proof. destruct w; reflexivity. Qed.
Lemma wake_exit w : wake w = WExit <-> w = WExit.
Proof. destruct w; cbn; split; congruence. Qed.

Definition woken (ws ws' : list wpc) : Prop :=
  length ws' = length ws /\
  forall i w', nth_error ws' i = Some w' ->
    exists w, nth_error ws i = Some w /\ (w' = w \/ w' = wake w).

Lemma woken_refl ws : woken ws ws.
Proof. split; eauto. Qed.
Lemma woken_one ws h : woken ws (notify_one ws h).
Proof.
  unfold notify_one. destruct (nth_error ws h) as [w|] eqn:E; [|apply woken_refl].
  split; [apply rep_length|]. intros i w' H. apply rep_inv in H as [[-> ->]|[_ H]]; eauto.
Qed.
Lemma woken_all ws : woken ws (map wake ws).
Proof.
  split; [apply map_length|]. intros i w' H. rewrite nth_error_map in H.
  destruct (nth_error ws i) as [w|]; inversion H; eauto.
Qed.
Lemma woken_back ws ws' i w : woken ws ws' -> nth_error ws i = Some w ->
  exists w', nth_error ws' i = Some w' /\ (w' = w \/ w' = wake w).
Proof.
  intros [L H] E. destruct (nth_error ws' i) as [w'|] eqn:E'.
  - destruct (H i w' E') as (u & Hu & D). rewrite E in Hu. inversion Hu; subst. eauto.
  - apply nth_error_None in E'. apply nth_lt in E. lia.
Qed.

Lemma pinv_client n s ws' script' : pinv n s -> woken (p_workers s) ws' ->
  (forall s', s' = {| p_queue := p_queue s; p_workers := ws'; p_mutex := p_mutex s; p_done := p_done s;
      p_tasks := p_tasks s; p_ready := p_ready s; p_script := script'; p_mem := p_mem s;
      p_started := p_started s |} ->
   (p_done s = false /\ proper n (length (p_tasks s)) script') \/
   (p_done s = true /\ exists k, script' = map Join (List.seq k (n - k)) /\
        forall i, i < k -> i < n -> nth_error (p_workers s) i = Some WExit)) ->
  forall m', pinv n {| p_queue := p_queue s; p_workers := ws'; p_mutex := p_mutex s; p_done := p_done s;
      p_tasks := p_tasks s; p_ready := p_ready s; p_script := script'; p_mem := m';
      p_started := p_started s |}.
Proof.
  intros H Hw Hs m'. specialize (Hs _ eq_refl).
  destruct H as [H1 H2 H3 H4 H5 H6 H7 H8 H9 H10].
  assert (RB : forall i id, nth_error ws' i = Some (WRun id) -> nth_error (p_workers s) i = Some (WRun id)).
  { intros i id Hi. apply (proj2 Hw) in Hi as (w & Hi & [E|E]); [congruence|].
    symmetry in E. apply (proj1 (wake_run _ _)) in E. congruence. }
  constructor; cbn; auto.
  - destruct Hw. congruence.
  - eauto.
  - eauto.
  - intros id Hid. destruct (H7 id Hid) as [A|(j & A)]; auto. right. exists j.
    destruct (woken_back _ _ _ _ Hw A) as (w' & B & [->| ->]); auto.
  - intros i w' Hi. apply (proj2 Hw) in Hi as (w & Hi & [->| ->]); rewrite ?wake_hold; auto.
  - destruct Hs as [(A & B)|(A & k & B & C)]; [left|right]; split; auto.
    + split; auto. intros i Hi. apply (proj2 Hw) in Hi as (w & Hi & E).
      assert (w = WExit). { destruct E as [E|E]; [congruence|]. symmetry in E. now apply (proj1 (wake_exit _)) in E. }
      subst. destruct H10 as [(_ & F & _)|(F & _)]; [eapply F; eauto|congruence].
    + right. exists k. split; auto. intros i Hi Hn. specialize (C i Hi Hn).
      destruct (woken_back _ _ _ _ Hw C) as (w' & D & [->| ->]); auto.
Qed.

Lemma pinv_step n s c s' : pinv n s -> pool_step s c = Step s' -> pinv n s'.
Proof.
  intros H E. destruct c as [h|i]; cbn in E.
  - unfold client_step in E. destruct (p_script s) as [|act rest] eqn:Es; [discriminate|].
    pose proof (v_script _ _ H) as Hs. rewrite Es in Hs.
    assert (Other : forall ws' m', woken (p_workers s) ws' ->
      match act with SetDone | Join _ | NotifyAll => False | Push _ => False | Wait _ => True | _ => True end ->
      pinv n {| p_queue := p_queue s; p_workers := ws'; p_mutex := p_mutex s; p_done := p_done s;
        p_tasks := p_tasks s; p_ready := p_ready s; p_script := rest; p_mem := m';
        p_started := p_started s |}).
    { intros ws' m' Hw Hact. apply pinv_client; auto. intros _ _.
      destruct Hs as [(A & B & C)|(A & [B|(k & B & C)])].
      - left. split; auto. destruct act; cbn in C; tauto.
      - inversion B; subst. destruct Hact.
      - destruct (List.seq k (n - k)); inversion B; subst. destruct Hact. }
    destruct act as [p| |id|p| | |j].
    + (* Push *)
      inversion E; subst s'; clear E. destruct H as [H1 H2 H3 H4 H5 H6 H7 H8 H9 H10].
      assert (Hlt : forall id, In id (p_started s) -> id < length (p_tasks s)).
      { intros id Hid. assert (G : In id (p_started s ++ p_queue s)) by (apply in_or_app; auto).
        rewrite H2 in G. apply in_seq in G. lia. }
      assert (Hr : forall id, In id (p_started s) -> nth_error (p_ready s ++ [false]) id = nth_error (p_ready s) id).
      { intros id Hid. apply nth_error_app1. rewrite H3. auto. }
      constructor; cbn; auto.
      * rewrite app_assoc, H2, app_length. cbn. rewrite seq_split. reflexivity.
      * rewrite !app_length. cbn. lia.
      * intros id Hid. apply nth_snoc in Hid as [Hid|[_ Hid]]; [|discriminate].
        destruct (H4 _ Hid) as [A B]. split; auto. rewrite nth_error_app1; auto.
      * intros i id Hi. destruct (H5 _ _ Hi) as [A B]. split; auto. rewrite Hr; auto.
      * intros id Hid. rewrite Hr by auto. auto.
      * destruct Hs as [(A & B & C)|(A & [B|(k & B & C)])].
        -- left. split; auto. split; auto. cbn in C. rewrite app_length. cbn.
           rewrite Nat.add_comm. auto.
        -- inversion B.
        -- destruct (List.seq k (n - k)); inversion B.
    + inversion E; subst s'. apply Other; auto using woken_one.
    + destruct (nth_error (p_ready s) id) as [[|]|]; try discriminate. inversion E; subst s'.
      apply Other; auto using woken_refl.
    + (* Do *)
      assert (Keep : forall p' m', pinv n {| p_queue := p_queue s; p_workers := p_workers s; p_mutex := p_mutex s; p_done := p_done s;
        p_tasks := p_tasks s; p_ready := p_ready s; p_script := Do p' :: rest; p_mem := m';
        p_started := p_started s |}).
      { intros p' m'. apply pinv_client; auto using woken_refl. intros _ _.
        destruct Hs as [(A & B & C)|(A & [B|(k & B & C)])].
        - left. split; auto.
        - inversion B.
        - destruct (List.seq k (n - k)); inversion B. }
      destruct p as [a|b z k|b z v k|b z k|b z x k|]; cbn [step] in E;
        repeat match type of E with
        | match ?d with _ => _ end = _ => destruct d; try discriminate
        end; inversion E; subst s'; auto. apply Other; auto using woken_refl.
    + (* SetDone *)
      inversion E; subst s'; clear E. destruct H as [H1 H2 H3 H4 H5 H6 H7 H8 H9 H10].
      constructor; cbn; auto. right. split; auto. left.
      destruct Hs as [(A & B & C)|(A & [B|(k & B & C)])].
      * cbn in C. auto.
      * inversion B.
      * destruct (List.seq k (n - k)); inversion B.
    + (* NotifyAll *)
      inversion E; subst s'; clear E. apply pinv_client; auto using woken_all. intros _ _.
      destruct Hs as [(A & B & C)|(A & [B|(k & B & C)])].
      * cbn in C. tauto.
      * right. split; auto. exists 0. rewrite Nat.sub_0_r. split; [congruence|lia].
      * destruct (List.seq k (n - k)); inversion B.
    + (* Join *)
      destruct (nth_error (p_workers s) j) as [w|] eqn:Ej; [|discriminate].
      destruct w; try discriminate. inversion E; subst s'; clear E.
      apply pinv_client; auto using woken_refl. intros _ _.
      destruct Hs as [(A & B & C)|(A & [B|(k & B & C)])].
      * cbn in C. tauto.
      * inversion B.
      * right. split; auto. destruct (n - k) as [|d] eqn:Ed; [discriminate|].
        cbn in B. inversion B; subst j rest. exists (S k). replace (n - S k) with d by lia. split; auto.
        intros i Hi Hn. destruct (Nat.eq_dec i k) as [->|]; auto. apply C; auto. lia.
  - unfold worker_step in E. destruct (nth_error (p_workers s) i) as [w|] eqn:Ew; [|discriminate].
    pose proof (v_hold _ _ H i w Ew) as Hh. pose proof (nth_lt _ _ _ Ew) as Hlt.
    destruct w as [| |id| | | | | |].
    + (* WCheck *)
      destruct (p_done s) eqn:Ed;
        refine (pinv_go n s i _ _ _ H Ew _ _ _ _ _ _ s' E); cbn; try discriminate; auto; tauto.
    + (* WPop *)
      destruct (p_queue s) as [|id queue] eqn:Eq.
      * refine (pinv_go n s i _ _ _ H Ew _ _ _ _ _ _ s' E); cbn; try discriminate; auto; tauto.
      * inversion E; subst s'; clear E.
        pose proof (started_nodup _ _ H) as ND. destruct H as [H1 H2 H3 H4 H5 H6 H7 H8 H9 H10].
        rewrite Eq in ND, H2.
        assert (Nid : ~ In id (p_started s)).
        { intros Hin. apply NoDup_remove_2 in ND. apply ND. apply in_or_app; auto. }
        assert (Lid : id < length (p_ready s)).
        { rewrite H3. assert (G : In id (p_started s ++ id :: queue)) by (apply in_or_app; right; left; auto).
          rewrite H2 in G. apply in_seq in G. lia. }
        constructor; cbn; auto.
        -- rewrite rep_length. auto.
        -- rewrite <- app_assoc. auto.
        -- intros k Hk. destruct (H4 k Hk). split; auto. apply in_or_app; auto.
        -- intros j k Hj. apply rep_inv in Hj as [[-> Hj]|[_ Hj]].
           ++ inversion Hj; subst k. split; [apply in_or_app; right; left; auto|].
              destruct (nth_error (p_ready s) id) as [[|]|] eqn:Er; auto.
              ** apply H4 in Er as [Er _]. tauto.
              ** apply nth_error_None in Er. lia.
           ++ destruct (H5 j k Hj). split; auto. apply in_or_app; auto.
        -- intros j k x Hj Hk. apply rep_inv in Hj as [[-> Hj]|[Nj Hj]]; apply rep_inv in Hk as [[-> Hk]|[Nk Hk]]; auto.
           ++ inversion Hj; subst x. apply H5 in Hk as [Hk _]. tauto.
           ++ inversion Hk; subst x. apply H5 in Hj as [Hj _]. tauto.
           ++ eauto.
        -- intros k Hk. apply in_app_or in Hk as [Hk|[Hk|[]]].
           ++ destruct (H7 k Hk) as [A|(j & A)]; auto. right. exists j. rewrite rep_other; auto. intros ->. congruence.
           ++ subst k. right. exists i. apply rep_same; auto.
        -- intros j u Hj. apply rep_inv in Hj as [[-> ->]|[Nj Hj]]; auto.
        -- destruct H10 as [(A & B & C)|(A & B)]; [left|right]; split; auto.
           ++ split; auto. intros j Hj. apply rep_inv in Hj as [[-> Hj]|[_ Hj]]; [discriminate|eapply B; eauto].
           ++ destruct B as [B|(k & B1 & B2)]; auto. right. exists k. split; auto.
              intros j Hj Hn. rewrite rep_other; auto. intros ->. rewrite B2 in Ew by auto. congruence.
    + (* WRun *)
      destruct (nth_error (p_tasks s) id) as [p|] eqn:Et; [|discriminate].
      assert (Fin : p = Ret tt -> pinv n {| p_queue := p_queue s; p_workers := replace_nth (p_workers s) i WCheck;
                  p_mutex := p_mutex s; p_done := p_done s; p_tasks := p_tasks s;
                  p_ready := replace_nth (p_ready s) id true;
                  p_script := p_script s; p_mem := p_mem s; p_started := p_started s |}).
      { intros ->. destruct H as [H1 H2 H3 H4 H5 H6 H7 H8 H9 H10].
        destruct (H5 i id Ew) as [Hst Hrd]. pose proof (nth_lt _ _ _ Hrd) as Lid.
        constructor; cbn; auto.
        - rewrite rep_length. auto.
        - rewrite rep_length. auto.
        - intros k Hk. apply rep_inv in Hk as [[-> _]|[_ Hk]]; auto.
        - intros j k Hj. apply rep_inv in Hj as [[-> Hj]|[Nj Hj]]; [discriminate|].
          destruct (H5 j k Hj). split; auto. rewrite rep_other; auto. intros ->. apply Nj. eauto.
        - intros j k x Hj Hk. apply rep_inv in Hj as [[-> Hj]|[_ Hj]]; [discriminate|].
          apply rep_inv in Hk as [[-> Hk]|[_ Hk]]; [discriminate|]. eauto.
        - intros k Hk. destruct (Nat.eq_dec k id) as [->|N].
          + left. apply rep_same; auto.
          + rewrite rep_other by auto. destruct (H7 k Hk) as [A|(j & A)]; auto. right. exists j.
            rewrite rep_other; auto. intros ->. congruence.
        - intros j u Hj. apply rep_inv in Hj as [[-> ->]|[_ Hj]]; auto.
        - destruct H10 as [(A & B & C)|(A & B)]; [left|right]; split; auto.
          + split; auto. intros j Hj. apply rep_inv in Hj as [[-> Hj]|[_ Hj]]; [discriminate|eapply B; eauto].
          + destruct B as [B|(k & B1 & B2)]; auto. right. exists k. split; auto.
            intros j Hj Hn. rewrite rep_other; auto. intros ->. rewrite B2 in Ew by auto. congruence. }
      assert (Acc : forall p' m', (forall x, p <> Ret x) -> pinv n {| p_queue := p_queue s; p_workers := p_workers s;
                      p_mutex := p_mutex s; p_done := p_done s;
                      p_tasks := replace_nth (p_tasks s) id p';
                      p_ready := p_ready s; p_script := p_script s; p_mem := m';
                      p_started := p_started s |}).
      { intros p' m' Np. destruct H as [H1 H2 H3 H4 H5 H6 H7 H8 H9 H10].
        constructor; cbn; auto; rewrite ?rep_length; auto.
        intros k Hk. destruct (H4 k Hk) as [A B]. split; auto. rewrite rep_other; auto. intros ->.
        rewrite Et in B. inversion B. eapply Np; eauto. }
      destruct p as [a|b z k|b z v k|b z k|b z x k|]; cbn [step] in E;
        repeat match type of E with
        | match ?d with _ => _ end = _ => destruct d; try discriminate
        end; inversion E; subst s'; try (apply Acc; congruence). apply Fin. destruct a. auto.
    + (* WLock *)
      destruct (p_mutex s) eqn:Em; [discriminate|].
      refine (pinv_go n s i _ _ _ H Ew _ _ _ _ _ _ s' E); cbn; try discriminate; auto; tauto.
    + (* WTest *)
      destruct (p_done s) eqn:Ed.
      * refine (pinv_go n s i _ _ _ H Ew _ _ _ _ _ _ s' E); cbn; try discriminate; auto; tauto.
      * refine (pinv_go n s i _ _ _ H Ew _ _ _ _ _ _ s' E); cbn; try discriminate; auto; tauto.
    + refine (pinv_go n s i _ _ _ H Ew _ _ _ _ _ _ s' E); cbn; try discriminate; auto; tauto.
    + destruct (p_mutex s) eqn:Em; [discriminate|].
      refine (pinv_go n s i _ _ _ H Ew _ _ _ _ _ _ s' E); cbn; try discriminate; auto; tauto.
    + refine (pinv_go n s i _ _ _ H Ew _ _ _ _ _ _ s' E); cbn; try discriminate; auto; tauto.
    + discriminate.
Qed.

Lemma pinv_run n sched : forall s s', pinv n s -> pool_run sched s = Some s' -> pinv n s'.
Proof.
  induction sched as [|c sched IH]; intros s s' H E; cbn in E.
  - congruence.
  - destruct (pool_step s c) as [s1| |] eqn:Ec; [|eauto|discriminate].
    eapply IH; [|exact E]. eapply pinv_step; eauto.
Qed.

Lemma pinv_reaches n script m s : proper n 0 script -> reaches n script m s -> pinv n s.
Proof. intros Hp [sched E]. eapply pinv_run; [|exact E]. apply pinv_init; auto. Qed.

(** ** After the flag has been raised *)
Lemma filter_rep (f : wpc -> bool) l : forall i w w', nth_error l i = Some w ->
  length (filter f (replace_nth l i w')) + (if f w then 1 else 0) =
  length (filter f l) + (if f w' then 1 else 0).
Proof.
  induction l as [|x l IH]; intros [|i] w w' H; cbn in *; try discriminate.
  - inversion H; subst. destruct (f w), (f w'); cbn; lia.
  - specialize (IH i w w' H). destruct (f x); cbn; lia.
Qed.
Lemma filter_wake (l : list wpc) :
  length (filter (fun w => match w with WPop => true | _ => false end) (map wake l)) =
  length (filter (fun w => match w with WPop => true | _ => false end) l).
Proof. induction l as [|[] l IH]; cbn; auto. Qed.

Lemma step_starts s c s' : p_done s = true -> pool_step s c = Step s' ->
  p_done s' = true /\
  length (p_started s') + about_to_pop s' <= length (p_started s) + about_to_pop s.
Proof.
  intros D E. unfold about_to_pop. destruct c as [h|i]; cbn in E.
  - unfold client_step in E. destruct (p_script s) as [|act rest]; [discriminate|].
    destruct act as [p| |id|p| | |j].
    + inversion E; subst s'; cbn; auto.
    + inversion E; subst s'; cbn. split; auto. unfold notify_one.
      destruct (nth_error (p_workers s) h) as [w|] eqn:Ew; auto.
      pose proof (filter_rep (fun w => match w with WPop => true | _ => false end) _ _ _ (wake w) Ew) as F.
      destruct w; cbn in F; cbn; lia.
    + destruct (nth_error (p_ready s) id) as [[|]|]; try discriminate. inversion E; subst s'; cbn; auto.
    + destruct p as [a|b z k|b z v k|b z k|b z x k|]; cbn [step] in E;
        repeat match type of E with
        | match ?d with _ => _ end = _ => destruct d; try discriminate
        end; inversion E; subst s'; cbn; auto.
    + inversion E; subst s'; cbn; auto.
    + inversion E; subst s'; cbn. rewrite filter_wake. auto.
    + destruct (nth_error (p_workers s) j) as [[]|]; try discriminate. inversion E; subst s'; cbn; auto.
  - unfold worker_step, go in E. destruct (nth_error (p_workers s) i) as [w|] eqn:Ew; [|discriminate].
    pose proof (filter_rep (fun w => match w with WPop => true | _ => false end) _ _ _ WCheck Ew) as FC.
    pose proof (filter_rep (fun w => match w with WPop => true | _ => false end) _ _ _ WLock Ew) as FL.
    pose proof (filter_rep (fun w => match w with WPop => true | _ => false end) _ _ _ WTest Ew) as FT.
    pose proof (filter_rep (fun w => match w with WPop => true | _ => false end) _ _ _ WExit Ew) as FE.
    pose proof (filter_rep (fun w => match w with WPop => true | _ => false end) _ _ _ WUnlock Ew) as FU.
    pose proof (filter_rep (fun w => match w with WPop => true | _ => false end) _ _ _ WWake Ew) as FW.
    destruct w as [| |id| | | | | |].
    + rewrite D in E. inversion E; subst s'; cbn in *. split; auto. lia.
    + destruct (p_queue s) as [|id q] eqn:Eq.
      * inversion E; subst s'; cbn in *. split; auto. lia.
      * pose proof (filter_rep (fun w => match w with WPop => true | _ => false end) _ _ _ (WRun id) Ew) as FR.
        inversion E; subst s'; cbn in *. split; auto. rewrite app_length. cbn. lia.
    + destruct (nth_error (p_tasks s) id) as [p|]; [|discriminate].
      destruct p as [a|b z k|b z v k|b z k|b z x k|]; cbn [step] in E;
        repeat match type of E with
        | match ?d with _ => _ end = _ => destruct d; try discriminate
        end; inversion E; subst s'; cbn in *; split; auto; lia.
    + destruct (p_mutex s); [discriminate|]. inversion E; subst s'; cbn in *. split; auto; lia.
    + rewrite D in E. inversion E; subst s'; cbn in *. split; auto; lia.
    + inversion E; subst s'; cbn in *. split; auto; lia.
    + destruct (p_mutex s); [discriminate|]. inversion E; subst s'; cbn in *. split; auto; lia.
    + inversion E; subst s'; cbn in *. split; auto; lia.
    + discriminate.
Qed.

Lemma run_starts sched : forall s s', p_done s = true -> pool_run sched s = Some s' ->
  p_done s' = true /\
  length (p_started s') + about_to_pop s' <= length (p_started s) + about_to_pop s.
Proof.
  induction sched as [|c sched IH]; intros s s' D E; cbn in E.
  - inversion E; subst. auto.
  - destruct (pool_step s c) as [s1| |] eqn:Ec; [|eauto|discriminate].
    destruct (step_starts _ _ _ D Ec) as [D1 L1]. destruct (IH _ _ D1 E). split; auto. lia.
Qed.
End Pool.
