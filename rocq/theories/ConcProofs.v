(** Tasks with disjoint footprints are schedule-independent. *)
From Coq Require Import ZArith List Bool Lia.
From Verif Require Import LangModel LangProofs ConcModel.
Import ListNotations.
Open Scope Z_scope.

Section Conc.
Context {V A : Type}.
Implicit Types m : mem V.
Implicit Types ps : list (prog V A).

(** No task writes a location that another task reads or writes. *)
Definition race_free (n : nat) (Rs Ws : nat -> loc -> bool) : Prop :=
  forall i j, (i < n)%nat -> (j < n)%nat -> i <> j ->
    disjoint (Ws i) (union (Rs j) (Ws j)).

Definition within (Rs Ws : nat -> loc -> bool) ps : Prop :=
  forall k p, nth_error ps k = Some p -> fits (Rs k) (Ws k) p.

(** [m'] is [m0] with the writes of the solo runs put together. *)
Definition joined (n : nat) (Ws : nat -> loc -> bool) m0 (ms : nat -> mem V) m' : Prop :=
  forall l,
    (forall k, (k < n)%nat -> Ws k l = true -> same_at m' (ms k) l) /\
    ((forall k, (k < n)%nat -> Ws k l = false) -> same_at m' m0 l).

Lemma some_writer n (Ws : nat -> loc -> bool) l :
  (exists k, (k < n)%nat /\ Ws k l = true) \/ (forall k, (k < n)%nat -> Ws k l = false).
Proof.
  induction n as [|n [(k & Hk & Hw)|IH]].
  - right; intros; lia.
  - left; exists k; split; [lia|auto].
  - destruct (Ws n l) eqn:E.
    + left; exists n; split; [lia|auto].
    + right; intros k Hk. destruct (Nat.eq_dec k n) as [->|]; [auto|apply IH; lia].
Qed.

Lemma joined_unique n Ws m0 ms m1 m2 :
  joined n Ws m0 ms m1 -> joined n Ws m0 ms m2 -> mem_eq m1 m2.
Proof.
  intros H1 H2 l. destruct (H1 l) as [A1 B1], (H2 l) as [A2 B2].
  destruct (some_writer n Ws l) as [(k & Hk & Hw)|Hno].
  - eapply same_at_trans; [apply A1; eauto|apply same_at_sym, A2; auto].
  - eapply same_at_trans; [apply B1; auto|apply same_at_sym, B2; auto].
Qed.

Lemma nth_error_replace_same ps k p : (k < length ps)%nat ->
  nth_error (replace_nth ps k p) k = Some p.
Proof.
  revert k; induction ps as [|q ps IH]; intros [|k] H; simpl in *; auto; try lia.
  apply IH; lia.
Qed.

Lemma nth_error_replace_other ps k j p : j <> k ->
  nth_error (replace_nth ps k p) j = nth_error ps j.
Proof.
  revert k j; induction ps as [|q ps IH]; intros [|k] [|j] H; simpl; auto; try lia.
Qed.

Lemma length_replace_nth ps k p : length (replace_nth ps k p) = length ps.
Proof. revert k; induction ps as [|q ps IH]; intros [|k]; simpl; auto. Qed.

(** One step of a task that would succeed on its own. *)
Lemma step_run (p : prog V A) m a m' :
  run p m = Some (a, m') ->
  exists p1 m1, step p m = Some (p1, m1) /\ run p1 m1 = Some (a, m').
Proof.
  destruct p as [a0|b i k|b i v k|b i k|b i x k|]; simpl; intros H.
  - eauto.
  - destruct (mval m b i); [eauto|discriminate].
  - destruct (mval m b i); [eauto|discriminate].
  - destruct (mmsk m b i); [eauto|discriminate].
  - destruct (mmsk m b i); [eauto|discriminate].
  - discriminate.
Qed.

Lemma step_fits R W (p : prog V A) m p1 m1 :
  fits R W p -> step p m = Some (p1, m1) -> fits R W p1.
Proof.
  destruct p as [a0|b i k|b i v k|b i k|b i x k|]; simpl; intros Hf H.
  - inversion H; subst; exact I.
  - destruct (mval m b i); inversion H; subst; apply Hf.
  - destruct (mval m b i); inversion H; subst; apply Hf.
  - destruct (mmsk m b i); inversion H; subst; apply Hf.
  - destruct (mmsk m b i); inversion H; subst; apply Hf.
  - discriminate.
Qed.

Lemma step_frame R W (p : prog V A) m p1 m1 l :
  fits R W p -> step p m = Some (p1, m1) -> W l = false -> same_at m1 m l.
Proof.
  destruct p as [a0|b i k|b i v k|b i k|b i x k|]; simpl; intros Hf H Hl.
  - inversion H; subst; apply same_at_refl.
  - destruct (mval m b i); inversion H; subst; apply same_at_refl.
  - destruct (mval m b i); inversion H; subst. apply set_v_other. destruct Hf; congruence.
  - destruct (mmsk m b i); inversion H; subst; apply same_at_refl.
  - destruct (mmsk m b i); inversion H; subst. apply set_m_other. destruct Hf; congruence.
  - discriminate.
Qed.

(** The invariant of interleaved execution: the rest of every task, run on its own from
    the current memory, still yields the task's solo result. *)
Definition conc_inv (n : nat) (Rs Ws : nat -> loc -> bool) m0 (res : nat -> A)
    (ms : nat -> mem V) ps m : Prop :=
  length ps = n /\ within Rs Ws ps /\
  (forall k p, nth_error ps k = Some p ->
     exists mk, run p m = Some (res k, mk) /\
       forall l, Rs k l || Ws k l = true -> same_at mk (ms k) l) /\
  (forall l, (forall k, (k < n)%nat -> Ws k l = false) -> same_at m m0 l).

Lemma conc_inv_step n Rs Ws m0 res ms ps m k :
  race_free n Rs Ws ->
  conc_inv n Rs Ws m0 res ms ps m ->
  exists ps' m', step_task ps m k = Some (ps', m') /\
    conc_inv n Rs Ws m0 res ms ps' m'.
Proof.
  intros Hrf (Hlen & Hfit & Hrun & Hrest). unfold step_task.
  destruct (nth_error ps k) as [p|] eqn:Hp; [|exists ps, m; repeat split; auto].
  assert (Hk : (k < n)%nat).
  { rewrite <- Hlen; apply nth_error_Some; congruence. }
  destruct (Hrun _ _ Hp) as (mk & Hrk & Hmk).
  destruct (step_run _ _ _ _ Hrk) as (p1 & m1 & Hs & Hr1). rewrite Hs.
  exists (replace_nth ps k p1), m1; split; auto.
  pose proof (Hfit _ _ Hp) as Hfp.
  assert (Hframe : forall l, Ws k l = false -> same_at m1 m l).
  { intros l; eapply step_frame; eauto. }
  split; [|split; [|split]].
  - rewrite length_replace_nth; auto.
  - intros j q Hq. destruct (Nat.eq_dec j k) as [->|Hne].
    + rewrite nth_error_replace_same in Hq by lia. inversion Hq; subst.
      eapply step_fits; eauto.
    + rewrite nth_error_replace_other in Hq by auto. auto.
  - intros j q Hq. destruct (Nat.eq_dec j k) as [->|Hne].
    + rewrite nth_error_replace_same in Hq by lia. inversion Hq; subst.
      exists mk; auto.
    + rewrite nth_error_replace_other in Hq by auto.
      assert (Hj : (j < n)%nat) by (rewrite <- Hlen; apply nth_error_Some; congruence).
      destruct (Hrun _ _ Hq) as (mj & Hrj & Hmj).
      destruct (run_local (Rs j) (Ws j) q m m1 (res j) mj) as (mj' & H1 & H2); auto.
      { intros l Hl. apply same_at_sym, Hframe.
        destruct (Ws k l) eqn:E; auto.
        pose proof (Hrf k j Hk Hj (not_eq_sym Hne) l E) as Hd. unfold union in Hd.
        congruence. }
      exists mj'; split; auto. intros l Hl.
      eapply same_at_trans; [apply same_at_sym, H2; auto|auto].
  - intros l Hl. eapply same_at_trans; [apply Hframe; auto|auto].
Qed.

Lemma conc_inv_exec n Rs Ws m0 res ms sched : race_free n Rs Ws ->
  forall ps m, conc_inv n Rs Ws m0 res ms ps m ->
  exists ps' m', exec sched ps m = Some (ps', m') /\
    conc_inv n Rs Ws m0 res ms ps' m'.
Proof.
  intros Hrf; induction sched as [|k sched IH]; intros ps m Hinv; simpl.
  - eauto.
  - destruct (conc_inv_step n Rs Ws m0 res ms ps m k Hrf Hinv) as (ps1 & m1 & H1 & H2).
    rewrite H1; auto.
Qed.

Lemma conc_inv_init n Rs Ws m0 res ms ps :
  length ps = n -> within Rs Ws ps ->
  (forall k p, nth_error ps k = Some p -> run p m0 = Some (res k, ms k)) ->
  conc_inv n Rs Ws m0 res ms ps m0.
Proof.
  intros Hlen Hfit Hrun; split; [|split; [|split]]; auto.
  - intros k p Hp; exists (ms k); split; auto. intros; apply same_at_refl.
  - intros; apply same_at_refl.
Qed.

Lemma conc_inv_final n Rs Ws m0 res ms ps m (out : list A) :
  conc_inv n Rs Ws m0 res ms ps m ->
  ps = map Ret out ->
  (forall k a, nth_error out k = Some a -> a = res k) /\ joined n Ws m0 ms m.
Proof.
  intros (Hlen & Hfit & Hrun & Hrest) ->.
  assert (Hout : forall k a, nth_error out k = Some a ->
      a = res k /\ forall l, Rs k l || Ws k l = true -> same_at m (ms k) l).
  { intros k a Ha. destruct (Hrun k (Ret a)) as (mk & H1 & H2).
    { rewrite nth_error_map, Ha; auto. }
    simpl in H1; inversion H1; subst; auto. }
  split; [intros k a Ha; apply Hout; auto|].
  intros l; split; auto.
  intros k Hk Hw. destruct (nth_error out k) as [a|] eqn:E.
  - apply (Hout _ _ E). rewrite Hw; apply orb_true_r.
  - apply nth_error_None in E. rewrite map_length in Hlen; lia.
Qed.

(** Every interleaving of race-free tasks that succeed on their own never faults, and if
    all tasks are finished, results and memory are those of the solo runs put together. *)
Theorem interleaving_joined n Rs Ws m0 res ms ps sched :
  race_free n Rs Ws -> length ps = n -> within Rs Ws ps ->
  (forall k p, nth_error ps k = Some p -> run p m0 = Some (res k, ms k)) ->
  exists ps' m', exec sched ps m0 = Some (ps', m') /\
    forall out, ps' = map Ret out ->
      (forall k a, nth_error out k = Some a -> a = res k) /\ joined n Ws m0 ms m'.
Proof.
  intros Hrf Hlen Hfit Hrun.
  destruct (conc_inv_exec n Rs Ws m0 res ms sched Hrf ps m0) as (ps' & m' & H1 & H2).
  { apply conc_inv_init; auto. }
  exists ps', m'; split; auto. intros out Hout. eapply conc_inv_final; eauto.
Qed.

(** ** Running the tasks one after the other *)

Lemma seq_all_joined_aux Rs Ws m0 res ms : forall ps k0 m,
  race_free (k0 + length ps) Rs Ws ->
  (forall k p, nth_error ps k = Some p -> fits (Rs (k0 + k)%nat) (Ws (k0 + k)%nat) p) ->
  (forall k p, nth_error ps k = Some p ->
      run p m0 = Some (res (k0 + k)%nat, ms (k0 + k)%nat)) ->
  joined k0 Ws m0 ms m ->
  exists out m', run (seq_all ps) m = Some (out, m') /\
    length out = length ps /\
    (forall k a, nth_error out k = Some a -> a = res (k0 + k)%nat) /\
    joined (k0 + length ps) Ws m0 ms m'.
Proof.
  induction ps as [|p ps IH]; intros k0 m Hrf Hfit Hrun Hj.
  - exists [], m; simpl. rewrite Nat.add_0_r. repeat split; auto; try apply Hj.
    intros [|k] a; discriminate.
  - simpl length in *.
    pose proof (Hfit O p eq_refl) as Hf. pose proof (Hrun O p eq_refl) as Hr.
    rewrite Nat.add_0_r in *.
    assert (Hagree : forall l, Rs k0 l || Ws k0 l = true -> same_at m0 m l).
    { intros l Hl. apply same_at_sym, (proj2 (Hj l)). intros k Hk.
      destruct (Ws k l) eqn:E; auto.
      pose proof (Hrf k k0 ltac:(lia) ltac:(lia) ltac:(lia) l E) as Hd.
      unfold union in Hd; congruence. }
    destruct (run_local _ _ p m0 m _ _ Hf Hagree Hr) as (m1 & Hr1 & Hm1).
    destruct (IH (S k0) m1) as (out & m' & Ho1 & Ho2 & Ho3 & Ho4).
    + replace (S k0 + length ps)%nat with (k0 + S (length ps))%nat by lia; auto.
    + intros k q Hq. replace (S k0 + k)%nat with (k0 + S k)%nat by lia. apply Hfit; auto.
    + intros k q Hq. replace (S k0 + k)%nat with (k0 + S k)%nat by lia. apply Hrun; auto.
    + intros l; split.
      * intros k Hk Hw. destruct (Nat.eq_dec k k0) as [->|Hne].
        { apply same_at_sym, Hm1. rewrite Hw; apply orb_true_r. }
        assert (Hw0 : Ws k0 l = false).
        { destruct (Ws k0 l) eqn:E; auto.
          pose proof (Hrf k0 k ltac:(lia) ltac:(lia) ltac:(lia) l E) as Hd.
          unfold union in Hd. rewrite Hw, orb_true_r in Hd; discriminate. }
        eapply same_at_trans; [eapply run_frame; eauto|].
        apply (proj1 (Hj l)); auto; lia.
      * intros Hno. eapply same_at_trans.
        { eapply run_frame; eauto. }
        apply (proj2 (Hj l)). intros k Hk; apply Hno; lia.
    + exists (res k0 :: out), m'. split; [|split; [|split]].
      * cbn [seq_all]. rewrite run_bind, Hr1, run_bind, Ho1. reflexivity.
      * simpl; lia.
      * intros [|k] a Ha; simpl in Ha.
        { inversion Ha; subst. rewrite Nat.add_0_r; auto. }
        replace (k0 + S k)%nat with (S k0 + k)%nat by lia; auto.
      * replace (k0 + S (length ps))%nat with (S k0 + length ps)%nat by lia; auto.
Qed.

Theorem seq_all_joined n Rs Ws m0 res ms ps :
  race_free n Rs Ws -> length ps = n -> within Rs Ws ps ->
  (forall k p, nth_error ps k = Some p -> run p m0 = Some (res k, ms k)) ->
  exists out m', run (seq_all ps) m0 = Some (out, m') /\ length out = n /\
    (forall k a, nth_error out k = Some a -> a = res k) /\ joined n Ws m0 ms m'.
Proof.
  intros Hrf Hlen Hfit Hrun; subst n.
  apply (seq_all_joined_aux Rs Ws m0 res ms ps O m0); auto.
  intros l; split; [intros; lia|intros; apply same_at_refl].
Qed.

(** If the tasks, run one after the other, succeed, then each succeeds on its own. *)
Lemma seq_all_solo_aux Rs Ws m0 : forall ps k0 m out m',
  race_free (k0 + length ps) Rs Ws ->
  (forall k p, nth_error ps k = Some p -> fits (Rs (k0 + k)%nat) (Ws (k0 + k)%nat) p) ->
  (forall l, (forall k, (k < k0)%nat -> Ws k l = false) -> same_at m m0 l) ->
  run (seq_all ps) m = Some (out, m') ->
  forall k p, nth_error ps k = Some p -> exists a mk, run p m0 = Some (a, mk).
Proof.
  induction ps as [|p ps IH]; intros k0 m out m' Hrf Hfit Hm Hrun k q Hq.
  - destruct k; discriminate.
  - cbn [seq_all] in Hrun. rewrite run_bind in Hrun.
    destruct (run p m) as [[a m1]|] eqn:E; [|discriminate].
    rewrite run_bind in Hrun.
    destruct (run (seq_all ps) m1) as [[out1 m2]|] eqn:E1; [|discriminate].
    simpl length in *.
    pose proof (Hfit O p eq_refl) as Hf. rewrite Nat.add_0_r in Hf.
    destruct k as [|k]; simpl in Hq.
    + inversion Hq; subst q.
      destruct (run_local _ _ p m m0 a m1 Hf) as (mk & H1 & _); eauto.
      intros l Hl. apply Hm. intros j Hj. destruct (Ws j l) eqn:Ew; auto.
      pose proof (Hrf j k0 ltac:(lia) ltac:(lia) ltac:(lia) l Ew) as Hd.
      unfold union in Hd; congruence.
    + eapply (IH (S k0) m1 out1 m2); eauto.
      * replace (S k0 + length ps)%nat with (k0 + S (length ps))%nat by lia; auto.
      * intros j q' Hq'. replace (S k0 + j)%nat with (k0 + S j)%nat by lia. apply Hfit; auto.
      * intros l Hl. eapply same_at_trans.
        { eapply run_frame; eauto. }
        apply Hm; intros j Hj; apply Hl; lia.
Qed.

(** Schedule independence, stated against sequential execution: if running the tasks one
    after the other succeeds, then no interleaving faults, and any interleaving that
    finishes all tasks gives the same results and the same memory. *)
Theorem interleaving_sequential n Rs Ws m0 ps out m1 sched :
  race_free n Rs Ws -> length ps = n -> within Rs Ws ps ->
  run (seq_all ps) m0 = Some (out, m1) ->
  exists ps' m', exec sched ps m0 = Some (ps', m') /\
    forall out', ps' = map Ret out' -> out' = out /\ mem_eq m' m1.
Proof.
  intros Hrf Hlen Hfit Hrun.
  assert (Hsolo : forall k p, nth_error ps k = Some p ->
      exists a mk, run p m0 = Some (a, mk)).
  { eapply (seq_all_solo_aux Rs Ws m0 ps O m0); eauto.
    - rewrite Hlen; auto.
    - intros; apply same_at_refl. }
  destruct ps as [|p0 ps0] eqn:Eps.
  { simpl in *; inversion Hrun; subst.
    assert (He : exec sched (@nil (prog V A)) m1 = Some ([], m1)).
    { clear. induction sched as [|k sched IH]; simpl; auto. unfold step_task.
      destruct k; simpl; auto. }
    exists [], m1; split; auto.
    intros [|a out'] Ho; [split; auto; apply mem_eq_refl|discriminate]. }
  destruct (Hsolo O p0 eq_refl) as (a0 & mk0 & _).
  rewrite <- Eps in *. clear Eps.
  set (res := fun k => match nth_error ps k with
                       | Some p => match run p m0 with Some (a, _) => a | None => a0 end
                       | None => a0 end).
  set (ms := fun k => match nth_error ps k with
                      | Some p => match run p m0 with Some (_, mk) => mk | None => m0 end
                      | None => m0 end).
  assert (Hr : forall k p, nth_error ps k = Some p -> run p m0 = Some (res k, ms k)).
  { intros k p Hp. destruct (Hsolo k p Hp) as (a & mk & Ha).
    unfold res, ms; rewrite Hp, Ha; auto. }
  destruct (interleaving_joined n Rs Ws m0 res ms ps sched) as (ps' & m' & H1 & H2); auto.
  destruct (seq_all_joined n Rs Ws m0 res ms ps) as (o & m2 & H3 & H4 & H5 & H6); auto.
  rewrite H3 in Hrun; inversion Hrun; subst o m2.
  exists ps', m'; split; auto. intros out' Ho.
  destruct (H2 _ Ho) as [H7 H8]. split.
  - assert (Hl : length out' = length out).
    { rewrite H4. assert (Hx : length ps' = n).
      { clear -H1 Hlen. revert ps m0 Hlen H1. induction sched as [|k sched IH]; simpl; intros ps m0 Hlen H1.
        - inversion H1; subst; auto.
        - destruct (step_task ps m0 k) as [[ps1 m1]|] eqn:E; [|discriminate].
          eapply IH; [|exact H1]. unfold step_task in E.
          destruct (nth_error ps k); [|inversion E; subst; auto].
          destruct (step p m0) as [[p1 m2]|]; inversion E; subst.
          rewrite length_replace_nth; auto. }
      rewrite Ho, map_length in Hx; auto. }
    assert (forall (l1 l2 : list A), length l1 = length l2 ->
       (forall k a b, nth_error l1 k = Some a -> nth_error l2 k = Some b -> a = b) -> l1 = l2) as Hext.
    { induction l1 as [|x l1 IH]; intros [|y l2] Hl12 He; simpl in *; try discriminate; auto.
      f_equal; [apply (He O); auto|apply IH; [lia|]].
      intros k a b Ha Hb; apply (He (S k)); auto. }
    apply Hext; auto.
    intros k a b Ha Hb. rewrite (H5 _ _ Hb); auto.
  - eapply joined_unique; eauto.
Qed.

(** ** Completion *)

Lemma exec_app s1 s2 ps m :
  exec (s1 ++ s2) ps m =
  match exec s1 ps m with Some (ps', m') => exec s2 ps' m' | None => None end.
Proof.
  revert ps m; induction s1 as [|k s1 IH]; intros ps m; simpl; auto.
  destruct (step_task ps m k) as [[ps1 m1]|]; auto.
Qed.

Lemma replace_nth_same ps k p : nth_error ps k = Some p -> replace_nth ps k p = ps.
Proof.
  revert k; induction ps as [|q ps IH]; intros [|k] H; simpl in *; try discriminate; auto.
  - congruence.
  - f_equal; auto.
Qed.

Lemma replace_nth_twice ps k p q : replace_nth (replace_nth ps k p) k q = replace_nth ps k q.
Proof. revert k; induction ps as [|r ps IH]; intros [|k]; simpl; auto. f_equal; auto. Qed.

(** A task that would succeed on its own can be run to completion. *)
Lemma exec_finish_one (p : prog V A) : forall k ps m a m',
  nth_error ps k = Some p -> run p m = Some (a, m') ->
  exists n, exec (repeat k n) ps m = Some (replace_nth ps k (Ret a), m').
Proof.
  assert (Hstep : forall (p p1 : prog V A) k ps m m1 a m',
    nth_error ps k = Some p -> step p m = Some (p1, m1) ->
    (exists n, exec (repeat k n) (replace_nth ps k p1) m1 =
       Some (replace_nth (replace_nth ps k p1) k (Ret a), m')) ->
    exists n, exec (repeat k n) ps m = Some (replace_nth ps k (Ret a), m')).
  { intros q q1 k ps m m1 a m' Hk Hs [n Hn]. exists (S n). cbn [repeat exec].
    unfold step_task. rewrite Hk, Hs, Hn, replace_nth_twice. auto. }
  assert (Hnth : forall ps k p q, nth_error ps k = Some p ->
    nth_error (replace_nth ps k q) k = Some q).
  { intros ps k p0 q H. apply nth_error_replace_same. apply nth_error_Some; congruence. }
  induction p as [a0|b i f IH|b i v q IH|b i f IH|b i x q IH|]; intros k ps m a m' Hk Hrun.
  - inversion Hrun; subst. exists O. simpl. rewrite replace_nth_same; auto.
  - cbn [run] in Hrun. destruct (mval m b i) as [v|] eqn:E; [|discriminate].
    eapply Hstep with (p1 := f v) (m1 := m); [exact Hk|cbn [step]; rewrite E; auto|].
    eapply IH; eauto.
  - cbn [run] in Hrun. destruct (mval m b i) as [w|] eqn:E; [|discriminate].
    eapply Hstep with (p1 := q) (m1 := set_v m b i v); [exact Hk|cbn [step]; rewrite E; auto|].
    eapply IH; eauto.
  - cbn [run] in Hrun. destruct (mmsk m b i) as [v|] eqn:E; [|discriminate].
    eapply Hstep with (p1 := f v) (m1 := m); [exact Hk|cbn [step]; rewrite E; auto|].
    eapply IH; eauto.
  - cbn [run] in Hrun. destruct (mmsk m b i) as [w|] eqn:E; [|discriminate].
    eapply Hstep with (p1 := q) (m1 := set_m m b i x); [exact Hk|cbn [step]; rewrite E; auto|].
    eapply IH; eauto.
  - discriminate.
Qed.

Definition is_ret (p : prog V A) : Prop := exists a, p = Ret a.

Lemma conc_inv_complete n Rs Ws m0 res ms : race_free n Rs Ws ->
  forall ps m, conc_inv n Rs Ws m0 res ms ps m ->
  exists sched ps' m', exec sched ps m = Some (ps', m') /\ Forall is_ret ps'.
Proof.
  intros Hrf.
  (* finish tasks 0 .. k-1 *)
  assert (Hk : forall k ps m, conc_inv n Rs Ws m0 res ms ps m -> (k <= n)%nat ->
    exists sched ps' m', exec sched ps m = Some (ps', m') /\
      conc_inv n Rs Ws m0 res ms ps' m' /\
      forall j p, (j < k)%nat -> nth_error ps' j = Some p -> is_ret p).
  { induction k as [|k IH]; intros ps m Hinv Hkn.
    - exists [], ps, m. split; [auto|split; auto]. intros; lia.
    - destruct (IH ps m Hinv) as (s1 & ps1 & m1 & E1 & I1 & D1); [lia|].
      destruct (nth_error ps1 k) as [p|] eqn:Ep.
      2: { apply nth_error_None in Ep. destruct I1 as (L & _). lia. }
      pose proof I1 as (L1 & F1 & R1 & _).
      destruct (R1 k p Ep) as (mk & Hr & _).
      destruct (exec_finish_one p k ps1 m1 (res k) mk Ep Hr) as (c & Ec).
      destruct (conc_inv_exec n Rs Ws m0 res ms (repeat k c) Hrf ps1 m1 I1)
        as (ps2 & m2 & E2 & I2).
      rewrite Ec in E2; inversion E2; subst ps2 m2.
      exists (s1 ++ repeat k c), (replace_nth ps1 k (Ret (res k))), mk.
      split; [rewrite exec_app, E1; auto|]. split; auto.
      intros j q Hj Hq. destruct (Nat.eq_dec j k) as [->|Hne].
      + rewrite nth_error_replace_same in Hq by (apply nth_error_Some; congruence).
        inversion Hq; eexists; auto.
      + rewrite nth_error_replace_other in Hq by auto. eapply D1; [|exact Hq]; lia. }
  intros ps m Hinv. destruct (Hk n ps m Hinv (Nat.le_refl n)) as (s & ps' & m' & E & I' & D).
  exists s, ps', m'. split; auto. apply Forall_forall. intros p Hp.
  apply In_nth_error in Hp as [j Hj]. eapply D; [|exact Hj].
  destruct I' as (L & _). rewrite <- L. apply nth_error_Some; congruence.
Qed.

(** Every partial execution can be extended to a complete one. *)
Theorem interleaving_completes n Rs Ws m0 ps out m1 sched :
  race_free n Rs Ws -> length ps = n -> within Rs Ws ps ->
  run (seq_all ps) m0 = Some (out, m1) ->
  exists sched' ps' m', exec (sched ++ sched') ps m0 = Some (ps', m') /\
    ps' = map Ret out /\ mem_eq m' m1.
Proof.
  intros Hrf Hlen Hfit Hrun.
  assert (Hsolo : forall k p, nth_error ps k = Some p ->
      exists a mk, run p m0 = Some (a, mk)).
  { eapply (seq_all_solo_aux Rs Ws m0 ps O m0); eauto.
    - rewrite Hlen; auto.
    - intros; apply same_at_refl. }
  destruct (interleaving_sequential n Rs Ws m0 ps out m1 sched Hrf Hlen Hfit Hrun)
    as (ps1 & m2 & E1 & _).
  assert (Hc : exists sched' ps' m', exec sched' ps1 m2 = Some (ps', m') /\ Forall is_ret ps').
  { destruct ps as [|p0 ps0] eqn:Eps.
    { exists [], ps1, m2. split; auto. assert (ps1 = []).
      { clear -E1. revert m0 E1; induction sched as [|k s IH]; simpl; intros m0 E1.
        - inversion E1; auto.
        - unfold step_task in E1. destruct k; simpl in E1; eauto. }
      subst; constructor. }
    destruct (Hsolo O p0 eq_refl) as (a0 & mk0 & _). rewrite <- Eps in *. clear Eps.
    set (res := fun k => match nth_error ps k with
                         | Some p => match run p m0 with Some (a, _) => a | None => a0 end
                         | None => a0 end).
    set (ms := fun k => match nth_error ps k with
                        | Some p => match run p m0 with Some (_, mk) => mk | None => m0 end
                        | None => m0 end).
    assert (Hr : forall k p, nth_error ps k = Some p -> run p m0 = Some (res k, ms k)).
    { intros k p Hp. destruct (Hsolo k p Hp) as (a & mk & Ha).
      unfold res, ms; rewrite Hp, Ha; auto. }
    assert (Hinit : conc_inv n Rs Ws m0 res ms ps m0) by (apply conc_inv_init; auto).
    destruct (conc_inv_exec n Rs Ws m0 res ms sched Hrf ps m0 Hinit) as (ps2 & m3 & E2 & I2).
    rewrite E1 in E2; inversion E2; subst.
    eapply conc_inv_complete; eauto. }
  destruct Hc as (sched' & ps' & m' & E2 & Hret).
  exists sched', ps', m'.
  destruct (interleaving_sequential n Rs Ws m0 ps out m1 (sched ++ sched') Hrf Hlen Hfit Hrun)
    as (ps3 & m3 & E3 & H3).
  rewrite exec_app, E1, E2 in E3. inversion E3; subst ps3 m3.
  split; [rewrite exec_app, E1; auto|].
  assert (Ho : exists o, ps' = map Ret o).
  { clear -Hret. induction Hret as [|p ps' [a ->] _ [o ->]].
    - exists []; auto.
    - exists (a :: o); auto. }
  destruct Ho as [o Ho]. destruct (H3 o Ho) as [-> Hm]. auto.
Qed.

(** Running the tasks one after the other in another order. *)
Theorem reordered_sequential n Rs Ws m0 ps out m1 order (d : prog V A) :
  race_free n Rs Ws -> length ps = n -> within Rs Ws ps ->
  run (seq_all ps) m0 = Some (out, m1) ->
  (forall k, In k order <-> (k < n)%nat) -> NoDup order ->
  exists out' m', run (seq_all (map (fun k => nth k ps d) order)) m0 = Some (out', m') /\
    (forall k a, nth_error out k = Some a ->
       exists j, nth_error order j = Some k /\ nth_error out' j = Some a) /\
    mem_eq m' m1.
Proof.
  intros Hrf Hlen Hfit Hrun Hord Hnd.
  assert (Hsolo : forall k p, nth_error ps k = Some p ->
      exists a mk, run p m0 = Some (a, mk)).
  { eapply (seq_all_solo_aux Rs Ws m0 ps O m0); eauto.
    - rewrite Hlen; auto.
    - intros; apply same_at_refl. }
  destruct ps as [|p0 ps0] eqn:Eps.
  { simpl in Hlen. destruct order as [|k order].
    - exists [], m0. simpl in Hrun; inversion Hrun; subst. repeat split; auto.
      + intros k a Hk; destruct k; discriminate.
      + apply mem_eq_refl.
    - exfalso. assert (k < n)%nat by (apply Hord; left; auto). lia. }
  destruct (Hsolo O p0 eq_refl) as (a0 & mk0 & _). rewrite <- Eps in *. clear Eps.
  set (res := fun k => match nth_error ps k with
                       | Some p => match run p m0 with Some (a, _) => a | None => a0 end
                       | None => a0 end).
  set (ms := fun k => match nth_error ps k with
                      | Some p => match run p m0 with Some (_, mk) => mk | None => m0 end
                      | None => m0 end).
  assert (Hr : forall k p, nth_error ps k = Some p -> run p m0 = Some (res k, ms k)).
  { intros k p Hp. destruct (Hsolo k p Hp) as (a & mk & Ha).
    unfold res, ms; rewrite Hp, Ha; auto. }
  destruct (seq_all_joined n Rs Ws m0 res ms ps) as (o & m2 & H3 & H4 & H5 & H6); auto.
  rewrite H3 in Hrun; inversion Hrun; subst o m2.
  set (at_ := fun j => nth j order O).
  assert (Hlo : forall j, (j < length order)%nat -> (at_ j < n)%nat).
  { intros j Hj. apply Hord. apply nth_In; auto. }
  assert (Hps : forall j p, nth_error (map (fun k => nth k ps d) order) j = Some p ->
      nth_error ps (at_ j) = Some p /\ (j < length order)%nat).
  { intros j p Hp. rewrite nth_error_map in Hp.
    destruct (nth_error order j) as [k|] eqn:E; [|discriminate]. inversion Hp; subst p.
    assert (Hj : (j < length order)%nat) by (apply nth_error_Some; congruence).
    assert (Hk : at_ j = k) by (unfold at_; apply nth_error_nth; auto).
    split; auto. rewrite <- Hk. apply nth_error_nth'. rewrite Hlen; auto. }
  destruct (seq_all_joined (length order) (fun j => Rs (at_ j)) (fun j => Ws (at_ j)) m0
      (fun j => res (at_ j)) (fun j => ms (at_ j)) (map (fun k => nth k ps d) order))
    as (o' & m2 & G3 & G4 & G5 & G6).
  - intros i j Hi Hj Hij. apply Hrf; [apply Hlo; auto|apply Hlo; auto|].
    intros E. apply Hij. exact (proj1 (NoDup_nth order O) Hnd i j Hi Hj E).
  - apply map_length.
  - intros j p Hp. apply Hps in Hp as [Hp _]. apply Hfit; auto.
  - intros j p Hp. apply Hps in Hp as [Hp _]. apply Hr; auto.
  - exists o', m2. split; auto. split.
    + intros k a Hk. assert (Hkn : (k < n)%nat).
      { rewrite <- H4. apply nth_error_Some; congruence. }
      apply Hord in Hkn. apply In_nth_error in Hkn as [j Hj].
      exists j; split; auto.
      assert (Hjl : (j < length order)%nat) by (apply nth_error_Some; congruence).
      destruct (nth_error o' j) as [b|] eqn:Eb.
      * rewrite (G5 _ _ Eb), (H5 _ _ Hk). do 2 f_equal. unfold at_.
        apply nth_error_nth; auto.
      * apply nth_error_None in Eb. lia.
    + eapply joined_unique; [|exact H6]. intros l. destruct (G6 l) as [A1 B1]. split.
      * intros k Hk Hw. apply Hord in Hk as Hin. apply In_nth_error in Hin as [j Hj].
        assert (Hjl : (j < length order)%nat) by (apply nth_error_Some; congruence).
        assert (Ek : at_ j = k) by (unfold at_; apply nth_error_nth; auto).
        rewrite <- Ek. apply A1; auto. rewrite Ek; auto.
      * intros Hno. apply B1. intros j Hj. apply Hno; auto.
Qed.

End Conc.
