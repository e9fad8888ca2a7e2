(** Tasks that read only what no task writes: a footprint of what they really do. *)
From Coq Require Import ZArith List Bool Lia.
From Verif Require Import LangModel LangProofs ConcModel ConcProofs IndexSpec LoopModel LoopSpec
  LoopProofs.
Import ListNotations.
Open Scope Z_scope.

Section F.
Context {V : Type}.

(** A single write. *)
Inductive wr := WV (b : buf) (i : Z) (v : V) | WM (b : buf) (i : Z) (x : bool).

Definition wloc (w : wr) : loc := match w with WV b i _ => LV b i | WM b i _ => LM b i end.
Definition apply (m : mem V) (w : wr) : mem V :=
  match w with WV b i v => set_v m b i v | WM b i x => set_m m b i x end.
Definition writes (ws : list wr) (m : mem V) : mem V := fold_left apply ws m.
Definition present (m : mem V) (l : loc) : Prop :=
  match l with LV b i => mval m b i <> None | LM b i => mmsk m b i <> None end.

Section C.
Variable C : loc -> bool.

(** Reading only locations in [C], from [m], the program performs the writes [ws] and
    returns [a]. *)
Fixpoint does {A} (m : mem V) (p : prog V A) (ws : list wr) (a : A) : Prop :=
  match p with
  | Ret a' => ws = [] /\ a' = a
  | RdV b i k => C (LV b i) = true /\ exists v, mval m b i = Some v /\ does m (k v) ws a
  | RdM b i k => C (LM b i) = true /\ exists x, mmsk m b i = Some x /\ does m (k x) ws a
  | WrV b i v k => exists ws', ws = WV b i v :: ws' /\ does m k ws' a
  | WrM b i x k => exists ws', ws = WM b i x :: ws' /\ does m k ws' a
  | UB => False
  end.

Definition agree (m m' : mem V) : Prop := forall l, C l = true -> same_at m m' l.

Lemma does_bind {A B} m (p : prog V A) (f : A -> prog V B) ws1 ws2 a b :
  does m p ws1 a -> does m (f a) ws2 b -> does m (bind p f) (ws1 ++ ws2) b.
Proof.
  intros Hp Hf. revert ws1 Hp.
  induction p as [a'|b' i k IH|b' i v k IH|b' i k IH|b' i x k IH|]; intros ws1 Hp; cbn in *.
  - destruct Hp as [-> ->]. exact Hf.
  - destruct Hp as (H1 & v & H2 & H3). eauto.
  - destruct Hp as (ws' & -> & H). exists (ws' ++ ws2). auto.
  - destruct Hp as (H1 & v & H2 & H3). eauto.
  - destruct Hp as (ws' & -> & H). exists (ws' ++ ws2). auto.
  - tauto.
Qed.
Lemma does_bind0 {A B} m (p : prog V A) (f : A -> prog V B) ws2 a b :
  does m p [] a -> does m (f a) ws2 b -> does m (bind p f) ws2 b.
Proof. intros H1 H2. exact (does_bind m p f [] ws2 a b H1 H2). Qed.

Lemma apply_mono m m' w l : same_at m m' l -> same_at (apply m w) (apply m' w) l.
Proof. destruct w; [apply set_v_mono|apply set_m_mono]. Qed.
Lemma apply_other m w l : wloc w <> l -> same_at (apply m w) m l.
Proof. destruct w; intros; [apply set_v_other|apply set_m_other]; cbn in *; congruence. Qed.
Lemma apply_present m w l : present m (wloc w) -> (present (apply m w) l <-> present m l).
Proof.
  intros H. destruct w as [b i v|b i x], l as [b' i'|b' i']; cbn in *; try tauto;
    destruct (same b b' i i') eqn:E; try tauto; apply same_spec in E as [-> ->];
    (split; [auto|discriminate]).
Qed.

Lemma does_run {A} m (p : prog V A) : forall ws a m', does m p ws a -> agree m m' ->
  Forall (fun w => C (wloc w) = false /\ present m' (wloc w)) ws ->
  run p m' = Some (a, writes ws m').
Proof.
  assert (HA : forall ws w m', agree m m' -> C (wloc w) = false /\ present m' (wloc w) ->
    Forall (fun w => C (wloc w) = false /\ present m' (wloc w)) ws ->
    agree m (apply m' w) /\
    Forall (fun w' => C (wloc w') = false /\ present (apply m' w) (wloc w')) ws).
  { intros ws w m' Hag [Hw Hp] HF. split.
    - intros l Hl. eapply same_at_trans; [apply Hag; auto|].
      apply same_at_sym, apply_other. congruence.
    - eapply Forall_impl; [|exact HF]. intros w' [H1 H2]. split; auto. apply apply_present; auto. }
  induction p as [a'|b i k IH|b i v k IH|b i k IH|b i x k IH|]; intros ws a m' Hd Hag HF; cbn in *.
  - destruct Hd as [-> ->]. reflexivity.
  - destruct Hd as (H1 & v & H2 & H3). pose proof (Hag _ H1) as E. cbn in E. rewrite <- E, H2. auto.
  - destruct Hd as (ws' & -> & H). inversion HF as [|? ? Hw HF']; subst.
    destruct (HA ws' _ m' Hag Hw HF') as [G1 G2].
    destruct Hw as [_ Hw]. cbn in Hw. destruct (mval m' b i); [|congruence].
    cbn [writes fold_left]. apply IH; auto.
  - destruct Hd as (H1 & v & H2 & H3). pose proof (Hag _ H1) as E. cbn in E. rewrite <- E, H2. auto.
  - destruct Hd as (ws' & -> & H). inversion HF as [|? ? Hw HF']; subst.
    destruct (HA ws' _ m' Hag Hw HF') as [G1 G2].
    destruct Hw as [_ Hw]. cbn in Hw. destruct (mmsk m' b i); [|congruence].
    cbn [writes fold_left]. apply IH; auto.
  - tauto.
Qed.

(** The program with the outcome of its reads filled in. *)
Fixpoint frozen {A} (m : mem V) (p : prog V A) : prog V A :=
  match p with
  | Ret a => Ret a
  | RdV b i k => RdV b i (fun _ => match mval m b i with Some v => frozen m (k v) | None => UB end)
  | RdM b i k => RdM b i (fun _ => match mmsk m b i with Some v => frozen m (k v) | None => UB end)
  | WrV b i v k => WrV b i v (frozen m k)
  | WrM b i x k => WrM b i x (frozen m k)
  | UB => UB
  end.

Lemma frozen_fits {A} m (p : prog V A) (W : loc -> bool) : forall ws a, does m p ws a ->
  Forall (fun w => W (wloc w) = true) ws -> fits C W (frozen m p).
Proof.
  induction p as [a'|b i k IH|b i v k IH|b i k IH|b i x k IH|]; intros ws a Hd HF; cbn in *; auto.
  - destruct Hd as (H1 & v & H2 & H3). rewrite H1. split; auto. intros _. rewrite H2. eapply IH; eauto.
  - destruct Hd as (ws' & -> & H). inversion HF; subst. split; eauto.
  - destruct Hd as (H1 & v & H2 & H3). rewrite H1. split; auto. intros _. rewrite H2. eapply IH; eauto.
  - destruct Hd as (ws' & -> & H). inversion HF; subst. split; eauto.
Qed.

Lemma next_frozen {A} m (p : prog V A) : next_access (frozen m p) = next_access p.
Proof. destruct p; reflexivity. Qed.

Definition fstep {A} m0 (o : option (prog V A * mem V)) :=
  option_map (fun r => (frozen m0 (fst r), snd r)) o.
Definition fexec {A} m0 (o : option (list (prog V A) * mem V)) :=
  option_map (fun r => (map (frozen m0) (fst r), snd r)) o.

(** What task [k] still does is write inside [Ws k], which is disjoint from [C]. *)
Definition busy {A} m0 (Ws : nat -> loc -> bool) (ps : list (prog V A)) : Prop :=
  forall k p, nth_error ps k = Some p ->
    exists ws a, does m0 p ws a /\ Forall (fun w => Ws k (wloc w) = true) ws.

Lemma step_frozen {A} m0 m (p : prog V A) ws a W :
  does m0 p ws a -> Forall (fun w => W (wloc w) = true) ws ->
  (forall l, C l = true -> W l = false) -> agree m0 m ->
  step (frozen m0 p) m = fstep m0 (step p m) /\
  (forall p' m', step p m = Some (p', m') ->
     agree m0 m' /\ exists ws', does m0 p' ws' a /\ Forall (fun w => W (wloc w) = true) ws').
Proof.
  intros Hd HF HC Hag.
  assert (HW : forall w, W (wloc w) = true -> agree m0 (apply m w)).
  { intros w Hw l Hl. eapply same_at_trans; [apply Hag; auto|].
    apply same_at_sym, apply_other. intros <-. rewrite HC in Hw; congruence. }
  destruct p as [a'|b i k|b i v k|b i k|b i x k|]; cbn in *.
  - split; auto. intros p' m' E. inversion E; subst. eauto.
  - destruct Hd as (H1 & v & H2 & H3). pose proof (Hag _ H1) as E. cbn in E. rewrite <- E, H2.
    split; [reflexivity|]. intros p' m' E'. inversion E'; subst. eauto.
  - destruct Hd as (ws' & -> & H). inversion HF as [|? ? Hw HF']; subst. split.
    + destruct (mval m b i); reflexivity.
    + intros p' m' E. destruct (mval m b i); inversion E; subst. split; eauto.
      exact (HW (WV b i v) Hw).
  - destruct Hd as (H1 & v & H2 & H3). pose proof (Hag _ H1) as E. cbn in E. rewrite <- E, H2.
    split; [reflexivity|]. intros p' m' E'. inversion E'; subst. eauto.
  - destruct Hd as (ws' & -> & H). inversion HF as [|? ? Hw HF']; subst. split.
    + destruct (mmsk m b i); reflexivity.
    + intros p' m' E. destruct (mmsk m b i); inversion E; subst. split; eauto.
      exact (HW (WM b i x) Hw).
  - tauto.
Qed.

Lemma map_replace_nth {X Y} (f : X -> Y) l k x :
  map f (replace_nth l k x) = replace_nth (map f l) k (f x).
Proof. revert k; induction l as [|y l IH]; intros [|k]; cbn; auto. now rewrite IH. Qed.

Lemma exec_frozen {A} m0 Ws sched : (forall k l, C l = true -> Ws k l = false) ->
  forall (ps : list (prog V A)) m, busy m0 Ws ps -> agree m0 m ->
  exec sched (map (frozen m0) ps) m = fexec m0 (exec sched ps m).
Proof.
  intros HC. induction sched as [|k sched IH]; intros ps m Hb Hag; [reflexivity|].
  cbn [exec]. unfold step_task. rewrite nth_error_map.
  destruct (nth_error ps k) as [p|] eqn:E; cbn [option_map]; [|auto].
  destruct (Hb k p E) as (ws & a & Hd & HF).
  destruct (step_frozen m0 m p ws a (Ws k) Hd HF (HC k) Hag) as [H1 H2].
  rewrite H1. destruct (step p m) as [[p' m']|] eqn:Es; cbn [fstep option_map fst snd]; [|reflexivity].
  destruct (H2 p' m' eq_refl) as [G1 (ws' & G2 & G3)].
  rewrite <- map_replace_nth. apply IH; auto.
  intros j q Hq. destruct (Nat.eq_dec j k) as [->|N].
  - rewrite nth_error_replace_same in Hq by (apply nth_error_Some; congruence).
    inversion Hq; subst. eauto.
  - rewrite nth_error_replace_other in Hq by auto. eauto.
Qed.

Lemma all_done_frozen m0 (ps : list (prog V unit)) : all_done (map (frozen m0) ps) = all_done ps.
Proof. unfold all_done. induction ps as [|p ps IH]; cbn; auto. rewrite IH. destruct p; reflexivity. Qed.

(** The main result: tasks whose actual writes are disjoint. *)
Theorem disjoint_tasks (ps : list (prog V unit)) (wss : list (list wr)) m0 :
  Forall2 (fun p ws => does m0 p ws tt) ps wss ->
  (forall k ws w, nth_error wss k = Some ws -> In w ws ->
     C (wloc w) = false /\ present m0 (wloc w)) ->
  (forall i j ws ws' w w', i <> j -> nth_error wss i = Some ws -> nth_error wss j = Some ws' ->
     In w ws -> In w' ws' -> wloc w <> wloc w') ->
  always_yields ps m0 (writes (concat wss) m0).
Proof.
  intros HF HC Hdis.
  set (inW := fun (ws : list wr) (l : loc) =>
    existsb (fun w => match wloc w, l with
                      | LV b i, LV b' i' => same b b' i i'
                      | LM b i, LM b' i' => same b b' i i'
                      | _, _ => false end) ws).
  assert (inW_spec : forall ws l, inW ws l = true <-> exists w, In w ws /\ wloc w = l).
  { intros ws l. unfold inW. rewrite existsb_exists. split.
    - intros (w & H1 & H2). exists w. split; auto.
      destruct (wloc w), l; try discriminate; apply same_spec in H2 as [-> ->]; auto.
    - intros (w & H1 & <-). exists w. split; auto. destruct (wloc w); apply same_refl. }
  set (Ws := fun k => inW (nth k wss [])).
  assert (Wn : forall k ws, nth_error wss k = Some ws -> Ws k = inW ws).
  { intros k ws E. unfold Ws. rewrite (nth_error_nth wss k [] E). auto. }
  assert (HCW : forall k l, C l = true -> Ws k l = false).
  { intros k l Hl. destruct (Ws k l) eqn:E; auto. unfold Ws in E. apply inW_spec in E as (w & Hw & <-).
    destruct (nth_error wss k) as [ws|] eqn:En.
    - rewrite (nth_error_nth wss k [] En) in Hw. destruct (HC k ws w En Hw). congruence.
    - apply nth_error_None in En. rewrite nth_overflow in Hw by auto. destruct Hw. }
  assert (HF2 : forall k p, nth_error ps k = Some p ->
            exists ws, nth_error wss k = Some ws /\ does m0 p ws tt).
  { clear -HF. induction HF as [|p ws ps wss H _ IH]; intros [|k] q Hq; cbn in *; try discriminate.
    - inversion Hq; subst; eauto. - auto. }
  assert (Hb : busy m0 Ws ps).
  { intros k p Hp. destruct (HF2 k p Hp) as (ws & En & Hd). exists ws, tt. split; auto.
    apply Forall_forall. intros w Hw. rewrite (Wn k ws En). apply inW_spec. eauto. }
  set (qs := map (frozen m0) ps).
  assert (Hlen : length qs = length ps) by apply map_length.
  assert (Hrf : race_free (length ps) (fun _ => C) Ws).
  { intros i j Hi Hj Hij l Hl. unfold union.
    destruct (C l) eqn:E; [rewrite HCW in Hl; congruence|]. cbn [orb].
    destruct (Ws j l) eqn:E2; auto.
    assert (Li : exists ws, nth_error wss i = Some ws).
    { destruct (nth_error ps i) as [p|] eqn:Ep; [destruct (HF2 i p Ep) as (ws & ? & _); eauto|].
      apply nth_error_None in Ep. lia. }
    assert (Lj : exists ws, nth_error wss j = Some ws).
    { destruct (nth_error ps j) as [p|] eqn:Ep; [destruct (HF2 j p Ep) as (ws & ? & _); eauto|].
      apply nth_error_None in Ep. lia. }
    destruct Li as [ws Ei], Lj as [ws' Ej]. rewrite (Wn i ws Ei) in Hl. rewrite (Wn j ws' Ej) in E2.
    apply inW_spec in Hl as (w & H1 & H2). apply inW_spec in E2 as (w' & H3 & H4).
    exfalso. apply (Hdis i j ws ws' w w'); auto. congruence. }
  assert (Hwi : within (fun _ => C) Ws qs).
  { intros k q Hq. unfold qs in Hq. rewrite nth_error_map in Hq.
    destruct (nth_error ps k) as [p|] eqn:Ep; [|discriminate]. inversion Hq; subst.
    destruct (Hb k p Ep) as (ws & a & Hd & HW). eapply frozen_fits; eauto. }
  assert (Hag : agree m0 m0) by (intros l _; apply same_at_refl).
  assert (Hex : forall sched, exec sched qs m0 = fexec m0 (exec sched ps m0)).
  { intros sched. apply (exec_frozen m0 Ws); auto. }
  (* the sequential run of the frozen tasks *)
  assert (Hseq : run (seq_all qs) m0 = Some (repeat tt (length ps), writes (concat wss) m0)).
  { clear Hex Hwi Hrf Hlen Hb HF2 Wn HCW Ws inW_spec inW.
    assert (HG : forall m, agree m0 m ->
       (forall k ws w, nth_error wss k = Some ws -> In w ws -> C (wloc w) = false /\ present m (wloc w)) ->
       run (seq_all qs) m = Some (repeat tt (length ps), writes (concat wss) m)).
    { unfold qs. clear HC Hdis qs Hag. induction HF as [|p ws ps wss H _ IH]; intros m Hag HC.
      - reflexivity.
      - cbn [map seq_all concat length repeat]. rewrite run_bind.
        assert (Hdf : does m0 (frozen m0 p) ws tt).
        { clear -H. revert ws H. induction p as [a'|b i k IH|b i v k IH|b i k IH|b i x k IH|];
            intros ws H; cbn in *; auto.
          - destruct H as (H1 & v & H2 & H3). split; auto. exists v. split; auto. rewrite H2. auto.
          - destruct H as (ws' & -> & H). eauto.
          - destruct H as (H1 & v & H2 & H3). split; auto. exists v. split; auto. rewrite H2. auto.
          - destruct H as (ws' & -> & H). eauto. }
        assert (HF0 : Forall (fun w => C (wloc w) = false /\ present m (wloc w)) ws).
        { apply Forall_forall. intros w Hw. apply (HC 0%nat ws w eq_refl Hw). }
        rewrite (does_run m0 (frozen m0 p) ws tt m Hdf Hag HF0). rewrite run_bind.
        assert (Hst : agree m0 (writes ws m) /\ forall l, present (writes ws m) l <-> present m l).
        { clear -HF0 Hag. revert m Hag HF0. induction ws as [|w ws IH]; intros m Hag HF; cbn; [tauto|].
          inversion HF as [|? ? [Hw1 Hw2] HF']; subst.
          destruct (IH (apply m w)) as [G1 G2].
          - intros l Hl. eapply same_at_trans; [apply Hag; auto|].
            apply same_at_sym, apply_other. congruence.
          - eapply Forall_impl; [|exact HF']. intros w' [A1 A2]. split; auto. apply apply_present; auto.
          - split; auto. intros l. rewrite G2. apply apply_present; auto. }
        destruct Hst as [S1 S2].
        rewrite (IH (writes ws m)); auto.
        + unfold writes. rewrite fold_left_app. reflexivity.
        + intros k ws' w Hk Hw. destruct (HC (S k) ws' w Hk Hw) as [A1 A2]. split; auto. apply S2; auto. }
    apply HG; auto. }
  split.
  - intros sched ps' m' E i j p q l w w' Hij Hp Hq Np Nq.
    assert (NR := race_free_no_race (length ps) (fun _ => C) Ws qs m0 Hlen Hrf Hwi).
    eapply (NR sched (map (frozen m0) ps') m') with (i := i) (j := j) (p := frozen m0 p) (q := frozen m0 q).
    + rewrite Hex, E. reflexivity.
    + auto. + rewrite nth_error_map, Hp; auto. + rewrite nth_error_map, Hq; auto.
    + rewrite next_frozen; eauto. + rewrite next_frozen; eauto.
  - intros sched.
    destruct (interleaving_sequential (length ps) (fun _ => C) Ws m0 qs _ _ sched Hrf Hlen Hwi Hseq)
      as (ps' & m' & H1 & H2).
    destruct (interleaving_completes (length ps) (fun _ => C) Ws m0 qs _ _ sched Hrf Hlen Hwi Hseq)
      as (s' & ps2 & m2 & H3 & H4 & _).
    rewrite Hex in H1. destruct (exec sched ps m0) as [[ps1 m1]|] eqn:E1; [|discriminate].
    cbn in H1. inversion H1; subst ps' m'. exists ps1, m1. split; auto. split.
    + intros Hd.
      assert (Ho : map (frozen m0) ps1 = map Ret (repeat tt (length ps1))).
      { rewrite <- (all_done_frozen m0) in Hd. clear -Hd. unfold all_done in Hd.
        induction ps1 as [|p ps1 IH]; simpl in *; auto.
        apply andb_true_iff in Hd as [Hp Hd]. rewrite IH by auto.
        destruct p as [[]| | | | |]; try discriminate; auto. }
      apply (H2 _ Ho).
    + rewrite Hex in H3. destruct (exec (sched ++ s') ps m0) as [[ps3 m3]|] eqn:E3; [|discriminate].
      cbn in H3. injection H3 as Ea Eb. exists s', ps3, m3.
      rewrite exec_app, E1 in E3. split; auto.
      rewrite <- (all_done_frozen m0), Ea, H4. generalize (length ps). clear. intros n. induction n; simpl; auto.
Qed.
End C.
End F.
Arguments wr V : clear implicits.
