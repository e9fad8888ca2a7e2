(** Element loops: a loop whose iterations only touch their own element of the result
    gives, at each element, what that iteration gives on the initial memory; and it may be
    distributed over tasks. *)
From Coq Require Import ZArith List Bool Lia FinFun.
From Verif Require Import LangModel LangProofs ConcModel ConcProofs IndexModel IndexSpec
  IndexProofs LoopModel LoopSpec.
Import ListNotations.
Open Scope Z_scope.

Section Loops.
Context {V : Type}.
Implicit Types m : mem V.

Fixpoint for_list (l : list Z) (body : Z -> prog V unit) : prog V unit :=
  match l with
  | [] => Ret tt
  | i :: l' => seq (body i) (for_list l' body)
  end.

Lemma run_for_list_app l1 l2 body m :
  run (for_list (l1 ++ l2) body) m = run (seq (for_list l1 body) (for_list l2 body)) m.
Proof.
  rewrite run_seq; revert m; induction l1 as [|i l1 IH]; intros m; auto.
  cbn [app for_list]. rewrite !run_seq.
  destruct (run (body i) m) as [[[] m']|]; auto.
Qed.

Lemma run_for_list_ext l body body' : (forall i m, In i l -> run (body i) m = run (body' i) m) ->
  forall m, run (for_list l body) m = run (for_list l body') m.
Proof.
  induction l as [|i l IH]; intros H m; auto.
  cbn [for_list]. rewrite !run_seq, H by (left; auto).
  destruct (run (body' i) m) as [[[] m']|]; auto. apply IH. intros; apply H; right; auto.
Qed.

Lemma run_for_list_map l (t : Z -> Z) body m :
  run (for_list (map t l) body) m = run (for_list l (fun i => body (t i))) m.
Proof.
  revert m; induction l as [|i l IH]; intros m; auto.
  cbn [map for_list]. rewrite !run_seq. destruct (run (body (t i)) m) as [[[] m']|]; auto.
Qed.

Lemma run_for_range b e body m :
  run (for_range b e body) m = run (for_list (zrange b e) body) m.
Proof.
  remember (Z.to_nat (e - b)) as n eqn:En.
  revert b En m; induction n as [|n IH]; intros b En m.
  - rewrite for_range_empty, zrange_nil by lia. reflexivity.
  - rewrite zrange_cons by lia. cbn [for_list]. rewrite run_seq.
    unfold for_range, fold_range. rewrite <- En. cbn [fold_n]. rewrite run_bind.
    destruct (run (body b) m) as [[[] m']|]; auto.
    rewrite <- IH by lia. unfold for_range, fold_range. rewrite <- (Nat2Z.id n).
    do 3 f_equal. lia.
Qed.

Lemma run_loop1 r body m : run (loop1 r body) m = run (for_list (indices r) body) m.
Proof. apply run_for_range. Qed.

Lemma run_row n : forall c x body m,
  run (fold_n n c (fun _ index_ => seq (body index_) (Ret (index_ + 1))) x) m =
  match run (for_list (map (fun k => x + Z.of_nat k) (List.seq 0 n)) body) m with
  | Some (_, m') => Some (x + Z.of_nat n, m')
  | None => None
  end.
Proof.
  induction n as [|n IH]; intros c x body m.
  - simpl. repeat f_equal; lia.
  - cbn [fold_n List.seq map for_list]. rewrite run_bind, !run_seq.
    replace (x + Z.of_nat 0) with x by lia.
    destruct (run (body x) m) as [[[] m']|]; auto. cbn [run].
    rewrite IH. rewrite <- seq_shift, map_map.
    rewrite (map_ext (fun k => x + 1 + Z.of_nat k) (fun k => x + Z.of_nat (S k))) by (intros; lia).
    destruct (run (for_list _ body) m') as [[[] m'']|]; auto. do 2 f_equal; lia.
Qed.

Lemma run_loop2 nc blk body m :
  run (loop2 nc blk body) m = run (for_list (block_elements nc blk) body) m.
Proof.
  destruct blk as [rows cols]. unfold loop2, block_elements, cells2; cbn [fst snd].
  rewrite run_for_range. fold (indices rows).
  revert m; induction (indices rows) as [|i l IH]; intros m; auto.
  cbn [for_list flat_map]. rewrite map_app, run_for_list_app, !run_seq.
  unfold fold_range. rewrite run_row.
  rewrite map_map. unfold indices, zrange. rewrite map_map.
  rewrite (map_ext (fun x => linear nc (i, rbegin cols + Z.of_nat x))
            (fun k => i * nc + rbegin cols + Z.of_nat k))
    by (intros; unfold linear; cbn [fst snd]; lia).
  destruct (run (for_list _ body) m) as [[[] m']|]; auto. cbn [run skip]. apply IH.
Qed.

(** ** Footprints of element loops *)

(** Result cells (values of [rb], mask of [mb]) with index in [S]. *)
Definition setW (rb : buf) (mb : option buf) (S : Z -> bool) (l : loc) : bool :=
  match l with
  | LV b j => Nat.eqb b rb && S j
  | LM b j => match mb with Some c => Nat.eqb b c && S j | None => false end
  end.

(** Anything but result cells with an index outside [S]. *)
Definition setR (rb : buf) (mb : option buf) (S : Z -> bool) (l : loc) : bool :=
  match l with
  | LV b j => negb (Nat.eqb b rb) || S j
  | LM b j => match mb with Some c => negb (Nat.eqb b c) || S j | None => true end
  end.

Definition own (S : Z -> bool) (rb : buf) (mb : option buf) {A} (p : prog V A) : Prop :=
  fits (setR rb mb S) (setW rb mb S) p.

Definition elementwise (rb : buf) (mb : option buf) (l : list Z) (body : Z -> prog V unit)
  : Prop := forall i, In i l -> own (Z.eqb i) rb mb (body i).

Definition memZ (l : list Z) (i : Z) : bool := existsb (Z.eqb i) l.

Lemma memZ_spec l i : memZ l i = true <-> In i l.
Proof.
  unfold memZ; rewrite existsb_exists; split.
  - intros (x & H & E); apply Z.eqb_eq in E; subst; auto.
  - intros H; exists i; split; auto; apply Z.eqb_refl.
Qed.

Lemma own_weaken {A} (S S' : Z -> bool) rb mb (p : prog V A) :
  (forall i, S i = true -> S' i = true) -> own S rb mb p -> own S' rb mb p.
Proof.
  intros H; apply fits_weaken.
  - intros [b j|b j]; simpl.
    + rewrite !andb_true_iff; intros [A1 A2]; auto.
    + destruct mb; auto. rewrite !andb_true_iff; intros [A1 A2]; auto.
  - intros [b j|b j]; simpl.
    + rewrite !orb_true_iff; intros [A1|A1]; auto.
    + destruct mb; auto. rewrite !orb_true_iff; intros [A1|A1]; auto.
Qed.

Lemma own_race_free n (Ss : nat -> Z -> bool) rb mb :
  (forall i j x, (i < n)%nat -> (j < n)%nat -> i <> j -> Ss i x = true -> Ss j x = false) ->
  race_free n (fun k => setR rb mb (Ss k)) (fun k => setW rb mb (Ss k)).
Proof.
  intros H i j Hi Hj Hij l. unfold union, setW, setR. destruct l as [b x|b x].
  - rewrite andb_true_iff; intros [Hb Hx]. rewrite Hb, (H i j x) by auto. reflexivity.
  - destruct mb as [c|]; [|discriminate].
    rewrite andb_true_iff; intros [Hb Hx]. rewrite Hb, (H i j x) by auto. reflexivity.
Qed.

(** A property of memories that does not depend on result cells. *)
Definition stable (rb : buf) (mb : option buf) (P : mem V -> Prop) : Prop :=
  forall m m', (forall l, setW rb mb (fun _ => true) l = false -> same_at m' m l) ->
    P m -> P m'.

Lemma stable_true rb mb : stable rb mb (fun _ => True).
Proof. intros m m' _ _; exact I. Qed.

Lemma stable_and rb mb P Q : stable rb mb P -> stable rb mb Q ->
  stable rb mb (fun m => P m /\ Q m).
Proof. intros HP HQ m m' H [A B]; split; [eapply HP|eapply HQ]; eauto. Qed.

Lemma stable_run {A} rb mb P S (p : prog V A) m a m' :
  stable rb mb P -> own S rb mb p -> run p m = Some (a, m') -> P m -> P m'.
Proof.
  intros Hs Ho Hr. apply Hs. intros l Hl. eapply run_frame; [exact Ho|exact Hr|].
  destruct l as [b i|b i]; simpl in *.
  - apply andb_false_iff in Hl as [->|]; [auto|discriminate].
  - destruct mb; auto. apply andb_false_iff in Hl as [->|]; [auto|discriminate].
Qed.

(** [seq_all] without the results. *)
Lemma run_seq_all_map rb mb P (ls : list (list Z)) (ps : list (prog V unit)) body :
  stable rb mb P ->
  Forall2 (fun p l => own (memZ l) rb mb p /\
             forall m, P m -> run p m = run (for_list l body) m) ps ls ->
  forall m, P m ->
    match run (seq_all ps) m with Some (_, m') => Some (tt, m') | None => None end
    = run (for_list (concat ls) body) m.
Proof.
  intros Hst. induction 1 as [|p l ps ls [Ho Hp] _ IH]; intros m HPm; auto.
  cbn [seq_all concat]. rewrite run_bind, run_for_list_app, run_seq.
  rewrite <- (Hp m HPm).
  destruct (run p m) as [[[] m']|] eqn:E; auto.
  rewrite run_bind, <- IH.
  - destruct (run (seq_all ps) m') as [[? ?]|]; auto.
  - eapply stable_run; eauto.
Qed.

Lemma run_seq_all_singletons (l : list Z) body m :
  match run (seq_all (map body l)) m with Some (_, m') => Some (tt, m') | None => None end
  = run (for_list l body) m.
Proof.
  revert m; induction l as [|i l IH]; intros m; auto.
  cbn [map seq_all for_list]. rewrite run_bind, run_seq.
  destruct (run (body i) m) as [[[] m']|]; auto.
  rewrite run_bind, <- IH. destruct (run (seq_all (map body l)) m') as [[? ?]|]; auto.
Qed.

Lemma nth_error_NoDup_inj (l : list Z) i j x :
  NoDup l -> nth_error l i = Some x -> nth_error l j = Some x -> i = j.
Proof.
  intros H Hi Hj. rewrite NoDup_nth_error in H. apply H.
  - apply nth_error_Some; congruence.
  - congruence.
Qed.

(** What an element loop computes. *)
Theorem element_loop rb mb l body m0 (ms : Z -> mem V) :
  NoDup l -> elementwise rb mb l body ->
  (forall i, In i l -> run (body i) m0 = Some (tt, ms i)) ->
  exists m', run (for_list l body) m0 = Some (tt, m') /\
    (forall i, In i l -> mval m' rb i = mval (ms i) rb i /\
       forall c, mb = Some c -> mmsk m' c i = mmsk (ms i) c i) /\
    (forall b i, b <> rb \/ ~ In i l -> mval m' b i = mval m0 b i) /\
    (forall b i, mb <> Some b \/ ~ In i l -> mmsk m' b i = mmsk m0 b i).
Proof.
  intros Hnd Hel Hrun.
  set (Ss := fun (k : nat) (x : Z) =>
    match nth_error l k with Some i => i =? x | None => false end).
  set (msn := fun k => match nth_error l k with Some i => ms i | None => m0 end).
  assert (Hss : forall k x, Ss k x = true -> nth_error l k = Some x).
  { intros k x. unfold Ss. destruct (nth_error l k); [|discriminate].
    intros E; apply Z.eqb_eq in E; congruence. }
  destruct (seq_all_joined (length l) (fun k => setR rb mb (Ss k)) (fun k => setW rb mb (Ss k))
              m0 (fun _ => tt) msn (map body l)) as (out & m' & H1 & H2 & H3 & H4).
  - apply own_race_free. intros i j x Hi Hj Hij Hx.
    apply Hss in Hx. destruct (Ss j x) eqn:E; auto. apply Hss in E.
    exfalso; apply Hij. eapply nth_error_NoDup_inj; eauto.
  - apply map_length.
  - intros k p Hp. rewrite nth_error_map in Hp.
    destruct (nth_error l k) as [i|] eqn:E; [|discriminate]. inversion Hp; subst.
    eapply own_weaken; [|apply Hel; eapply nth_error_In; eauto].
    intros x Hx. unfold Ss. rewrite E; auto.
  - intros k p Hp. rewrite nth_error_map in Hp. unfold msn.
    destruct (nth_error l k) as [i|] eqn:E; [|discriminate]. inversion Hp; subst.
    apply Hrun. eapply nth_error_In; eauto.
  - exists m'. split; [|split; [|split]].
    + rewrite <- run_seq_all_singletons, H1; auto.
    + intros i Hi. apply In_nth_error in Hi as [k Hk].
      assert (Hkl : (k < length l)%nat) by (apply nth_error_Some; congruence).
      assert (HS : Ss k i = true) by (unfold Ss; rewrite Hk; apply Z.eqb_refl).
      assert (Hmsn : msn k = ms i) by (unfold msn; rewrite Hk; auto).
      split.
      * destruct (H4 (LV rb i)) as [A _]. specialize (A k Hkl).
        rewrite Hmsn in A. apply A. simpl. rewrite HS, Nat.eqb_refl; auto.
      * intros c ->. destruct (H4 (LM c i)) as [A _]. specialize (A k Hkl).
        rewrite Hmsn in A. apply A. simpl. rewrite HS, Nat.eqb_refl; auto.
    + intros b i Hbi. destruct (H4 (LV b i)) as [_ B]. apply B.
      intros k Hk. simpl. apply andb_false_iff.
      destruct Hbi as [Hb|Hi]; [left; apply Nat.eqb_neq; auto|right].
      destruct (Ss k i) eqn:E; auto. apply Hss in E. apply nth_error_In in E; tauto.
    + intros b i Hbi. destruct (H4 (LM b i)) as [_ B]. apply B.
      intros k Hk. simpl. destruct mb as [c|]; auto. apply andb_false_iff.
      destruct Hbi as [Hb|Hi]; [left; apply Nat.eqb_neq; congruence|right].
      destruct (Ss k i) eqn:E; auto. apply Hss in E. apply nth_error_In in E; tauto.
Qed.

Lemma exec_within {A} n Rs Ws sched : forall (ps : list (prog V A)) m ps' m',
  length ps = n -> within Rs Ws ps -> exec sched ps m = Some (ps', m') ->
  length ps' = n /\ within Rs Ws ps'.
Proof.
  induction sched as [|k sched IH]; cbn [exec]; intros ps m ps' m' Hl Hw E.
  - inversion E; subst; auto.
  - unfold step_task in E. destruct (nth_error ps k) as [p|] eqn:Ep.
    2: { eapply IH; eauto. }
    destruct (step p m) as [[p1 m1]|] eqn:Es; [|discriminate].
    eapply IH in E; eauto.
    + rewrite length_replace_nth; auto.
    + intros j q Hq. destruct (Nat.eq_dec j k) as [->|Hne].
      * rewrite nth_error_replace_same in Hq by (apply nth_error_Some; congruence).
        inversion Hq; subst. eapply step_fits; eauto.
      * rewrite nth_error_replace_other in Hq by auto. auto.
Qed.

Lemma race_free_no_race {A} n Rs Ws (ps : list (prog V A)) m0 :
  length ps = n -> race_free n Rs Ws -> within Rs Ws ps -> no_race ps m0.
Proof.
  intros Hl Hrf Hw sched ps' m' E i j p q l w w' Hij Hp Hq Np Nq.
  destruct (exec_within n Rs Ws sched ps m0 ps' m' Hl Hw E) as [Hl' Hw'].
  assert (Hi : (i < n)%nat) by (rewrite <- Hl'; apply nth_error_Some; congruence).
  assert (Hj : (j < n)%nat) by (rewrite <- Hl'; apply nth_error_Some; congruence).
  assert (Hacc : forall k r w0, nth_error ps' k = Some r -> next_access r = Some (l, w0) ->
            union (Rs k) (Ws k) l = true /\ (w0 = true -> Ws k l = true)).
  { intros k r w0 Hr Nr. specialize (Hw' k r Hr). unfold union.
    destruct r; simpl in Nr; inversion Nr; subst; cbn [fits] in Hw'; destruct Hw' as [X _].
    - split; [auto|discriminate].
    - rewrite X, orb_true_r; auto.
    - split; [auto|discriminate].
    - rewrite X, orb_true_r; auto. }
  destruct (Hacc i p w Hp Np) as [Ai Bi]. destruct (Hacc j q w' Hq Nq) as [Aj Bj].
  split.
  - destruct w; auto. rewrite (Hrf i j Hi Hj Hij l (Bi eq_refl)) in Aj. discriminate.
  - destruct w'; auto. rewrite (Hrf j i Hj Hi (not_eq_sym Hij) l (Bj eq_refl)) in Ai. discriminate.
Qed.

(** Distribution over tasks. *)
Theorem distributed_loop rb mb P (ls : list (list Z)) (ps : list (prog V unit)) body m0 m1 :
  NoDup (concat ls) -> stable rb mb P -> P m0 ->
  Forall2 (fun p l => own (memZ l) rb mb p /\
             forall m, P m -> run p m = run (for_list l body) m) ps ls ->
  run (for_list (concat ls) body) m0 = Some (tt, m1) ->
  always_yields ps m0 m1.
Proof.
  intros Hnd Hst HP0 Hps Hrun.
  set (Ss := fun (k : nat) => memZ (nth k ls [])).
  assert (Hlen : length ps = length ls) by (clear -Hps; induction Hps; simpl; congruence).
  assert (Hseq : exists out, run (seq_all ps) m0 = Some (out, m1)).
  { pose proof (run_seq_all_map rb mb P ls ps body Hst Hps m0 HP0) as E.
    rewrite Hrun in E.
    destruct (run (seq_all ps) m0) as [[out mm]|]; inversion E; subst; eauto. }
  destruct Hseq as [out Hseq].
  assert (Hrf : race_free (length ps) (fun k => setR rb mb (Ss k)) (fun k => setW rb mb (Ss k))).
  { apply own_race_free. intros i j x Hi Hj Hij Hx.
    destruct (Ss j x) eqn:E; auto. exfalso. unfold Ss in Hx, E.
    rewrite memZ_spec in Hx, E.
    clear -Hnd Hi Hj Hij Hx E Hlen. rewrite Hlen in *. clear Hlen.
    revert i j Hi Hj Hij Hx E; induction ls as [|l0 ls0 IH]; intros i j Hi Hj Hij Hx E;
      [simpl in Hi; lia|].
    cbn [concat] in Hnd.
    assert (Hdis : forall y, In y l0 -> ~ In y (concat ls0)).
    { clear -Hnd. induction l0 as [|a l0 IH]; simpl in *; [tauto|].
      inversion Hnd as [|? ? Hn Hnd']; subst. intros y [->|Hy].
      - rewrite in_app_iff in Hn; tauto.
      - apply IH; auto. }
    assert (Hnd' : NoDup (concat ls0)).
    { clear -Hnd. induction l0 as [|a l0 IH]; simpl in *; auto. inversion Hnd; auto. }
    assert (Hin : forall k y, (k < length ls0)%nat -> In y (nth k ls0 []) -> In y (concat ls0)).
    { intros k y Hk Hy. apply in_concat. exists (nth k ls0 []); split; auto. apply nth_In; auto. }
    destruct i as [|i], j as [|j]; simpl in *; try lia.
    + eapply Hdis; [exact Hx|]. eapply Hin; [|exact E]; lia.
    + eapply Hdis; [exact E|]. eapply Hin; [|exact Hx]; lia.
    + eapply (IH Hnd' i j); auto; lia. }
  assert (Hwi : within (fun k => setR rb mb (Ss k)) (fun k => setW rb mb (Ss k)) ps).
  { intros k p Hp. unfold Ss.
    clear -Hps Hp. revert k Hp; induction Hps as [|q l qs ls [Hq _] _ IH]; intros k Hp.
    + destruct k; discriminate.
    + destruct k as [|k]; simpl in *; [inversion Hp; subst; auto|apply IH; auto]. }
  split; [exact (race_free_no_race (length ps) _ _ ps m0 eq_refl Hrf Hwi)|]. intros sched.
  destruct (interleaving_sequential (length ps) (fun k => setR rb mb (Ss k))
              (fun k => setW rb mb (Ss k)) m0 ps out m1 sched) as (ps' & m' & H1 & H2); auto.
  destruct (interleaving_completes (length ps) (fun k => setR rb mb (Ss k))
              (fun k => setW rb mb (Ss k)) m0 ps out m1 sched) as (s' & ps2 & m2 & H3 & H4 & _); auto.
  exists ps', m'; split; [auto|split].
  - intros Hd.
    assert (Ho : ps' = map Ret (repeat tt (length ps'))).
    { clear -Hd. induction ps' as [|p ps' IH]; simpl in *; auto.
      apply andb_true_iff in Hd as [Hp Hd]. rewrite <- IH by auto.
      destruct p as [[]| | | | |]; try discriminate; auto. }
    apply (H2 _ Ho).
  - exists s', ps2, m2. rewrite exec_app, H1 in H3. split; auto.
    rewrite H4. clear. induction out; simpl; auto.
Qed.

(** Loops own what their iterations own. *)
Lemma own_loop1 rb mb r body :
  elementwise rb mb (indices r) body -> own (memZ (indices r)) rb mb (loop1 r body).
Proof.
  intros H; apply fits_for_range. intros j Hj.
  assert (Hin : In j (indices r)) by (apply in_zrange; auto).
  eapply own_weaken; [|apply H; auto].
  intros i E; apply Z.eqb_eq in E; subst. apply memZ_spec; auto.
Qed.

Lemma fits_bind_const {A B} R W (p : prog V unit) (y : A) (f : A -> prog V B) :
  fits R W p -> fits R W (f y) -> fits R W (bind (seq p (Ret y)) f).
Proof.
  intros Hp Hf; unfold seq.
  induction p as [a|b i k IH|b i v k IH|b i k IH|b i x k IH|]; simpl in *; auto;
    destruct Hp; split; auto.
Qed.

Lemma fits_row n R W : forall c x (body : Z -> prog V unit),
  (forall k, (k < n)%nat -> fits R W (body (x + Z.of_nat k))) ->
  fits R W (fold_n n c (fun _ index_ => seq (body index_) (Ret (index_ + 1))) x).
Proof.
  induction n as [|n IH]; intros c x body H; [exact I|].
  cbn [fold_n]. apply fits_bind_const.
  - specialize (H O). replace (x + Z.of_nat 0) with x in H by lia. apply H; lia.
  - apply IH. intros k Hk. replace (x + 1 + Z.of_nat k) with (x + Z.of_nat (S k)) by lia.
    apply H; lia.
Qed.

Lemma in_block_elements nc blk x : In x (block_elements nc blk) <->
  exists i j, rbegin (fst blk) <= i < rend (fst blk) /\
    rbegin (snd blk) <= j < rend (snd blk) /\ x = i * nc + j.
Proof.
  unfold block_elements, cells2. rewrite in_map_iff. split.
  - intros ([i j] & <- & H). apply in_flat_map in H as (i' & Hi & H).
    apply in_map_iff in H as (j' & E & Hj). inversion E; subst.
    apply in_zrange in Hi. apply in_zrange in Hj. exists i, j; auto.
  - intros (i & j & Hi & Hj & ->). exists (i, j); split; auto.
    apply in_flat_map. exists i; split; [apply in_zrange; auto|].
    apply in_map_iff. exists j; split; auto. apply in_zrange; auto.
Qed.

Lemma own_loop2 rb mb nc blk body :
  elementwise rb mb (block_elements nc blk) body ->
  own (memZ (block_elements nc blk)) rb mb (loop2 nc blk body).
Proof.
  intros H; apply fits_for_range. intros i Hi. apply fits_seq; [|exact I].
  apply fits_row. intros k Hk.
  set (x := i * nc + rbegin (snd blk) + Z.of_nat k).
  assert (Hx : In x (block_elements nc blk)).
  { apply in_block_elements. exists i, (rbegin (snd blk) + Z.of_nat k). unfold x; lia. }
  eapply own_weaken; [|apply H; auto].
  intros y E; apply Z.eqb_eq in E; subst y. apply memZ_spec; auto.
Qed.

Lemma block_elements_whole rows cols : 0 <= cols ->
  block_elements cols (whole2 rows cols) = zrange 0 (rows * cols).
Proof.
  intros Hc. unfold block_elements, cells2, whole2, whole1, indices; cbn [fst snd rbegin rend].
  destruct (Z_le_gt_dec rows 0) as [Hr|Hr].
  - rewrite (zrange_nil 0 rows) by lia. simpl. rewrite zrange_nil by nia. auto.
  - replace rows with (Z.of_nat (Z.to_nat rows)) by lia.
    generalize (Z.to_nat rows) as n; clear rows Hr. induction n as [|n IH].
    + simpl. rewrite zrange_nil by lia; auto.
    + rewrite (zrange_app 0 (Z.of_nat n) (Z.of_nat (S n))) by lia.
      rewrite flat_map_app, map_app, IH.
      rewrite (zrange_cons (Z.of_nat n)), (zrange_nil (Z.of_nat n + 1)) by lia.
      cbn [flat_map]. rewrite app_nil_r, map_map.
      rewrite (zrange_app 0 (Z.of_nat n * cols) (Z.of_nat (S n) * cols)) by nia.
      f_equal. replace (zrange (Z.of_nat n * cols) (Z.of_nat (S n) * cols))
        with (zrange (0 + Z.of_nat n * cols) (cols + Z.of_nat n * cols)) by (f_equal; lia).
      rewrite zrange_shift. apply map_ext. intros; unfold linear; cbn [fst snd]; lia.
Qed.

(** The blocks of the parallel policy. *)
Lemma blocks2_elements nr_threads rows cols :
  1 <= nr_threads -> 0 <= rows < 2 ^ 64 -> 0 <= cols ->
  exists bs, index_ranges_2d nr_threads rows cols = Some bs /\
    concat (map (block_elements cols) bs) = zrange 0 (rows * cols) /\
    Forall (fun b => well_formed (fst b) /\ rend (fst b) <= rows /\
    snd b = whole1 cols) bs.
Proof.
  intros Hn Hs Hc.
  destruct (index_ranges_2d_spec nr_threads rows cols Hn Hs Hc) as (bs & H1 & _ & H3 & H4).
  exists bs; split; [auto|split; auto].
  rewrite <- block_elements_whole by auto. unfold block_elements at 2.
  change (cells2 (whole2 rows cols)) with (raster_cells rows cols).
  rewrite <- H3, concat_map, map_map. reflexivity.
Qed.

(** Parallel = sequential, for operations that are run-equal to an element loop. *)
Definition loop_like1 rb mb P size (op : range -> prog V unit) (body : Z -> prog V unit) : Prop :=
  forall r, 0 <= rbegin r -> rend r <= size ->
    own (memZ (indices r)) rb mb (op r) /\
    forall m, P m -> run (op r) m = run (for_list (indices r) body) m.

Definition loop_like2 rb mb P rows cols (op : block2 -> prog V unit) (body : Z -> prog V unit)
  : Prop :=
  forall blk, 0 <= rbegin (fst blk) -> rend (fst blk) <= rows ->
    snd blk = whole1 cols ->
    own (memZ (block_elements cols blk)) rb mb (op blk) /\
    forall m, P m -> run (op blk) m = run (for_list (block_elements cols blk) body) m.

Theorem parallel_1d rb mb P nr_threads size op body m0 m1 :
  1 <= nr_threads -> 0 <= size < 2 ^ 64 ->
  stable rb mb P -> P m0 -> loop_like1 rb mb P size op body ->
  run (op (whole1 size)) m0 = Some (tt, m1) ->
  exists tasks, par1 nr_threads size op = Some tasks /\
    always_yields tasks m0 m1.
Proof.
  intros Hn Hs Hst HP0 Hop Hrun.
  destruct (index_ranges_1d_spec nr_threads size Hn Hs) as (rs & H1 & _ & H3 & H4).
  exists (map op rs). split; [unfold par1; rewrite H1; auto|].
  assert (Hrun' : run (for_list (concat (map indices rs)) body) m0 = Some (tt, m1)).
  { rewrite H3. rewrite <- Hrun. destruct (Hop (whole1 size)) as [_ E]; simpl; try lia.
    rewrite E; auto. }
  refine (distributed_loop rb mb P (map indices rs) (map op rs) body m0 m1 _ Hst HP0 _ Hrun').
  - rewrite H3; apply NoDup_zrange.
  - clear -Hop H4. induction H4 as [|r rs [[A B] C] _ IH]; simpl; constructor; auto; apply Hop; auto.
Qed.

Theorem parallel_2d rb mb P nr_threads rows cols op body m0 m1 :
  1 <= nr_threads -> 0 <= rows < 2 ^ 64 -> 0 <= cols ->
  stable rb mb P -> P m0 -> loop_like2 rb mb P rows cols op body ->
  run (op (whole2 rows cols)) m0 = Some (tt, m1) ->
  exists tasks, par2 nr_threads rows cols op = Some tasks /\
    always_yields tasks m0 m1.
Proof.
  intros Hn Hs Hc Hst HP0 Hop Hrun.
  destruct (blocks2_elements nr_threads rows cols Hn Hs Hc) as (bs & H1 & H3 & H4).
  exists (map op bs). split; [unfold par2; rewrite H1; auto|].
  assert (Hrun' : run (for_list (concat (map (block_elements cols) bs)) body) m0 = Some (tt, m1)).
  { rewrite H3, <- block_elements_whole by auto. rewrite <- Hrun.
    destruct (Hop (whole2 rows cols)) as [_ E]; simpl; auto; try lia.
    rewrite E; auto. }
  refine (distributed_loop rb mb P (map (block_elements cols) bs) (map op bs) body m0 m1 _ Hst HP0 _ Hrun').
  - rewrite H3; apply NoDup_zrange.
  - clear -Hop H4. induction H4 as [|r rs ([A B] & C & D) _ IH]; simpl; constructor; auto.
Qed.

End Loops.
