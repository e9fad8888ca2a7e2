(** Programs and tasks described by the outcomes that they leave at elements of a result that
    nothing else depends on. *)
From Coq Require Import ZArith List Bool Lia.
From Verif Require Import LangModel LangProofs ConcModel IndexModel IndexSpec IndexProofs
  LoopModel LoopSpec LoopProofs PolicyModel LocalSpec LocalProofs FrozenProofs CoreModel
  CoreSpec CoreProofs.
Import ListNotations.
Open Scope Z_scope.

Section Moves.
Context {V : Type}.
Variables (op : outpol V) (rb : buf).
Implicit Types m : mem V.

Definition unwritten (l : loc) : bool := negb (setW rb (mask_buffer op) (fun _ => true) l).

Definition mark_at (d : Z) : list (wr V) :=
  match op with
  | DontMarkNoData => []
  | MarkByMask b nd => [WM b d nd]
  | MarkByValue b nd => [WV b d nd]
  end.

Variable x : Z -> option V.

(** The writes that leave [x d] at [d]. *)
Definition leave (d : Z) : list (wr V) :=
  match x d with Some v => [WV rb d v] | None => mark_at d end.

Hypothesis Hmarks : marks_result op rb.

Lemma leave_loc d w : In w (leave d) ->
  unwritten (wloc w) = false /\
  (forall m, result_exists op rb m d -> present m (wloc w)) /\
  (wloc w = LV rb d \/ exists c, mask_buffer op = Some c /\ wloc w = LM c d).
Proof.
  unfold leave, mark_at, unwritten. destruct (x d).
  - intros [<-|[]]. cbn. rewrite Nat.eqb_refl. repeat split; auto. intros m [H _]; auto.
  - destruct op as [|b nd|b nd]; cbn in *; [tauto| |]; intros [<-|[]]; cbn;
      rewrite ?Nat.eqb_refl; subst; rewrite ?Nat.eqb_refl; repeat split; auto.
    + intros m [_ H]; auto.
    + right; eauto.
    + intros m [H _]; auto.
Qed.

Lemma writes_leave d m : result_exists op rb m d ->
  holds op rb m (writes (leave d) m) d (value_or_no_data (x d)) /\
  changes_only op rb [d] m (writes (leave d) m).
Proof.
  intros [Hv Hm]. unfold leave, mark_at, holds, changes_only.
  destruct (x d) as [v|]; cbn.
  - rewrite same_refl. destruct (mval m rb d); [|congruence]. cbn.
    split; [split; [auto|intros c _; destruct (mmsk m c d); auto]|split; [|auto]].
    intros b i Hb. destruct (same rb b d i) eqn:E; auto. apply same_spec in E. intuition congruence.
  - destruct op as [|b nd|b nd]; cbn in *.
    + split; [split; [destruct (mval m rb d); auto|discriminate]|auto].
    + split; [split|split; auto].
      * destruct (mval m rb d); auto.
      * intros c [= <-]. rewrite same_refl. destruct (mmsk m b d); [auto|congruence].
      * intros c i Hc. destruct (same b c d i) eqn:E; auto. apply same_spec in E.
        intuition congruence.
    + subst b. rewrite same_refl. split; [split; [|discriminate]|split; [|auto]].
      * destruct (mval m rb d); [auto|congruence].
      * intros b i Hb. destruct (same rb b d i) eqn:E; auto. apply same_spec in E.
        intuition congruence.
Qed.

Lemma changes_dom op' rb' l m m' o : changes_only op' rb' l m m' ->
  (forall i, In i l -> holds op' rb' m m' i (o i)) ->
  forall i, result_exists op' rb' m i -> result_exists op' rb' m' i.
Proof.
  intros [Hc1 Hc2] Hh i [Hv Hm].
  destruct (in_dec Z.eq_dec i l) as [Hi|Hi].
  - destruct (Hh i Hi) as [E1 E2]. split.
    + rewrite E1. destruct (mval m rb' i); [discriminate|congruence].
    + destruct op' as [|b nd|b nd]; auto. rewrite (E2 b eq_refl).
      destruct (mmsk m b i); [discriminate|congruence].
  - split.
    + rewrite Hc1; auto.
    + destruct op' as [|b nd|b nd]; auto. rewrite Hc2; auto.
Qed.

Lemma holds_twice m m' m'' d : 
  holds op rb m m' d (value_or_no_data (x d)) -> holds op rb m' m'' d (value_or_no_data (x d)) ->
  holds op rb m m'' d (value_or_no_data (x d)).
Proof.
  intros [A1 A2] [B1 B2]. split.
  - rewrite B1, A1. destruct (mval m rb d); auto. cbn. f_equal.
    unfold final_value. destruct (x d); cbn; auto. destruct op; auto.
  - intros c Hc. rewrite (B2 c Hc), (A2 c Hc). destruct (mmsk m c d); auto. cbn. f_equal.
    unfold final_mask. destruct (x d); cbn; auto. destruct op; auto.
Qed.

Lemma writes_app (ws1 ws2 : list (wr V)) m : writes (ws1 ++ ws2) m = writes ws2 (writes ws1 m).
Proof. apply fold_left_app. Qed.

(** What the writes leave. *)
Lemma writes_moves ds : forall m, (forall d, In d ds -> result_exists op rb m d) ->
  (forall d, In d ds -> holds op rb m (writes (flat_map leave ds) m) d (value_or_no_data (x d))) /\
  changes_only op rb ds m (writes (flat_map leave ds) m).
Proof.
  induction ds as [|d ds IH]; intros m Hex.
  - split; [intros d []|split; auto].
  - cbn [flat_map]. rewrite writes_app.
    destruct (writes_leave d m) as [H1 H2]; [apply Hex; left; auto|].
    set (m' := writes (leave d) m) in *.
    destruct (IH m') as [H3 H4].
    { intros e He. eapply (changes_dom op rb [d] m m' (fun e => value_or_no_data (x e))); eauto.
      - intros i [<-|[]]; auto.
      - apply Hex; right; auto. }
    set (m'' := writes (flat_map leave ds) m') in *.
    destruct H2 as [C1 C2], H4 as [D1 D2].
    split; [|split].
    + intros e He. destruct (Z.eq_dec e d) as [->|Hne].
      * destruct (in_dec Z.eq_dec d ds) as [Hi|Hi].
        -- eapply holds_twice; eauto.
        -- destruct H1 as [E1 E2]. split.
           ++ rewrite D1; auto.
           ++ intros c Hc. rewrite D2; auto.
      * destruct He as [<-|He]; [congruence|]. destruct (H3 e He) as [E1 E2]. split.
        -- rewrite E1, C1; auto. right. intros [<-|[]]; auto.
        -- intros c Hc. rewrite (E2 c Hc), C2; auto. right. intros [<-|[]]; auto.
    + intros b i Hb. rewrite D1, C1; auto.
      * destruct Hb as [Hb|Hb]; auto. right; cbn in *; tauto.
      * destruct Hb as [Hb|Hb]; auto. right; cbn in *; tauto.
    + intros b i Hb. rewrite D2, C2; auto.
      * destruct Hb as [Hb|Hb]; auto. right; cbn in *; tauto.
      * destruct Hb as [Hb|Hb]; auto. right; cbn in *; tauto.
Qed.

(** A program that performs these writes. *)
Lemma moves_sequential p ds m : does unwritten m p (flat_map leave ds) tt ->
  (forall d, In d ds -> result_exists op rb m d) ->
  run p m = Some (tt, writes (flat_map leave ds) m).
Proof.
  intros Hd Hex. eapply does_run; [exact Hd|intros l _; apply same_at_refl|].
  apply Forall_forall. intros w Hw. apply in_flat_map in Hw as (d & Hd' & Hw).
  destruct (leave_loc d w Hw) as (A & B & _). auto.
Qed.

Lemma flat_map_concat {X Y} (f : X -> list Y) ls :
  flat_map f (concat ls) = concat (map (flat_map f) ls).
Proof. induction ls as [|l ls IH]; cbn; auto. rewrite flat_map_app, IH; auto. Qed.

(** Tasks that perform them. *)
Lemma moves_parallel ps dss m :
  Forall2 (fun p ds => does unwritten m p (flat_map leave ds) tt) ps dss ->
  (forall i j ds ds' d, i <> j -> nth_error dss i = Some ds -> nth_error dss j = Some ds' ->
     In d ds -> In d ds' -> False) ->
  (forall d, In d (concat dss) -> result_exists op rb m d) ->
  always_yields ps m (writes (flat_map leave (concat dss)) m).
Proof.
  intros Hps Hdis Hex. rewrite flat_map_concat.
  apply (disjoint_tasks unwritten).
  - clear -Hps. induction Hps; cbn; constructor; auto.
  - intros k ws w Hk Hw. rewrite nth_error_map in Hk.
    destruct (nth_error dss k) as [ds|] eqn:E; [|discriminate]. inversion Hk; subst.
    apply in_flat_map in Hw as (d & Hd & Hw). destruct (leave_loc d w Hw) as (A & B & _).
    split; auto. apply B, Hex. apply in_concat. exists ds; split; auto. eapply nth_error_In; eauto.
  - intros i j ws ws' w w' Hij Hi Hj Hw Hw' E. rewrite nth_error_map in Hi, Hj.
    destruct (nth_error dss i) as [ds|] eqn:E1; [|discriminate]. inversion Hi; subst.
    destruct (nth_error dss j) as [ds'|] eqn:E2; [|discriminate]. inversion Hj; subst.
    apply in_flat_map in Hw as (d & Hd & Hw). apply in_flat_map in Hw' as (d' & Hd' & Hw').
    assert (d = d').
    { destruct (leave_loc d w Hw) as (_ & _ & L1). destruct (leave_loc d' w' Hw') as (_ & _ & L2).
      rewrite <- E in L2.
      destruct L1 as [L1|(c & _ & L1)], L2 as [L2|(c' & _ & L2)]; congruence. }
    subst. eapply Hdis; eauto.
Qed.

(** Disjointness of consecutive parts of a list. *)
Lemma NoDup_concat_disjoint {X} (dss : list (list X)) : NoDup (concat dss) ->
  forall i j ds ds' d, i <> j -> nth_error dss i = Some ds -> nth_error dss j = Some ds' ->
    In d ds -> In d ds' -> False.
Proof.
  induction dss as [|l ls IH]; intros Hnd i j ds ds' d Hij Hi Hj Hd Hd'.
  - destruct i; discriminate.
  - cbn in Hnd.
    assert (Hdis : forall y, In y l -> ~ In y (concat ls)).
    { clear -Hnd. induction l as [|a l IH]; cbn in *; [tauto|].
      inversion Hnd as [|? ? Hn Hnd']; subst. intros y [->|Hy].
      - rewrite in_app_iff in Hn; tauto.
      - apply IH; auto. }
    assert (Hnd' : NoDup (concat ls)).
    { clear -Hnd. induction l as [|a l IH]; cbn in *; auto. inversion Hnd; auto. }
    assert (Hin : forall k e, nth_error ls k = Some e -> In d e -> In d (concat ls)).
    { intros k e Hk He. apply in_concat. exists e; split; auto. eapply nth_error_In; eauto. }
    destruct i as [|i], j as [|j]; cbn in *.
    + congruence.
    + inversion Hi; subst. exact (Hdis d Hd (Hin _ _ Hj Hd')).
    + inversion Hj; subst. exact (Hdis d Hd' (Hin _ _ Hi Hd)).
    + apply (IH Hnd' i j ds ds' d); auto.
Qed.

(** ** What loops do *)

Lemma does_seq {A B} C m (p : prog V A) (q : prog V B) ws1 ws2 a b :
  does C m p ws1 a -> does C m q ws2 b -> does C m (seq p q) (ws1 ++ ws2) b.
Proof. intros; eapply does_bind; eauto. Qed.

Lemma does_seq_skip {A} C m (p : prog V A) ws a : does C m p ws a -> does C m (seq p skip) ws tt.
Proof.
  intros H. rewrite <- (app_nil_r ws). eapply does_seq; [exact H|]. split; auto.
Qed.

Lemma does_fold_n {A} C m n : forall i (body : Z -> A -> prog V A) acc (s : Z -> A) (w : Z -> list (wr V)),
  s i = acc ->
  (forall j, i <= j < i + Z.of_nat n -> does C m (body j (s j)) (w j) (s (j + 1))) ->
  does C m (fold_n n i body acc)
    (flat_map w (map (fun k => i + Z.of_nat k) (List.seq 0 n))) (s (i + Z.of_nat n)).
Proof.
  induction n as [|n IH]; intros i body acc s w Hs Hb.
  - cbn. split; auto. rewrite Z.add_0_r; auto.
  - cbn [fold_n List.seq map flat_map]. rewrite <- seq_shift, map_map.
    rewrite (map_ext (fun k => i + Z.of_nat (S k)) (fun k => (i + 1) + Z.of_nat k)) by (intros; lia).
    eapply does_bind.
    + rewrite <- Hs. replace (i + Z.of_nat 0) with i by lia. apply Hb. lia.
    + replace (i + Z.of_nat (S n)) with ((i + 1) + Z.of_nat n) by lia.
      apply IH; auto. intros j Hj; apply Hb; lia.
Qed.

Lemma does_fold_range {A} C m b e (body : Z -> A -> prog V A) (s : Z -> A) (w : Z -> list (wr V)) :
  b <= e -> (forall j, b <= j < e -> does C m (body j (s j)) (w j) (s (j + 1))) ->
  does C m (fold_range b e body (s b)) (flat_map w (zrange b e)) (s e).
Proof.
  intros Hbe H. unfold fold_range, zrange.
  replace e with (b + Z.of_nat (Z.to_nat (e - b))) at 3 by lia.
  apply does_fold_n; auto. intros j Hj; apply H; lia.
Qed.

Lemma does_loop1 C m r (body : Z -> prog V unit) (w : Z -> list (wr V)) :
  (forall j, In j (indices r) -> does C m (body j) (w j) tt) ->
  does C m (loop1 r body) (flat_map w (indices r)) tt.
Proof.
  intros H. unfold loop1, for_range, indices.
  destruct (Z_le_dec (rbegin r) (rend r)).
  - apply (does_fold_range C m (rbegin r) (rend r) (fun i _ => body i) (fun _ => tt) w); auto.
    intros j Hj. apply H, in_zrange; auto.
  - rewrite zrange_nil by lia. rewrite fold_range_empty by lia. split; auto.
Qed.

Lemma does_loop2 C m nc blk (body : Z -> prog V unit) (w : Z -> list (wr V)) :
  (forall j, In j (block_elements nc blk) -> does C m (body j) (w j) tt) ->
  does C m (loop2 nc blk body) (flat_map w (block_elements nc blk)) tt.
Proof.
  destruct blk as [rows cols]. intros H. unfold loop2. cbn [fst snd].
  fold (loop1 rows (fun i => seq (fold_range (rbegin cols) (rend cols)
        (fun _ index_ => seq (body index_) (Ret (index_ + 1))) (i * nc + rbegin cols)) skip)).
  assert (E : flat_map w (block_elements nc (rows, cols)) =
     flat_map (fun i => flat_map w (map (fun j => i * nc + j) (indices cols))) (indices rows)).
  { unfold block_elements, cells2. cbn [fst snd].
    assert (G : forall j, In j (indices rows) -> True) by auto. clear H G.
    induction (indices rows) as [|i l IH]; cbn; auto.
    rewrite map_app, flat_map_app, IH. f_equal. rewrite map_map. reflexivity. }
  rewrite E. apply does_loop1. intros i Hi.
  assert (Hrow : forall j, In j (indices cols) -> does C m (body (i * nc + j)) (w (i * nc + j)) tt).
  { intros j Hj. apply H. unfold block_elements, cells2. cbn [fst snd].
    apply in_map_iff. exists (i, j). split; auto. apply in_flat_map. exists i; split; auto.
    apply in_map_iff; eauto. }
  rewrite flat_map_concat_map, map_map, <- flat_map_concat_map.
  unfold indices in *. destruct (Z_le_dec (rbegin cols) (rend cols)).
  - eapply does_seq_skip. apply (does_fold_range C m (rbegin cols) (rend cols)
      (fun _ index_ => seq (body index_) (Ret (index_ + 1))) (fun j => i * nc + j)
      (fun j => w (i * nc + j))); auto.
    intros j Hj. rewrite <- (app_nil_r (w (i * nc + j))).
    eapply does_seq; [apply Hrow, in_zrange; auto|]. split; auto. lia.
  - rewrite zrange_nil by lia. rewrite fold_range_empty by lia. cbn. split; reflexivity.
Qed.

(** ** What cells do *)

Lemma does_mark C m d : does C m (mark_as_no_data op d) (mark_at d) tt.
Proof. clear Hmarks. unfold mark_at. destruct op; cbn; eauto. Qed.

Lemma does_nd ip m i : policy_apart ip op rb -> readable ip m i ->
  does unwritten m (is_no_data ip i) [] (nd_at ip m i).
Proof.
  destruct ip as [| |b nd|b f]; cbn; auto; intros Hap Hr.
  - destruct (mmsk m b i) as [v|]; [|congruence]. split; [|eauto].
    unfold unwritten. cbn. destruct (mask_buffer op) as [c|]; auto.
    destruct (Nat.eqb_spec b c); [congruence|auto].
  - destruct (mval m b i) as [v|]; [|congruence]. split; [|eauto].
    unfold unwritten. cbn. destruct (Nat.eqb_spec b rb); [congruence|auto].
Qed.

Lemma does_ifp {A} C m (t : prog V bool) (p q : prog V A) (b : bool) ws a :
  does C m t [] b -> does C m (if b then p else q) ws a -> does C m (ifp t p q) ws a.
Proof. intros Ht Hp. eapply does_bind0; [exact Ht|]. destruct b; exact Hp. Qed.

End Moves.
