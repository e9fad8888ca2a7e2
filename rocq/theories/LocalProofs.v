(** Lemmas about local operations. *)
From Coq Require Import ZArith List Bool Lia.
From Verif Require Import LangModel LangProofs ConcModel IndexModel IndexSpec IndexProofs
  LoopModel LoopSpec LoopProofs PolicyModel LocalModel LocalSpec.
Import ListNotations.
Open Scope Z_scope.

Section Local.
Context {V : Type}.
Implicit Types m : mem V.
Implicit Types op : outpol V.
Implicit Types ip : inpol V.

(** ** Footprints of policies *)

Lemma own_ret {A} S rb mb (a : A) : own S rb mb (Ret a : prog V A).
Proof. exact I. Qed.

Lemma own_bind {A B} S rb mb (p : prog V A) (f : A -> prog V B) :
  own S rb mb p -> (forall a, own S rb mb (f a)) -> own S rb mb (bind p f).
Proof. apply fits_bind. Qed.

Lemma own_seq {A B} S rb mb (p : prog V A) (q : prog V B) :
  own S rb mb p -> own S rb mb q -> own S rb mb (seq p q).
Proof. apply fits_seq. Qed.

Lemma own_if {A} S rb mb (c : bool) (p q : prog V A) :
  own S rb mb p -> own S rb mb q -> own S rb mb (if c then p else q).
Proof. destruct c; auto. Qed.

Lemma own_rdv rb mb b i : own (Z.eqb i) rb mb (rdv b i : prog V V).
Proof. split; [|intros; exact I]. simpl. rewrite Z.eqb_refl, orb_true_r; auto. Qed.

Lemma own_rdv_other S rb mb b i : b <> rb -> own S rb mb (rdv b i : prog V V).
Proof.
  intros H; split; [|intros; exact I]. simpl.
  apply Nat.eqb_neq in H. rewrite H; auto.
Qed.

Lemma own_rdm rb mb b i : own (Z.eqb i) rb mb (rdm b i : prog V bool).
Proof.
  split; [|intros; exact I]. simpl. destruct mb; auto.
  rewrite Z.eqb_refl, orb_true_r; auto.
Qed.

Lemma own_rdm_other S rb mb b i : mb <> Some b -> own S rb mb (rdm b i : prog V bool).
Proof.
  intros H; split; [|intros; exact I]. simpl. destruct mb as [c|]; auto.
  destruct (Nat.eqb_spec b c); [congruence|auto].
Qed.

Lemma own_wrv rb mb i v : own (Z.eqb i) rb mb (wrv rb i v : prog V unit).
Proof. split; [|exact I]. simpl. rewrite Z.eqb_refl, Nat.eqb_refl; auto. Qed.

Lemma own_wrm rb b i x : own (Z.eqb i) rb (Some b) (wrm b i x : prog V unit).
Proof. split; [|exact I]. simpl. rewrite Z.eqb_refl, Nat.eqb_refl; auto. Qed.

Lemma own_mark op rb i : marks_result op rb ->
  own (Z.eqb i) rb (mask_buffer op) (mark_as_no_data op i).
Proof.
  destruct op as [|b nd|b nd]; simpl; intros H.
  - exact I.
  - apply own_wrm.
  - subst; apply own_wrv.
Qed.

Lemma own_nd ip rb mb i : own (Z.eqb i) rb mb (is_no_data ip i).
Proof.
  destruct ip as [| |b nd|b f]; try exact I.
  - apply own_bind; [apply own_rdm|intros; exact I].
  - apply own_bind; [apply own_rdv|intros; exact I].
Qed.

Lemma own_nd_apart ip op rb S i : policy_apart ip op rb ->
  own S rb (mask_buffer op) (is_no_data ip i).
Proof.
  destruct ip as [| |b nd|b f]; cbn [policy_apart]; intros H; try exact I.
  - apply own_bind; [apply own_rdm_other; auto|intros; exact I].
  - apply own_bind; [apply own_rdv_other; auto|intros; exact I].
Qed.

(** ** Runs of policies *)

Lemma run_nd ip m i : readable ip m i -> run (is_no_data ip i) m = Some (nd_at ip m i, m).
Proof.
  destruct ip as [| |b nd|b f]; simpl; auto; intros H.
  - destruct (mmsk m b i); [auto|congruence].
  - destruct (mval m b i); [auto|congruence].
Qed.

(** Marking leaves [NoData]. *)
Lemma run_mark op rb m i : marks_result op rb -> result_exists op rb m i ->
  exists m', run (mark_as_no_data op i) m = Some (tt, m') /\
    holds op rb m m' i NoData.
Proof.
  intros Hmr [Hv Hx]. destruct op as [|b nd|b nd]; simpl in *.
  - exists m; split; auto. split.
    + destruct (mval m rb i); auto.
    + discriminate.
  - destruct (mmsk m b i) eqn:E; [|congruence].
    eexists; split; [reflexivity|]. split; simpl.
    + destruct (mval m rb i); auto.
    + intros c Hc; inversion Hc; subst. rewrite same_refl, E; auto.
  - subst b. destruct (mval m rb i) eqn:E; [|congruence].
    eexists; split; [reflexivity|]. split; simpl.
    + rewrite same_refl, E; auto.
    + discriminate.
Qed.

(** Writing [r] and then marking if it is out of range. *)
Lemma run_write_check op rb m i r (ok : bool) :
  marks_result op rb -> result_exists op rb m i ->
  exists m', run (seq (wrv rb i r)
                      (if negb ok then mark_as_no_data op i else skip)) m = Some (tt, m') /\
    holds op rb m m' i (if ok then Value r else OutOfRange r).
Proof.
  intros Hmr [Hv Hx]. rewrite run_seq. simpl.
  destruct (mval m rb i) as [old|] eqn:Eo; [|congruence].
  destruct ok; simpl.
  - eexists; split; [reflexivity|]. split; simpl.
    + rewrite same_refl, Eo; auto.
    + intros c Hc; destruct (mmsk m c i); auto.
  - destruct op as [|b nd|b nd]; simpl in *.
    + eexists; split; [reflexivity|]. split; simpl.
      * rewrite same_refl, Eo; auto.
      * discriminate.
    + destruct (mmsk m b i) eqn:E; [|congruence].
      eexists; split; [reflexivity|]. split; simpl.
      * rewrite same_refl, Eo; auto.
      * intros c Hc; inversion Hc; subst. rewrite same_refl, E; auto.
    + subst b. rewrite same_refl.
      eexists; split; [reflexivity|]. split; simpl.
      * rewrite same_refl, Eo; auto.
      * discriminate.
Qed.

(** The value that is read after the result has been written. *)
Lemma mval_after_write m rb i r b j :
  mval (set_v m rb i r) b j = if same rb b i j then Some r else mval m b j.
Proof. reflexivity. Qed.

Lemma run_rdv {A} b i (k : V -> prog V A) m v : mval m b i = Some v ->
  run (bind (rdv b i) k) m = run (k v) m.
Proof. intros H; cbn. rewrite H; auto. Qed.

Lemma run_wrv {A} b i v (k : prog V A) m : mval m b i <> None ->
  run (seq (wrv b i v) k) m = run k (set_v m b i v).
Proof. intros H; cbn. destruct (mval m b i); congruence. Qed.

(** ** Element loops that hold outcomes *)

Lemma outcome_loop op rb l body m (o : Z -> outcome V) :
  NoDup l -> elementwise rb (mask_buffer op) l body ->
  (forall i, In i l -> exists ms, run (body i) m = Some (tt, ms) /\ holds op rb m ms i (o i)) ->
  exists m', run (for_list l body) m = Some (tt, m') /\
    (forall i, In i l -> holds op rb m m' i (o i)) /\ changes_only op rb l m m'.
Proof.
  intros Hnd Hel Hrun.
  set (ms := fun i => match run (body i) m with Some (_, x) => x | None => m end).
  assert (Hms : forall i, In i l -> run (body i) m = Some (tt, ms i) /\ holds op rb m (ms i) i (o i)).
  { intros i Hi. destruct (Hrun i Hi) as (x & E & H). unfold ms. rewrite E. auto. }
  destruct (element_loop rb (mask_buffer op) l body m ms) as (m' & H1 & H2 & H3 & H4); auto.
  { intros i Hi; apply Hms; auto. }
  exists m'; split; auto. split; [|split; auto].
  intros i Hi. destruct (Hms i Hi) as (_ & Ha & Hb). destruct (H2 i Hi) as [E1 E2].
  split; [congruence|]. intros c Hc. rewrite E2; auto.
Qed.

(** A local operation on 1D blocks: an element loop with outcome [o]. *)
Definition local1 op rb size (opf : range -> prog V unit) (o : Z -> outcome V) m : Prop :=
  exists body P, stable rb (mask_buffer op) P /\ P m /\
    loop_like1 rb (mask_buffer op) P size opf body /\
    elementwise rb (mask_buffer op) (zrange 0 size) body /\
    forall i, 0 <= i < size ->
      exists ms, run (body i) m = Some (tt, ms) /\ holds op rb m ms i (o i).

Definition local2 op rb rows cols (opf : block2 -> prog V unit) (o : Z -> outcome V) m : Prop :=
  exists body P, stable rb (mask_buffer op) P /\ P m /\
    loop_like2 rb (mask_buffer op) P rows cols opf body /\
    elementwise rb (mask_buffer op) (zrange 0 (rows * cols)) body /\
    forall i, 0 <= i < rows * cols ->
      exists ms, run (body i) m = Some (tt, ms) /\ holds op rb m ms i (o i).

Theorem local1_sequential op rb size opf o m : 0 <= size -> local1 op rb size opf o m ->
  exists m', run (opf (whole1 size)) m = Some (tt, m') /\
    (forall i, 0 <= i < size -> holds op rb m m' i (o i)) /\
    changes_only op rb (zrange 0 size) m m'.
Proof.
  intros Hs (body & P & Hst & HP & Hlike & Hel & Ho).
  destruct (outcome_loop op rb (zrange 0 size) body m o) as (m' & H1 & H2 & H3); auto.
  { apply NoDup_zrange. }
  { intros i Hi; apply Ho, in_zrange; auto. }
  exists m'; split; [|split; auto].
  - destruct (Hlike (whole1 size)) as [_ E]; simpl; try lia. rewrite E; auto.
  - intros i Hi; apply H2, in_zrange; auto.
Qed.

Theorem local2_sequential op rb rows cols opf o m : 0 <= rows -> 0 <= cols ->
  local2 op rb rows cols opf o m ->
  exists m', run (opf (whole2 rows cols)) m = Some (tt, m') /\
    (forall i, 0 <= i < rows * cols -> holds op rb m m' i (o i)) /\
    changes_only op rb (zrange 0 (rows * cols)) m m'.
Proof.
  intros Hr Hc (body & P & Hst & HP & Hlike & Hel & Ho).
  destruct (outcome_loop op rb (zrange 0 (rows * cols)) body m o) as (m' & H1 & H2 & H3); auto.
  { apply NoDup_zrange. }
  { intros i Hi; apply Ho, in_zrange; auto. }
  exists m'; split; [|split; auto].
  - destruct (Hlike (whole2 rows cols)) as [_ E]; simpl; auto; try lia.
    rewrite E, block_elements_whole; auto.
  - intros i Hi; apply H2, in_zrange; auto.
Qed.

Theorem local1_parallel op rb size opf o m m1 n : 1 <= n -> 0 <= size < 2 ^ 64 ->
  local1 op rb size opf o m ->
  run (opf (whole1 size)) m = Some (tt, m1) ->
  exists tasks, par1 n size opf = Some tasks /\ always_yields tasks m m1.
Proof.
  intros Hn Hs (body & P & Hst & HP & Hlike & Hel & Ho) Hrun.
  eapply parallel_1d; eauto.
Qed.

Theorem local2_parallel op rb rows cols opf o m m1 n : 1 <= n -> 0 <= rows < 2 ^ 64 ->
  0 <= cols -> local2 op rb rows cols opf o m ->
  run (opf (whole2 rows cols)) m = Some (tt, m1) ->
  exists tasks, par2 n rows cols opf = Some tasks /\ always_yields tasks m m1.
Proof.
  intros Hn Hs Hc (body & P & Hst & HP & Hlike & Hel & Ho) Hrun.
  eapply parallel_2d; eauto.
Qed.

(** ** Building [local1] and [local2] *)

Lemma block_in_raster rows cols blk x : 0 <= cols ->
  0 <= rbegin (fst blk) -> rend (fst blk) <= rows -> snd blk = whole1 cols ->
  In x (block_elements cols blk) -> 0 <= x < rows * cols.
Proof.
  intros Hc H1 H2 H3 H. apply in_block_elements in H as (i & j & Hi & Hj & ->).
  rewrite H3 in Hj; simpl in Hj. nia.
Qed.

(** Plain loop. *)
Lemma local1_plain op rb size body (o : Z -> outcome V) m :
  elementwise rb (mask_buffer op) (zrange 0 size) body ->
  (forall i, 0 <= i < size ->
      exists ms, run (body i) m = Some (tt, ms) /\ holds op rb m ms i (o i)) ->
  local1 op rb size (fun r => loop1 r body) o m.
Proof.
  intros Hel Ho. exists body, (fun _ => True).
  split; [apply stable_true|]. split; [exact I|]. split; [|auto].
  intros r Hb He. split.
  - apply own_loop1. intros i Hi. apply Hel. apply in_zrange in Hi. apply in_zrange; lia.
  - intros m' _. apply run_loop1.
Qed.

Lemma local2_plain op rb rows cols body (o : Z -> outcome V) m : 0 <= cols ->
  elementwise rb (mask_buffer op) (zrange 0 (rows * cols)) body ->
  (forall i, 0 <= i < rows * cols ->
      exists ms, run (body i) m = Some (tt, ms) /\ holds op rb m ms i (o i)) ->
  local2 op rb rows cols (fun r => loop2 cols r body) o m.
Proof.
  intros Hc Hel Ho. exists body, (fun _ => True).
  split; [apply stable_true|]. split; [exact I|]. split; [|auto].
  intros r Hb He Hcs. split.
  - apply own_loop2. intros i Hi. apply Hel, in_zrange. eapply block_in_raster; eauto.
  - intros m' _. apply run_loop2.
Qed.

(** Loop after a test for no-data on a scalar argument. *)
Definition scalar_nd ip (x : bool) m : Prop := readable ip m 0 /\ nd_at ip m 0 = x.

Lemma scalar_nd_stable ip op rb x : policy_apart ip op rb ->
  stable rb (mask_buffer op) (scalar_nd ip x).
Proof.
  intros Hap m m' Hs [Hr Hn]. unfold scalar_nd.
  destruct ip as [| |b nd|b f]; simpl in *; auto.
  - assert (E : mmsk m' b 0 = mmsk m b 0).
    { apply (Hs (LM b 0)). simpl. destruct (mask_buffer op) as [c|]; auto.
      destruct (Nat.eqb_spec b c); [congruence|auto]. }
    rewrite E; auto.
  - assert (E : mval m' b 0 = mval m b 0).
    { apply (Hs (LV b 0)). simpl. destruct (Nat.eqb_spec b rb); [congruence|auto]. }
    rewrite E; auto.
Qed.

Lemma local1_hoisted ip op rb size body1 body2 (o : Z -> outcome V) m :
  policy_apart ip op rb -> readable ip m 0 ->
  (forall x, elementwise rb (mask_buffer op) (zrange 0 size)
     (if (x : bool) then body1 else body2)) ->
  (forall i, 0 <= i < size ->
      exists ms, run ((if nd_at ip m 0 then body1 else body2) i) m = Some (tt, ms) /\
        holds op rb m ms i (o i)) ->
  local1 op rb size
    (fun r => bind (is_no_data ip 0) (fun nd : bool =>
                if nd then loop1 r body1 else loop1 r body2)) o m.
Proof.
  intros Hap Hr Hel Ho.
  exists (if nd_at ip m 0 then body1 else body2), (scalar_nd ip (nd_at ip m 0)).
  split; [apply scalar_nd_stable; auto|]. split; [split; auto|].
  split; [|auto]. intros r Hb He. split.
  - apply own_bind; [apply own_nd_apart; auto|]. intros x.
    apply own_if; apply own_loop1; intros i Hi.
    + apply (Hel true). apply in_zrange in Hi. apply in_zrange; lia.
    + apply (Hel false). apply in_zrange in Hi. apply in_zrange; lia.
  - intros m' [Hr' Hn']. rewrite run_bind, run_nd, Hn' by auto.
    destruct (nd_at ip m 0); apply run_loop1.
Qed.

Lemma local2_hoisted ip op rb rows cols body1 body2 (o : Z -> outcome V) m : 0 <= cols ->
  policy_apart ip op rb -> readable ip m 0 ->
  (forall x, elementwise rb (mask_buffer op) (zrange 0 (rows * cols))
     (if (x : bool) then body1 else body2)) ->
  (forall i, 0 <= i < rows * cols ->
      exists ms, run ((if nd_at ip m 0 then body1 else body2) i) m = Some (tt, ms) /\
        holds op rb m ms i (o i)) ->
  local2 op rb rows cols
    (fun r => bind (is_no_data ip 0) (fun nd : bool =>
                if nd then loop2 cols r body1 else loop2 cols r body2)) o m.
Proof.
  intros Hc Hap Hr Hel Ho.
  exists (if nd_at ip m 0 then body1 else body2), (scalar_nd ip (nd_at ip m 0)).
  split; [apply scalar_nd_stable; auto|]. split; [split; auto|].
  split; [|auto]. intros r Hb He Hcs. split.
  - apply own_bind; [apply own_nd_apart; auto|]. intros x.
    apply own_if; apply own_loop2; intros i Hi.
    + apply (Hel true), in_zrange. eapply block_in_raster; eauto.
    + apply (Hel false), in_zrange. eapply block_in_raster; eauto.
  - intros m' [Hr' Hn']. rewrite run_bind, run_nd, Hn' by auto.
    destruct (nd_at ip m 0); apply run_loop2.
Qed.

(** ** Unary elements *)
Section Unary.
Variables (f : V -> V) (dom : V -> bool) (rng : V -> V -> bool).

(** The range check as the code performs it: the argument is read again. *)
Definition rng1_again (al : bool) (x r : V) : bool := rng (if al then r else x) r.

Lemma own_unary_element op a ia rb i : marks_result op rb -> (ia = i \/ a <> rb) ->
  own (Z.eqb i) rb (mask_buffer op) (unary_element f dom rng op a ia rb i).
Proof.
  intros Hmr Hia.
  assert (Hrd : own (Z.eqb i) rb (mask_buffer op) (rdv a ia : prog V V)).
  { destruct Hia as [->|Hne]; [apply own_rdv|apply own_rdv_other; auto]. }
  apply own_bind; auto. intros v. apply own_if; [apply own_mark; auto|].
  apply own_seq; [apply own_wrv|]. apply own_bind; auto. intros v'.
  apply own_bind; [apply own_rdv|]. intros r. apply own_if; [apply own_mark; auto|exact I].
Qed.

Lemma run_unary_element op a ia rb m i x : marks_result op rb -> result_exists op rb m i ->
  mval m a ia = Some x ->
  exists ms, run (unary_element f dom rng op a ia rb i) m = Some (tt, ms) /\
    holds op rb m ms i (unary_outcome f dom (rng1_again (same rb a i ia)) (Some x)).
Proof.
  intros Hmr Hre Hx. unfold unary_element. rewrite (run_rdv _ _ _ _ x) by auto.
  unfold unary_outcome. destruct (dom x); cbn [negb].
  2: { apply run_mark; auto. }
  destruct (run_write_check op rb m i (f x) (rng1_again (same rb a i ia) x (f x)) Hmr Hre)
    as (ms & H1 & H2).
  exists ms. split; auto.
  rewrite run_wrv in * by apply Hre.
  rewrite (run_rdv _ _ _ _ (if same rb a i ia then f x else x)).
  2: { rewrite mval_after_write, Hx. destruct (same rb a i ia); auto. }
  rewrite (run_rdv _ _ _ _ (f x)) by (rewrite mval_after_write, same_refl; auto).
  exact H1.
Qed.

Lemma run_unary_cell ip op a rb m i : marks_result op rb -> result_exists op rb m i ->
  arg_exists ip a m i ->
  exists ms, run (unary_cell f dom rng ip op a rb i) m = Some (tt, ms) /\
    holds op rb m ms i (unary_outcome f dom (rng1_again (Nat.eqb rb a)) (arg_at ip a m i)).
Proof.
  intros Hmr Hre [Hrd Hv]. unfold unary_cell. rewrite run_bind, run_nd by auto.
  unfold arg_at. destruct (nd_at ip m i).
  - apply run_mark; auto.
  - destruct (mval m a i) as [x|] eqn:E; [|congruence].
    destruct (run_unary_element op a i rb m i x Hmr Hre E) as (ms & H1 & H2).
    exists ms; split; auto. replace (Nat.eqb rb a) with (same rb a i i); auto.
    unfold same. rewrite Z.eqb_refl, andb_true_r; auto.
Qed.

Lemma own_unary_cell ip op a rb i : marks_result op rb ->
  own (Z.eqb i) rb (mask_buffer op) (unary_cell f dom rng ip op a rb i).
Proof.
  intros Hmr. apply own_bind; [apply own_nd|]. intros x.
  apply own_if; [apply own_mark; auto|]. apply own_unary_element; auto.
Qed.

Lemma local_unary_1d ip op a rb size m :
  marks_result op rb ->
  (forall i, 0 <= i < size -> arg_exists ip a m i /\ result_exists op rb m i) ->
  local1 op rb size (unary_1d f dom rng ip op a rb)
    (fun i => unary_outcome f dom (rng1_again (Nat.eqb rb a)) (arg_at ip a m i)) m.
Proof.
  intros Hmr Hex. apply local1_plain.
  - intros i _; apply own_unary_cell; auto.
  - intros i Hi. destruct (Hex i Hi). apply run_unary_cell; auto.
Qed.

Lemma local_unary_2d ip op a rb rows cols m :
  0 <= cols -> marks_result op rb ->
  (forall i, 0 <= i < rows * cols -> arg_exists ip a m i /\ result_exists op rb m i) ->
  local2 op rb rows cols (unary_2d f dom rng ip op a rb cols)
    (fun i => unary_outcome f dom (rng1_again (Nat.eqb rb a)) (arg_at ip a m i)) m.
Proof.
  intros Hc Hmr Hex. apply local2_plain; auto.
  - intros i _; apply own_unary_cell; auto.
  - intros i Hi. destruct (Hex i Hi). apply run_unary_cell; auto.
Qed.

Lemma run_disaggregate_cell ip op a rb m i : marks_result op rb -> result_exists op rb m i ->
  arg_exists ip a m 0 -> a <> rb ->
  exists ms, run ((if nd_at ip m 0 then mark_as_no_data op
                   else unary_element f dom rng op a 0 rb) i) m = Some (tt, ms) /\
    holds op rb m ms i (unary_outcome f dom rng (arg_at ip a m 0)).
Proof.
  intros Hmr Hre [Hrd Hv] Hne. unfold arg_at. destruct (nd_at ip m 0).
  - apply run_mark; auto.
  - destruct (mval m a 0) as [x|] eqn:E; [|congruence].
    destruct (run_unary_element op a 0 rb m i x Hmr Hre E) as (ms & H1 & H2).
    exists ms; split; auto.
    replace (same rb a i 0) with false in H2; auto.
    symmetry; apply same_false; auto.
Qed.

Lemma local_disaggregate_1d ip op a rb size m :
  marks_result op rb -> a <> rb -> policy_apart ip op rb -> arg_exists ip a m 0 ->
  (forall i, 0 <= i < size -> result_exists op rb m i) ->
  local1 op rb size (disaggregate_1d f dom rng ip op a rb)
    (fun _ => unary_outcome f dom rng (arg_at ip a m 0)) m.
Proof.
  intros Hmr Hne Hap Ha Hex. apply local1_hoisted; auto.
  - apply Ha.
  - intros [|] i _; [apply own_mark; auto|apply own_unary_element; auto].
  - intros i Hi. apply run_disaggregate_cell; auto.
Qed.

Lemma local_disaggregate_2d ip op a rb rows cols m : 0 <= cols ->
  marks_result op rb -> a <> rb -> policy_apart ip op rb -> arg_exists ip a m 0 ->
  (forall i, 0 <= i < rows * cols -> result_exists op rb m i) ->
  local2 op rb rows cols (disaggregate_2d f dom rng ip op a rb cols)
    (fun _ => unary_outcome f dom rng (arg_at ip a m 0)) m.
Proof.
  intros Hc Hmr Hne Hap Ha Hex. apply local2_hoisted; auto.
  - apply Ha.
  - intros [|] i _; [apply own_mark; auto|apply own_unary_element; auto].
  - intros i Hi. apply run_disaggregate_cell; auto.
Qed.

End Unary.

(** ** Nullary *)
Section Nullary.
Variable g : V -> V.

Definition nullary_outcome (nd : bool) (old : option V) : outcome V :=
  if nd then NoData else match old with Some r => Value (g r) | None => NoData end.

Lemma own_nullary_cell ip op rb i : marks_result op rb ->
  own (Z.eqb i) rb (mask_buffer op) (nullary_cell g ip op rb i).
Proof.
  intros Hmr. apply own_bind; [apply own_nd|]. intros x.
  apply own_if; [apply own_mark; auto|]. apply own_bind; [apply own_rdv|].
  intros r; apply own_wrv.
Qed.

Lemma run_nullary_cell ip op rb m i : marks_result op rb -> result_exists op rb m i ->
  readable ip m i ->
  exists ms, run (nullary_cell g ip op rb i) m = Some (tt, ms) /\
    holds op rb m ms i (nullary_outcome (nd_at ip m i) (mval m rb i)).
Proof.
  intros Hmr Hre Hrd. unfold nullary_cell, nullary_outcome. rewrite run_bind, run_nd by auto.
  destruct (nd_at ip m i); [apply run_mark; auto|].
  rewrite run_bind. cbn [run rdv]. destruct (mval m rb i) as [r|] eqn:E.
  - cbn [run wrv]. rewrite E. eexists; split; [reflexivity|]. split; simpl.
    + rewrite same_refl, E; auto.
    + intros c Hc; destruct (mmsk m c i); auto.
  - destruct Hre; congruence.
Qed.

Lemma local_nullary_1d ip op rb size m : marks_result op rb ->
  (forall i, 0 <= i < size -> readable ip m i /\ result_exists op rb m i) ->
  local1 op rb size (nullary_1d g ip op rb)
    (fun i => nullary_outcome (nd_at ip m i) (mval m rb i)) m.
Proof.
  intros Hmr Hex. apply local1_plain.
  - intros i _; apply own_nullary_cell; auto.
  - intros i Hi. destruct (Hex i Hi). apply run_nullary_cell; auto.
Qed.

Lemma local_nullary_2d ip op rb rows cols m : 0 <= cols -> marks_result op rb ->
  (forall i, 0 <= i < rows * cols -> readable ip m i /\ result_exists op rb m i) ->
  local2 op rb rows cols (nullary_2d g ip op rb cols)
    (fun i => nullary_outcome (nd_at ip m i) (mval m rb i)) m.
Proof.
  intros Hc Hmr Hex. apply local2_plain; auto.
  - intros i _; apply own_nullary_cell; auto.
  - intros i Hi. destruct (Hex i Hi). apply run_nullary_cell; auto.
Qed.
End Nullary.

(** ** Binary *)
Section Binary.
Variables (f : V -> V -> V) (dom : V -> V -> bool) (rng : V -> V -> V -> bool).

Definition rng2_again (al1 al2 : bool) (x y r : V) : bool :=
  rng (if al1 then r else x) (if al2 then r else y) r.

Definition by_ref (bi : @binding V) : bool := match bi with None => true | Some _ => false end.

Lemma own_binary_element bi op a1 i1 a2 i2 rb i : marks_result op rb ->
  (i1 = i \/ a1 <> rb) -> (i2 = i \/ a2 <> rb) ->
  own (Z.eqb i) rb (mask_buffer op) (binary_element f dom rng bi op a1 i1 a2 i2 rb i).
Proof.
  intros Hmr H1 H2.
  assert (Hr1 : own (Z.eqb i) rb (mask_buffer op) (rdv a1 i1 : prog V V)).
  { destruct H1 as [->|Hne]; [apply own_rdv|apply own_rdv_other; auto]. }
  assert (Hr2 : own (Z.eqb i) rb (mask_buffer op) (rdv a2 i2 : prog V V)).
  { destruct H2 as [->|Hne]; [apply own_rdv|apply own_rdv_other; auto]. }
  apply own_bind; auto. intros v. apply own_bind; auto. intros w. cbv zeta.
  apply own_if; [apply own_mark; auto|].
  apply own_seq; [apply own_wrv|]. apply own_bind; auto. intros v1'.
  apply own_bind; [destruct bi; [exact I|exact Hr2]|]. intros v2'.
  apply own_bind; [apply own_rdv|]. intros r. apply own_if; [apply own_mark; auto|exact I].
Qed.

Lemma run_binary_element bi op a1 i1 a2 i2 rb m i x y :
  marks_result op rb -> result_exists op rb m i ->
  mval m a1 i1 = Some x -> mval m a2 i2 = Some y ->
  exists ms, run (binary_element f dom rng bi op a1 i1 a2 i2 rb i) m = Some (tt, ms) /\
    holds op rb m ms i
      (binary_outcome f dom (rng2_again (same rb a1 i i1) (by_ref bi && same rb a2 i i2))
         (Some x) (Some (bound bi y))).
Proof.
  intros Hmr Hre Hx Hy. unfold binary_element. rewrite (run_rdv _ _ _ _ x) by auto.
  rewrite (run_rdv _ _ _ _ y) by auto. cbv zeta.
  unfold binary_outcome. destruct (dom x (bound bi y)); cbn [negb].
  2: { apply run_mark; auto. }
  destruct (run_write_check op rb m i (f x (bound bi y))
     (rng2_again (same rb a1 i i1) (by_ref bi && same rb a2 i i2) x (bound bi y)
        (f x (bound bi y))) Hmr Hre)
    as (ms & H1 & H2).
  exists ms. split; auto.
  rewrite run_wrv in * by apply Hre.
  rewrite (run_rdv _ _ _ _ (if same rb a1 i i1 then f x (bound bi y) else x)).
  2: { rewrite mval_after_write, Hx. destruct (same rb a1 i i1); auto. }
  destruct bi as [c|]; cbn [read_again by_ref bound andb] in *.
  - cbn [bind].
    rewrite (run_rdv _ _ _ _ (f x (c y))) by (rewrite mval_after_write, same_refl; auto).
    exact H1.
  - rewrite (run_rdv _ _ _ _ (if same rb a2 i i2 then f x y else y)).
    2: { rewrite mval_after_write, Hy. destruct (same rb a2 i i2); auto. }
    rewrite (run_rdv _ _ _ _ (f x y)) by (rewrite mval_after_write, same_refl; auto).
    exact H1.
Qed.

Lemma same_i rb a i : same rb a i i = Nat.eqb rb a.
Proof. unfold same; rewrite Z.eqb_refl, andb_true_r; auto. Qed.

Lemma own_binary_cell bi ip1 ip2 op a1 a2 rb i : marks_result op rb ->
  own (Z.eqb i) rb (mask_buffer op) (binary_cell f dom rng bi ip1 ip2 op a1 a2 rb i).
Proof.
  intros Hmr. apply own_bind; [apply own_nd|]. intros x.
  apply own_if; [apply own_mark; auto|]. apply own_bind; [apply own_nd|]. intros y.
  apply own_if; [apply own_mark; auto|]. apply own_binary_element; auto.
Qed.

Lemma run_binary_cell bi ip1 ip2 op a1 a2 rb m i :
  marks_result op rb -> result_exists op rb m i ->
  arg_exists ip1 a1 m i -> arg_exists ip2 a2 m i ->
  exists ms, run (binary_cell f dom rng bi ip1 ip2 op a1 a2 rb i) m = Some (tt, ms) /\
    holds op rb m ms i
      (binary_outcome f dom (rng2_again (Nat.eqb rb a1) (by_ref bi && Nat.eqb rb a2))
         (arg_at ip1 a1 m i) (option_map (bound bi) (arg_at ip2 a2 m i))).
Proof.
  intros Hmr Hre [Hr1 Hv1] [Hr2 Hv2]. unfold binary_cell. rewrite run_bind, run_nd by auto.
  unfold arg_at. destruct (nd_at ip1 m i); [apply run_mark; auto|].
  rewrite run_bind, run_nd by auto.
  destruct (mval m a1 i) as [x|] eqn:E1; [|congruence].
  destruct (nd_at ip2 m i); [apply run_mark; auto|].
  destruct (mval m a2 i) as [y|] eqn:E2; [|congruence].
  rewrite <- (same_i rb a1 i), <- (same_i rb a2 i). cbn [option_map].
  apply run_binary_element; auto.
Qed.

Lemma local_binary_1d_1d bi ip1 ip2 op a1 a2 rb size m : marks_result op rb ->
  (forall i, 0 <= i < size ->
     arg_exists ip1 a1 m i /\ arg_exists ip2 a2 m i /\ result_exists op rb m i) ->
  local1 op rb size (binary_1d_1d f dom rng bi ip1 ip2 op a1 a2 rb)
    (fun i => binary_outcome f dom (rng2_again (Nat.eqb rb a1) (by_ref bi && Nat.eqb rb a2))
                (arg_at ip1 a1 m i) (option_map (bound bi) (arg_at ip2 a2 m i))) m.
Proof.
  intros Hmr Hex. apply local1_plain.
  - intros i _; apply own_binary_cell; auto.
  - intros i Hi. destruct (Hex i Hi) as (A & B & C). apply run_binary_cell; auto.
Qed.

Lemma option_map_id (o : option V) : option_map (bound None) o = o.
Proof. destruct o; auto. Qed.

Lemma local_binary_2d_2d ip1 ip2 op a1 a2 rb rows cols m : 0 <= cols -> marks_result op rb ->
  (forall i, 0 <= i < rows * cols ->
     arg_exists ip1 a1 m i /\ arg_exists ip2 a2 m i /\ result_exists op rb m i) ->
  local2 op rb rows cols (binary_2d_2d f dom rng ip1 ip2 op a1 a2 rb cols)
    (fun i => binary_outcome f dom (rng2_again (Nat.eqb rb a1) (Nat.eqb rb a2))
                (arg_at ip1 a1 m i) (arg_at ip2 a2 m i)) m.
Proof.
  intros Hc Hmr Hex. apply local2_plain; auto.
  - intros i _; apply own_binary_cell; auto.
  - intros i Hi. destruct (Hex i Hi) as (A & B & C).
    rewrite <- (option_map_id (arg_at ip2 a2 m i)). apply run_binary_cell; auto.
Qed.

(** array, scalar *)
Lemma elementwise_a0 ip1 op a1 a2 rb l x : marks_result op rb -> a2 <> rb ->
  elementwise rb (mask_buffer op) l
    (if (x : bool) then mark_as_no_data op else binary_cell_a0 f dom rng None ip1 op a1 a2 rb).
Proof.
  intros Hmr Hne i _. destruct x; [apply own_mark; auto|].
  apply own_bind; [apply own_nd|]. intros x.
  apply own_if; [apply own_mark; auto|]. apply own_binary_element; auto.
Qed.

Lemma run_a0 ip1 ip2 op a1 a2 rb m i : marks_result op rb -> a2 <> rb ->
  result_exists op rb m i -> arg_exists ip1 a1 m i -> arg_exists ip2 a2 m 0 ->
  exists ms, run ((if nd_at ip2 m 0 then mark_as_no_data op
                   else binary_cell_a0 f dom rng None ip1 op a1 a2 rb) i) m = Some (tt, ms) /\
    holds op rb m ms i
      (binary_outcome f dom (rng2_again (Nat.eqb rb a1) false)
         (arg_at ip1 a1 m i) (arg_at ip2 a2 m 0)).
Proof.
  intros Hmr Hne Hre [Hr1 Hv1] [Hr2 Hv2].
  unfold arg_at. destruct (nd_at ip2 m 0).
  { destruct (run_mark op rb m i Hmr Hre) as (ms & A & B). exists ms; split; auto.
    destruct (nd_at ip1 m i); auto. destruct (mval m a1 i); auto. }
  unfold binary_cell_a0. rewrite run_bind, run_nd by auto.
  destruct (nd_at ip1 m i); [apply run_mark; auto|].
  destruct (mval m a1 i) as [x|] eqn:E1; [|congruence].
  destruct (mval m a2 0) as [y|] eqn:E2; [|congruence].
  rewrite <- (same_i rb a1 i).
  replace false with (by_ref None && same rb a2 i 0).
  - apply (run_binary_element None); auto.
  - apply same_false; auto.
Qed.

Lemma local_binary_1d_0d ip1 ip2 op a1 a2 rb size m : marks_result op rb ->
  a2 <> rb -> policy_apart ip2 op rb -> arg_exists ip2 a2 m 0 ->
  (forall i, 0 <= i < size -> arg_exists ip1 a1 m i /\ result_exists op rb m i) ->
  local1 op rb size (binary_1d_0d f dom rng ip1 ip2 op a1 a2 rb)
    (fun i => binary_outcome f dom (rng2_again (Nat.eqb rb a1) false)
                (arg_at ip1 a1 m i) (arg_at ip2 a2 m 0)) m.
Proof.
  intros Hmr Hne Hap Ha2 Hex. apply local1_hoisted; auto.
  - apply Ha2.
  - intros x. apply elementwise_a0; auto.
  - intros i Hi. destruct (Hex i Hi). apply run_a0; auto.
Qed.

Lemma local_binary_2d_0d ip1 ip2 op a1 a2 rb rows cols m : 0 <= cols -> marks_result op rb ->
  a2 <> rb -> policy_apart ip2 op rb -> arg_exists ip2 a2 m 0 ->
  (forall i, 0 <= i < rows * cols -> arg_exists ip1 a1 m i /\ result_exists op rb m i) ->
  local2 op rb rows cols (binary_2d_0d f dom rng ip1 ip2 op a1 a2 rb cols)
    (fun i => binary_outcome f dom (rng2_again (Nat.eqb rb a1) false)
                (arg_at ip1 a1 m i) (arg_at ip2 a2 m 0)) m.
Proof.
  intros Hc Hmr Hne Hap Ha2 Hex. apply local2_hoisted; auto.
  - apply Ha2.
  - intros x. apply elementwise_a0; auto.
  - intros i Hi. destruct (Hex i Hi). apply run_a0; auto.
Qed.

(** scalar, array *)
Lemma elementwise_0a bi ip2 op a1 a2 rb l x : marks_result op rb -> a1 <> rb ->
  elementwise rb (mask_buffer op) l
    (if (x : bool) then mark_as_no_data op else binary_cell_0a f dom rng bi ip2 op a1 a2 rb).
Proof.
  intros Hmr Hne i _. destruct x; [apply own_mark; auto|].
  apply own_bind; [apply own_nd|]. intros x.
  apply own_if; [apply own_mark; auto|]. apply own_binary_element; auto.
Qed.

Lemma run_0a bi ip1 ip2 op a1 a2 rb m i : marks_result op rb -> a1 <> rb ->
  result_exists op rb m i -> arg_exists ip1 a1 m 0 -> arg_exists ip2 a2 m i ->
  exists ms, run ((if nd_at ip1 m 0 then mark_as_no_data op
                   else binary_cell_0a f dom rng bi ip2 op a1 a2 rb) i) m = Some (tt, ms) /\
    holds op rb m ms i
      (binary_outcome f dom (rng2_again false (by_ref bi && Nat.eqb rb a2))
         (arg_at ip1 a1 m 0) (option_map (bound bi) (arg_at ip2 a2 m i))).
Proof.
  intros Hmr Hne Hre [Hr1 Hv1] [Hr2 Hv2].
  unfold arg_at. destruct (nd_at ip1 m 0); [apply run_mark; auto|].
  unfold binary_cell_0a. rewrite run_bind, run_nd by auto.
  destruct (mval m a1 0) as [x|] eqn:E1; [|congruence].
  destruct (nd_at ip2 m i); [apply run_mark; auto|].
  destruct (mval m a2 i) as [y|] eqn:E2; [|congruence].
  rewrite <- (same_i rb a2 i).
  replace false with (same rb a1 i 0) by (apply same_false; auto).
  apply run_binary_element; auto.
Qed.

Lemma local_binary_0d_1d bi ip1 ip2 op a1 a2 rb size m : marks_result op rb ->
  a1 <> rb -> policy_apart ip1 op rb -> arg_exists ip1 a1 m 0 ->
  (forall i, 0 <= i < size -> arg_exists ip2 a2 m i /\ result_exists op rb m i) ->
  local1 op rb size (binary_0d_1d f dom rng bi ip1 ip2 op a1 a2 rb)
    (fun i => binary_outcome f dom (rng2_again false (by_ref bi && Nat.eqb rb a2))
                (arg_at ip1 a1 m 0) (option_map (bound bi) (arg_at ip2 a2 m i))) m.
Proof.
  intros Hmr Hne Hap Ha1 Hex. apply local1_hoisted; auto.
  - apply Ha1.
  - intros x. apply elementwise_0a; auto.
  - intros i Hi. destruct (Hex i Hi). apply run_0a; auto.
Qed.

Lemma local_binary_0d_2d ip1 ip2 op a1 a2 rb rows cols m : 0 <= cols -> marks_result op rb ->
  a1 <> rb -> policy_apart ip1 op rb -> arg_exists ip1 a1 m 0 ->
  (forall i, 0 <= i < rows * cols -> arg_exists ip2 a2 m i /\ result_exists op rb m i) ->
  local2 op rb rows cols (binary_0d_2d f dom rng ip1 ip2 op a1 a2 rb cols)
    (fun i => binary_outcome f dom (rng2_again false (Nat.eqb rb a2))
                (arg_at ip1 a1 m 0) (arg_at ip2 a2 m i)) m.
Proof.
  intros Hc Hmr Hne Hap Ha1 Hex. apply local2_hoisted; auto.
  - apply Ha1.
  - intros x. apply elementwise_0a; auto.
  - intros i Hi. destruct (Hex i Hi).
    rewrite <- (option_map_id (arg_at ip2 a2 m i)). apply (run_0a None); auto.
Qed.

End Binary.

End Local.

(** ** Where local operations write *)
Section Writes.
Context {V : Type}.
Implicit Types op : outpol V.
Implicit Types ip : inpol V.

Definition writes (S : Z -> bool) (rb : buf) (mb : option buf) {A} (p : prog V A) : Prop :=
  fits (fun _ => true) (setW rb mb S) p.

Lemma writes_changes_only (l : list Z) op rb {A} (p : prog V A) m a m' :
  writes (memZ l) rb (mask_buffer op) p -> run p m = Some (a, m') ->
  changes_only op rb l m m'.
Proof.
  intros Hw Hr. pose proof (run_frame _ _ _ _ _ _ Hw Hr) as Hf.
  assert (Hin : forall i, ~ In i l -> memZ l i = false).
  { intros i Hi. destruct (memZ l i) eqn:E; auto. apply memZ_spec in E; tauto. }
  split; intros b i H.
  - apply (Hf (LV b i)). simpl. destruct H as [H|H].
    + apply Nat.eqb_neq in H; rewrite H; auto.
    + rewrite Hin, andb_false_r; auto.
  - apply (Hf (LM b i)). simpl. destruct (mask_buffer op) as [c|]; auto. destruct H as [H|H].
    + destruct (Nat.eqb_spec b c); [congruence|auto].
    + rewrite Hin, andb_false_r; auto.
Qed.

Lemma writes_bind {A B} S rb mb (p : prog V A) (f : A -> prog V B) :
  writes S rb mb p -> (forall a, writes S rb mb (f a)) -> writes S rb mb (bind p f).
Proof. apply fits_bind. Qed.
Lemma writes_seq {A B} S rb mb (p : prog V A) (q : prog V B) :
  writes S rb mb p -> writes S rb mb q -> writes S rb mb (seq p q).
Proof. apply fits_seq. Qed.
Lemma writes_if {A} S rb mb (c : bool) (p q : prog V A) :
  writes S rb mb p -> writes S rb mb q -> writes S rb mb (if c then p else q).
Proof. destruct c; auto. Qed.
Lemma writes_rdv S rb mb b i : writes S rb mb (rdv b i : prog V V).
Proof. split; [reflexivity|intros; exact I]. Qed.
Lemma writes_rdm S rb mb b i : writes S rb mb (rdm b i : prog V bool).
Proof. split; [reflexivity|intros; exact I]. Qed.
Lemma writes_wrv (S : Z -> bool) rb mb i v : S i = true -> writes S rb mb (wrv rb i v : prog V unit).
Proof. split; [|exact I]. simpl. rewrite Nat.eqb_refl; auto. Qed.
Lemma writes_ret {A} S rb mb (a : A) : writes S rb mb (Ret a : prog V A).
Proof. exact I. Qed.
Lemma writes_nd S rb mb ip i : writes S rb mb (is_no_data ip i).
Proof.
  destruct ip; try exact I; apply writes_bind; intros; try exact I;
    [apply writes_rdm|apply writes_rdv].
Qed.
Lemma writes_mark (S : Z -> bool) op rb i : marks_result op rb -> S i = true ->
  writes S rb (mask_buffer op) (mark_as_no_data op i).
Proof.
  destruct op as [|b nd|b nd]; simpl; intros H HS.
  - exact I.
  - split; [|exact I]. simpl. rewrite Nat.eqb_refl; auto.
  - subst; apply writes_wrv; auto.
Qed.

Lemma writes_loop1 rb mb r body :
  (forall i, In i (indices r) -> writes (memZ (indices r)) rb mb (body i)) ->
  writes (memZ (indices r)) rb mb (loop1 r body).
Proof. intros H; apply fits_for_range. intros i Hi. apply H, in_zrange; auto. Qed.

Lemma writes_loop2 rb mb nc blk body :
  (forall i, In i (block_elements nc blk) ->
     writes (memZ (block_elements nc blk)) rb mb (body i)) ->
  writes (memZ (block_elements nc blk)) rb mb (loop2 nc blk body).
Proof.
  intros H; apply fits_for_range. intros i Hi. apply fits_seq; [|exact I].
  apply fits_row. intros k Hk. apply H.
  apply in_block_elements. exists i, (rbegin (snd blk) + Z.of_nat k). lia.
Qed.

Ltac w :=
  repeat first
    [ assumption | apply writes_ret | apply writes_nd | apply writes_rdv | apply writes_rdm
    | apply writes_wrv; assumption | apply writes_mark; assumption
    | apply writes_if | apply writes_seq | apply writes_bind; [|intros] ].

Section Element.
Variables (S : Z -> bool) (op : outpol V) (rb : buf) (i : Z).
Hypotheses (Hm : marks_result op rb) (Hi : S i = true).

Lemma writes_unary_element f dom rng a ia :
  writes S rb (mask_buffer op) (unary_element f dom rng op a ia rb i).
Proof. unfold unary_element; w. Qed.
Lemma writes_unary_cell f dom rng ip a :
  writes S rb (mask_buffer op) (unary_cell f dom rng ip op a rb i).
Proof. unfold unary_cell, unary_element; w. Qed.
Lemma writes_nullary_cell g ip :
  writes S rb (mask_buffer op) (nullary_cell g ip op rb i).
Proof. unfold nullary_cell; w. Qed.
Lemma writes_binary_element f dom rng bi a1 i1 a2 i2 :
  writes S rb (mask_buffer op) (binary_element f dom rng bi op a1 i1 a2 i2 rb i).
Proof. unfold binary_element. destruct bi; cbn [read_again bound]; w. Qed.
Lemma writes_binary_cell f dom rng bi ip1 ip2 a1 a2 :
  writes S rb (mask_buffer op) (binary_cell f dom rng bi ip1 ip2 op a1 a2 rb i).
Proof.
  unfold binary_cell. repeat first [apply writes_nd | apply writes_mark; assumption
    | apply writes_binary_element | apply writes_if | apply writes_bind; [|intros]].
Qed.
Lemma writes_binary_cell_a0 f dom rng bi ip a1 a2 :
  writes S rb (mask_buffer op) (binary_cell_a0 f dom rng bi ip op a1 a2 rb i).
Proof.
  unfold binary_cell_a0. repeat first [apply writes_nd | apply writes_mark; assumption
    | apply writes_binary_element | apply writes_if | apply writes_bind; [|intros]].
Qed.
Lemma writes_binary_cell_0a f dom rng bi ip a1 a2 :
  writes S rb (mask_buffer op) (binary_cell_0a f dom rng bi ip op a1 a2 rb i).
Proof.
  unfold binary_cell_0a. repeat first [apply writes_nd | apply writes_mark; assumption
    | apply writes_binary_element | apply writes_if | apply writes_bind; [|intros]].
Qed.
End Element.

Lemma in_memZ l i : In i l -> memZ l i = true.
Proof. apply memZ_spec. Qed.

Lemma writes_local_1d op rb (r : range) : marks_result op rb ->
  let W p := writes (memZ (indices r)) rb (mask_buffer op) p in
  (forall f dom rng ip a, W (unary_1d f dom rng ip op a rb r)) /\
  (forall f dom rng ip a, W (disaggregate_1d f dom rng ip op a rb r)) /\
  (forall g ip, W (nullary_1d g ip op rb r)) /\
  (forall f dom rng bi ip1 ip2 a1 a2, W (binary_1d_1d f dom rng bi ip1 ip2 op a1 a2 rb r)) /\
  (forall f dom rng ip1 ip2 a1 a2, W (binary_1d_0d f dom rng ip1 ip2 op a1 a2 rb r)) /\
  (forall f dom rng bi ip1 ip2 a1 a2, W (binary_0d_1d f dom rng bi ip1 ip2 op a1 a2 rb r)).
Proof.
  intros Hm W. unfold W. repeat split; intros.
  - apply writes_loop1; intros i Hi. apply writes_unary_cell; auto using in_memZ.
  - apply writes_bind; [apply writes_nd|]. intros x. apply writes_if; apply writes_loop1;
      intros i Hi; [apply writes_mark|apply writes_unary_element]; auto using in_memZ.
  - apply writes_loop1; intros i Hi. apply writes_nullary_cell; auto using in_memZ.
  - apply writes_loop1; intros i Hi. apply writes_binary_cell; auto using in_memZ.
  - apply writes_bind; [apply writes_nd|]. intros x. apply writes_if; apply writes_loop1;
      intros i Hi; [apply writes_mark|apply writes_binary_cell_a0]; auto using in_memZ.
  - apply writes_bind; [apply writes_nd|]. intros x. apply writes_if; apply writes_loop1;
      intros i Hi; [apply writes_mark|apply writes_binary_cell_0a]; auto using in_memZ.
Qed.

Lemma writes_local_2d op rb nc (r : block2) : marks_result op rb ->
  let W p := writes (memZ (block_elements nc r)) rb (mask_buffer op) p in
  (forall f dom rng ip a, W (unary_2d f dom rng ip op a rb nc r)) /\
  (forall f dom rng ip a, W (disaggregate_2d f dom rng ip op a rb nc r)) /\
  (forall g ip, W (nullary_2d g ip op rb nc r)) /\
  (forall f dom rng ip1 ip2 a1 a2, W (binary_2d_2d f dom rng ip1 ip2 op a1 a2 rb nc r)) /\
  (forall f dom rng ip1 ip2 a1 a2, W (binary_2d_0d f dom rng ip1 ip2 op a1 a2 rb nc r)) /\
  (forall f dom rng ip1 ip2 a1 a2, W (binary_0d_2d f dom rng ip1 ip2 op a1 a2 rb nc r)).
Proof.
  intros Hm W. unfold W. repeat split; intros.
  - apply writes_loop2; intros i Hi. apply writes_unary_cell; auto using in_memZ.
  - apply writes_bind; [apply writes_nd|]. intros x. apply writes_if; apply writes_loop2;
      intros i Hi; [apply writes_mark|apply writes_unary_element]; auto using in_memZ.
  - apply writes_loop2; intros i Hi. apply writes_nullary_cell; auto using in_memZ.
  - apply writes_loop2; intros i Hi. apply writes_binary_cell; auto using in_memZ.
  - apply writes_bind; [apply writes_nd|]. intros x. apply writes_if; apply writes_loop2;
      intros i Hi; [apply writes_mark|apply writes_binary_cell_a0]; auto using in_memZ.
  - apply writes_bind; [apply writes_nd|]. intros x. apply writes_if; apply writes_loop2;
      intros i Hi; [apply writes_mark|apply writes_binary_cell_0a]; auto using in_memZ.
Qed.
End Writes.

(** ** N-ary operations *)
Section NAry.
Context {V : Type}.
Variables (f : V -> V -> V) (dom : V -> V -> bool) (rng : V -> V -> V -> bool).
Implicit Types op : outpol V.
Implicit Types ip : inpol V.

Lemma apart_nd ip op rb l m m' i : policy_apart ip op rb -> changes_only op rb l m m' ->
  nd_at ip m' i = nd_at ip m i /\ (readable ip m i -> readable ip m' i).
Proof.
  intros Hap [Hv Hm]. destruct ip as [| |b nd|b g]; simpl in *; auto.
  - rewrite Hm by auto; auto.
  - rewrite Hv by auto; auto.
Qed.

Definition n_outcome ip1 ip2 m a1 args i : outcome V :=
  if nd_at ip1 m i || nd_at ip2 m i then NoData
  else match fold_valid f (mval m a1 i) (map (fun a => mval m a i) args) with
       | Some v => Value v | None => NoData end.

Lemma holds_nodata_twice op rb m m1 m2 i :
  holds op rb m m1 i NoData -> holds op rb m1 m2 i NoData -> holds op rb m m2 i NoData.
Proof.
  intros [A1 A2] [B1 B2]; split.
  - rewrite B1, A1. destruct (mval m rb i); simpl; auto. destruct op; auto.
  - intros c Hc. rewrite B2, A2 by auto. destruct (mmsk m c i); simpl; auto. destruct op; auto.
Qed.

Lemma holds_value_twice op rb m m1 m2 i r r' :
  holds op rb m m1 i (Value r) -> holds op rb m1 m2 i (Value r') ->
  holds op rb m m2 i (Value r').
Proof.
  intros [A1 A2] [B1 B2]; split.
  - rewrite B1, A1. destruct (mval m rb i); simpl; auto.
  - intros c Hc. rewrite B2, A2 by auto. destruct (mmsk m c i); simpl; auto.
Qed.

Lemma changes_only_trans op rb l m m1 m2 :
  changes_only op rb l m m1 -> changes_only op rb l m1 m2 -> changes_only op rb l m m2.
Proof.
  intros [A1 A2] [B1 B2]; split; intros b i H.
  - rewrite B1, A1; auto.
  - rewrite B2, A2; auto.
Qed.

Lemma n_ary_correct ip1 ip2 op rb size : 0 <= size -> marks_result op rb ->
  policy_apart ip1 op rb -> policy_apart ip2 op rb ->
  forall rest a1 a2 m, a2 <> rb -> (forall a, In a rest -> a <> rb) ->
  (forall i, 0 <= i < size ->
     arg_exists ip1 a1 m i /\ arg_exists ip2 a2 m i /\ result_exists op rb m i /\
     (forall a, In a rest -> mval m a i <> None)) ->
  (forall i x, 0 <= i < size -> nd_at ip1 m i = false -> nd_at ip2 m i = false ->
     mval m a1 i = Some x -> steps_ok f dom rng x (map (fun a => mval m a i) (a2 :: rest))) ->
  computes (n_ary_1d f dom rng ip1 ip2 op rb size a1 a2 rest) op rb size
    (n_outcome ip1 ip2 m a1 (a2 :: rest)) m.
Proof.
  intros Hs Hmr Hp1 Hp2.
  induction rest as [|a3 rest IH]; intros a1 a2 m Ha2 Hrest Hex Hok;
    cbn [n_ary_1d].
  - pose proof (local_binary_1d_1d f dom rng None ip1 ip2 op a1 a2 rb size m Hmr) as L.
    destruct (local1_sequential _ _ _ _ _ _ Hs (L ltac:(intros; edestruct Hex as (?&?&?&?); eauto)))
      as (m1 & R & H & C).
    exists m1. rewrite run_seq, R. split; [reflexivity|]. split; auto.
    intros i Hi. specialize (H i Hi). unfold n_outcome, arg_at in *.
    destruct (Hex i Hi) as ((_ & E1) & (_ & E2) & _).
    destruct (nd_at ip1 m i) eqn:N1; auto. destruct (nd_at ip2 m i) eqn:N2; simpl in *.
    + destruct (mval m a1 i); auto.
    + destruct (mval m a1 i) as [x|] eqn:X; [|congruence].
      destruct (mval m a2 i) as [y|] eqn:Y; [|congruence].
      simpl in *. specialize (Hok i x Hi N1 N2 X). simpl in Hok. rewrite Y in Hok.
      destruct Hok as (D & R1 & R2 & _). rewrite D in H. unfold rng2_again, bound in H.
      replace (Nat.eqb rb a2) with false in H by (symmetry; apply Nat.eqb_neq; auto).
      destruct (Nat.eqb rb a1); rewrite ?R1, ?R2 in H; auto.
  - pose proof (local_binary_1d_1d f dom rng None ip1 ip2 op a1 a2 rb size m Hmr) as L.
    destruct (local1_sequential _ _ _ _ _ _ Hs (L ltac:(intros; edestruct Hex as (?&?&?&?); eauto)))
      as (m1 & R & H & C).
    assert (Hsame : forall a i, a <> rb -> mval m1 a i = mval m a i).
    { intros a i Ha. apply C; auto. }
    assert (Hstep : forall i, 0 <= i < size ->
       holds op rb m m1 i
         (if nd_at ip1 m i || nd_at ip2 m i then NoData
          else match mval m a1 i, mval m a2 i with
               | Some x, Some y => Value (f x y) | _, _ => NoData end)).
    { intros i Hi. specialize (H i Hi). unfold arg_at in *.
      destruct (Hex i Hi) as ((_ & E1) & (_ & E2) & _).
      destruct (nd_at ip1 m i) eqn:N1; auto. destruct (nd_at ip2 m i) eqn:N2; simpl in *.
      + destruct (mval m a1 i); auto.
      + destruct (mval m a1 i) as [x|] eqn:X; [|congruence].
        destruct (mval m a2 i) as [y|] eqn:Y; [|congruence].
        simpl in *. specialize (Hok i x Hi N1 N2 X). simpl in Hok. rewrite Y in Hok.
        destruct Hok as (D & R1 & R2 & _). rewrite D in H. unfold rng2_again, bound in H.
        replace (Nat.eqb rb a2) with false in H by (symmetry; apply Nat.eqb_neq; auto).
        destruct (Nat.eqb rb a1); rewrite ?R1, ?R2 in H; auto. }
    clear H.
    destruct (IH rb a3 m1) as (m2 & R2 & H2 & C2).
    + apply Hrest; simpl; auto.
    + intros a Ha; apply Hrest; simpl; auto.
    + intros i Hi. destruct (Hex i Hi) as ((Q1 & E1) & (Q2 & E2) & (Q3 & Q4) & E3).
      destruct (run_dom _ _ _ _ R) as [D1 D2].
      split; [|split; [|split]].
      * split; [eapply apart_nd; eauto|]. intros X. apply D1 in X; auto.
      * split; [eapply apart_nd; eauto|].
        rewrite Hsame by (apply Hrest; simpl; auto). apply E3; simpl; auto.
      * split; [intros X; apply D1 in X; auto|].
        destruct op; auto. intros X; apply D2 in X; auto.
      * intros a Ha. rewrite Hsame by (apply Hrest; simpl; auto). apply E3; simpl; auto.
    + intros i x Hi N1 N2 X.
      rewrite (proj1 (apart_nd ip1 op rb _ m m1 i Hp1 C)) in N1.
      rewrite (proj1 (apart_nd ip2 op rb _ m m1 i Hp2 C)) in N2.
      specialize (Hstep i Hi). rewrite N1, N2 in Hstep. simpl in Hstep.
      destruct (Hex i Hi) as ((_ & E1) & (_ & E2) & (Q3 & _) & _).
      destruct (mval m a1 i) as [x1|] eqn:X1; [|congruence].
      specialize (Hok i x1 Hi N1 N2 X1). simpl in Hok.
      destruct (mval m a2 i) as [y|] eqn:Y; [|congruence].
      destruct Hok as (_ & _ & _ & Hok). destruct Hstep as [Hv _].
      rewrite X in Hv. destruct (mval m rb i); [|congruence]. simpl in Hv.
      inversion Hv; subst x.
      replace (map (fun a => mval m1 a i) (a3 :: rest)) with
        (map (fun a => mval m a i) (a3 :: rest)); auto.
      apply map_ext_in. intros a Ha. symmetry; apply Hsame; auto.
    + exists m2. rewrite run_seq, R. split; auto. split; [|eapply changes_only_trans; eauto].
      intros i Hi. specialize (Hstep i Hi). specialize (H2 i Hi).
      unfold n_outcome in *.
      rewrite (proj1 (apart_nd ip1 op rb _ m m1 i Hp1 C)),
        (proj1 (apart_nd ip2 op rb _ m m1 i Hp2 C)) in H2.
      destruct (nd_at ip1 m i || nd_at ip2 m i) eqn:N.
      * eapply holds_nodata_twice; eauto.
      * apply orb_false_iff in N as [N1 N2].
        destruct (Hex i Hi) as ((_ & E1) & (_ & E2) & (Q3 & _) & E3).
        destruct (mval m a1 i) as [x|] eqn:X; [|congruence].
        destruct (mval m a2 i) as [y|] eqn:Y; [|congruence].
        cbn [map fold_valid]. rewrite Y.
        assert (Er : mval m1 rb i = Some (f x y)).
        { destruct Hstep as [-> _]. destruct (mval m rb i); [auto|congruence]. }
        rewrite Er in H2.
        replace (map (fun a => mval m1 a i) (a3 :: rest)) with
          (map (fun a => mval m a i) (a3 :: rest)) in H2
          by (apply map_ext_in; intros a Ha; symmetry; apply Hsame; auto).
        assert (Hsome : exists v, fold_valid f (Some (f x y))
                   (map (fun a => mval m a i) (a3 :: rest)) = Some v).
        { assert (E3' : forall a, In a (a3 :: rest) -> mval m a i <> None) by (intros; apply E3; auto).
          clear -E3'. generalize (f x y). induction (a3 :: rest) as [|a l IH]; intros v; simpl.
          - eauto.
          - destruct (mval m a i) eqn:E.
            + apply IH. intros b Hb; apply E3'; simpl; auto.
            + exfalso; eapply E3'; simpl; eauto. }
        destruct Hsome as [v Hsome]. cbn [map] in Hsome. cbn [map fold_valid] in H2.
        cbn [fold_valid] in Hsome.
        cbn [map fold_valid]. rewrite Hsome in *. eapply holds_value_twice; eauto.
Qed.
End NAry.
