(** * Proofs about the aggregations of algorithm/statistic *)
From Coq Require Import ZArith List Bool Lia.
From Verif Require Import LangModel LangProofs ConcModel ConcProofs IndexModel IndexSpec
  IndexProofs LoopModel LoopSpec LoopProofs PolicyModel LocalModel LocalSpec LocalProofs
  IntsModel ArithModel ArithSpec ArithProofs AccumModel AggModel AggSpec AggProofs AccumProofs.
Import ListNotations.
Open Scope Z_scope.

Lemma total_cons v vs : total (v :: vs) = v + total vs.
Proof. reflexivity. Qed.

(** ** Accumulators that are exact as long as they say so *)
Section Sound.
Context {V A : Type}.
Variable acc : accu V A.
Variable P : V -> Prop.
Variable exact : list V -> A -> Prop.
Hypothesis ex_init : exact [] (a_init acc).
Hypothesis ex_add : forall vs x v, P v -> exact vs x ->
  exists y b, a_add acc x v = Some (y, b) /\ (b = true -> exact (vs ++ [v]) y).
Hypothesis ex_first : forall v, P v -> exists y, a_add acc (a_init acc) v = Some (y, true).
Hypothesis ex_merge : forall xs ys x y, exact xs x -> exact ys y ->
  exists z b, a_merge acc x y = Some (z, b) /\ (b = true -> exact (xs ++ ys) z).

Lemma cfold_sound vs : forall us x, Forall P vs -> exact us x ->
  exists y b, cfold acc x true vs = Some (y, b) /\ (b = true -> exact (us ++ vs) y).
Proof.
  induction vs as [|v vs IH]; intros us x HP Hx.
  - exists x, true. rewrite app_nil_r. auto.
  - inversion HP; subst. destruct (ex_add us x v) as (y & b & E & Hy); auto. cbn [cfold]. rewrite E.
    destruct b; [|exists y, false; split; [auto|discriminate]].
    destruct (IH (us ++ [v]) y) as (z & b & F & Hz); auto.
    exists z, b. rewrite F. split; auto. rewrite <- app_assoc in Hz. auto.
Qed.

Definition sound_result (vs : list V) (o : partial) : Prop :=
  match vs with
  | [] => o = (false, true, a_init acc)
  | _ => exists b y, o = (true, b, y) /\ (b = true -> exact vs y)
  end.

Lemma ref_1d_sound vs : Forall P vs -> exists o, ref_1d acc vs = Some o /\ sound_result vs o.
Proof.
  intros HP. destruct vs as [|v vs]; [eexists; split; reflexivity|].
  destruct (cfold_sound (v :: vs) [] (a_init acc) HP ex_init) as (y & b & E & H).
  unfold ref_1d. rewrite E. eexists. split; [reflexivity|]. exists b, y. auto.
Qed.
Lemma ref_2d_sound vs : Forall P vs -> exists o, ref_2d acc vs = Some o /\ sound_result vs o.
Proof.
  intros HP. destruct vs as [|v vs]; [eexists; split; reflexivity|].
  inversion HP; subst. destruct (ex_first v) as [x Ex]; auto.
  destruct (ex_add [] (a_init acc) v) as (x' & b' & E' & Hx); auto.
  rewrite Ex in E'. inversion E'; subst x' b'.
  destruct (cfold_sound vs [v] x) as (y & b & E & H); auto.
  unfold ref_2d. rewrite Ex, E. eexists. split; [reflexivity|]. exists b, y. auto.
Qed.

Lemma combine_sound vss : forall outs us x ini, Forall2 sound_result vss outs -> exact us x ->
  (ini = true <-> us <> []) ->
  exists i b z, agg_combine acc (ini, ini, x) outs = Some (i, b, z) /\
    (i && b = true -> exact (us ++ concat vss) z /\ us ++ concat vss <> []).
Proof.
  induction vss as [|vs vss IH]; intros outs us x ini H Hx HI; inversion H as [|? o ? os Ho Hos]; subst.
  - exists ini, ini, x. split; [reflexivity|]. cbn [concat]. rewrite app_nil_r.
    destruct ini; [|discriminate]. intuition.
  - destruct vs as [|v vs].
    + cbn in Ho. subst o. cbn [agg_combine concat app]. apply IH; auto.
    + destruct Ho as (b & y & -> & Hy). cbn [agg_combine]. destruct b.
      * destruct (ex_merge us (v :: vs) x y) as (z & c & E & Hz); auto. rewrite E.
        destruct c; [|exists true, false, z; split; [auto|discriminate]].
        destruct (IH os (us ++ v :: vs) z true) as (i & b & z' & F & Hz'); auto.
        { split; auto. intros _ C. apply app_eq_nil in C as [_ C]; discriminate. }
        exists i, b, z'. split; auto. cbn [concat]. rewrite <- app_assoc in Hz'. auto.
      * exists ini, false, x. split; auto. rewrite andb_false_r. discriminate.
Qed.

Lemma join_sound vss outs op rb (m : mem V) :
  result_exists op rb m 0 -> marks_result op rb -> Forall2 sound_result vss outs ->
  (forall z, concat vss <> [] -> exact (concat vss) z -> exists r, a_result acc z = Some r) ->
  exists o, computes (agg_join acc op rb outs) op rb 1 (fun _ => o) m /\
    (o = NoData \/ exists z r, exact (concat vss) z /\ concat vss <> [] /\ a_result acc z = Some r /\ o = Value r).
Proof.
  intros Hres Hm HF Hr.
  destruct (combine_sound vss outs [] (a_init acc) false HF ex_init) as (i & b & z & E & Hz).
  { split; [discriminate|congruence]. }
  cbn [app] in Hz. unfold agg_join. destruct (i && b) eqn:IB.
  - destruct Hz as [Hz Hn]; auto. destruct (Hr z Hn Hz) as [r Er].
    exists (Value r). split; [|right; exists z, r; auto].
    eapply (computes_bind _ (i, b, z)); [rewrite run_lift, E; reflexivity|].
    apply andb_prop in IB as [-> ->]. apply finish_value; auto.
  - exists NoData. split; [|auto].
    eapply (computes_bind _ (i, b, z)); [rewrite run_lift, E; reflexivity|].
    apply finish_nodata; auto.
Qed.

Lemma outs_sound ref vss : (forall vs, Forall P vs -> exists o, ref vs = Some o /\ sound_result vs o) ->
  Forall P (concat vss) ->
  exists outs, Forall2 (fun vs o => ref vs = Some o) vss outs /\ Forall2 sound_result vss outs.
Proof.
  intros Href. induction vss as [|vs vss IH]; intros HP; [exists []; split; constructor|].
  cbn [concat] in HP. apply Forall_app in HP as [HP1 HP2].
  destruct (IH HP2) as (outs & H1 & H2). destruct (Href vs HP1) as (o & E & S).
  exists (o :: outs). split; constructor; auto.
Qed.

Variables (ip : inpol V) (op : outpol V) (a rb : buf) (m : mem V).
Hypothesis Hres : result_exists op rb m 0.
Hypothesis Hmark : marks_result op rb.

Lemma parallel_sound_1d nr_threads size :
  1 <= nr_threads -> 0 <= size < 2 ^ 64 -> (forall i, 0 <= i < size -> arg_exists ip a m i) ->
  let vs := valid_values ip a m (zrange 0 size) in
  Forall P vs ->
  (forall z, vs <> [] -> exact vs z -> exists r, a_result acc z = Some r) ->
  exists tasks o, agg_tasks_1d acc nr_threads size ip a = Some tasks /\
    joins_to acc tasks op rb o m /\
    (o = NoData \/ exists z r, exact vs z /\ vs <> [] /\ a_result acc z = Some r /\ o = Value r).
Proof.
  intros Hn Hs Hex vs HP Hr.
  destruct (index_ranges_1d_spec nr_threads size Hn Hs) as (rs & H1 & _ & H3 & H4).
  set (vss := map (fun r => valid_values ip a m (indices r)) rs).
  assert (Hc : concat vss = vs). { unfold vss, vs. rewrite concat_valid, H3. auto. }
  assert (Hf : forall p, In p (map (agg_1d acc ip a) rs) -> fits all_locs (fun _ => false) p).
  { intros p Hp. apply in_map_iff in Hp as (r & <- & _). apply fits_agg_1d. }
  assert (Hrun : forall r, In r rs ->
            run (agg_1d acc ip a r) m = keep m (ref_1d acc (valid_values ip a m (indices r)))).
  { intros r Hr'. apply run_agg_1d. intros k Hk. apply Hex. rewrite Forall_forall in H4.
    destruct (H4 r Hr') as [[B1 B2] B3]. apply in_zrange in Hk. lia. }
  rewrite <- Hc in HP, Hr |- *.
  destruct (outs_sound (ref_1d acc) vss ref_1d_sound HP) as (outs & G1 & G2).
  destruct (join_sound vss outs op rb m Hres Hmark G2 Hr) as (o & C & Ho).
  exists (map (agg_1d acc ip a) rs), o. split; [unfold agg_tasks_1d; rewrite H1; auto|].
  split; [|exact Ho]. eapply joins; [exact Hf| |exact C].
  eapply tasks_run; [exact Hrun|exact G1].
Qed.

Lemma parallel_sound_2d nr_threads rows cols :
  1 <= nr_threads -> 0 <= rows < 2 ^ 64 -> 0 <= cols ->
  (forall i, 0 <= i < rows * cols -> arg_exists ip a m i) ->
  let vs := valid_values ip a m (zrange 0 (rows * cols)) in
  Forall P vs ->
  (forall z, vs <> [] -> exact vs z -> exists r, a_result acc z = Some r) ->
  exists tasks o, agg_tasks_2d acc nr_threads rows cols ip a = Some tasks /\
    joins_to acc tasks op rb o m /\
    (o = NoData \/ exists z r, exact vs z /\ vs <> [] /\ a_result acc z = Some r /\ o = Value r).
Proof.
  intros Hn Hs Hcl Hex vs HP Hr.
  destruct (blocks2_elements nr_threads rows cols Hn Hs Hcl) as (bs & H1 & H3 & H4).
  set (vss := map (fun r => valid_values ip a m (block_elements cols r)) bs).
  assert (Hc : concat vss = vs). { unfold vss, vs. rewrite concat_valid, H3. auto. }
  assert (Hf : forall p, In p (map (agg_2d acc ip a cols) bs) -> fits all_locs (fun _ => false) p).
  { intros p Hp. apply in_map_iff in Hp as (r & <- & _). apply fits_agg_2d. }
  assert (Hrun : forall r, In r bs ->
     run (agg_2d acc ip a cols r) m =
     keep m (ref_2d acc (valid_values ip a m (block_elements cols r)))).
  { intros r Hr'. apply run_agg_2d. intros k Hk. apply Hex.
    assert (Hin : In k (zrange 0 (rows * cols))).
    { rewrite <- H3. apply in_concat. exists (block_elements cols r). split; auto.
      apply in_map; auto. }
    apply in_zrange in Hin. lia. }
  rewrite <- Hc in HP, Hr |- *.
  destruct (outs_sound (ref_2d acc) vss ref_2d_sound HP) as (outs & G1 & G2).
  destruct (join_sound vss outs op rb m Hres Hmark G2 Hr) as (o & C & Ho).
  exists (map (agg_2d acc ip a cols) bs), o. split; [unfold agg_tasks_2d; rewrite H1; auto|].
  split; [|exact Ho]. eapply joins; [exact Hf| |exact C].
  eapply tasks_run; [exact Hrun|exact G1].
Qed.
End Sound.

(** ** Sums with the range policy of add *)
Section CheckedSum.
Variables (w : bool) (T : ity).
Let acc := sum_checked w T T (add_within_range T T).
Let macc := mean_checked w T T (add_within_range T T).

Lemma add_pol s v r : fits_in T s -> fits_in T v -> plus_into w T T s v = Some r ->
  (add_within_range T T s v r = true <-> r = s + v) /\ (r = s + v <-> fits_in T (s + v)).
Proof.
  intros F1 F2 E. rewrite plus_into_same in E by auto.
  pose proof (add_same w T T s v r eq_refl F1 F2 E) as H. split; [exact H|].
  assert (Rr : result_int T T = T) by (destruct T; reflexivity).
  unfold add in E. rewrite Rr in E. apply (exact_iff w Z.add T s v r E); auto.
Qed.

Lemma pol_fits s v : fits_in T s -> fits_in T v -> fits_in T (s + v) ->
  plus_into w T T s v = Some (s + v) /\ add_within_range T T s v (s + v) = true.
Proof.
  intros F1 F2 F3. assert (E : plus_into w T T s v = Some (s + v)) by (apply plus_into_fits; auto).
  split; auto. apply (add_pol s v (s + v)); auto.
Qed.
Lemma pol_unfit s v r : fits_in T s -> fits_in T v -> ~ fits_in T (s + v) ->
  plus_into w T T s v = Some r -> add_within_range T T s v r = false.
Proof.
  intros F1 F2 F3 E. destruct (add_pol s v r F1 F2 E) as [H1 H2].
  destruct (add_within_range T T s v r); auto. exfalso. tauto.
Qed.

Lemma sum_add s v : fits_in T s -> fits_in T v ->
  (fits_in T (s + v) -> a_add acc s v = Some (s + v, true)) /\
  (forall y b, a_add acc s v = Some (y, b) -> (b = true <-> fits_in T (s + v)) /\ (b = true -> y = s + v)).
Proof.
  intros F1 F2. cbn. split.
  - intros F3. destruct (pol_fits s v F1 F2 F3) as [-> E]. cbn. now rewrite E.
  - intros y b E. unfold checked in E. destruct (plus_into w T T s v) as [r|] eqn:Er; cbn in E; [|discriminate].
    inversion E; subst. destruct (add_pol s v y F1 F2 Er). tauto.
Qed.

Lemma sum_accumulates vs : forall s, fits_in T s -> Forall (fits_in T) vs ->
  (prefix_sums (fits_in T) s vs -> accumulates acc s vs (s + total vs)).
Proof.
  induction vs as [|v vs IH]; intros s F HF H.
  - cbn. rewrite Z.add_0_r. constructor.
  - inversion HF as [|? ? Fv HF']; subst. destruct H as [Q1 Q2].
    econstructor; [apply (sum_add s v F); auto|].
    replace (s + total (v :: vs)) with (s + v + total vs) by (rewrite !total_cons; lia). apply IH; auto.
Qed.

Lemma prefix_dec vs : forall s, prefix_sums (fits_in T) s vs \/ ~ prefix_sums (fits_in T) s vs.
Proof.
  induction vs as [|v vs IH]; intros s; cbn; [auto|].
  destruct (IH (s + v)) as [H|H]; [|right; tauto].
  unfold fits_in at 1 3. destruct (Z_le_dec (imin T) (s + v)), (Z_le_dec (s + v) (imax T)); tauto.
Qed.

Lemma sum_leaves vs : safe_plus w T T -> forall s, fits_in T s -> Forall (fits_in T) vs ->
  ~ prefix_sums (fits_in T) s vs -> leaves_range acc s vs.
Proof.
  intros Sf. induction vs as [|v vs IH]; intros s F HF H.
  - exfalso. apply H. exact I.
  - inversion HF as [|? ? Fv HF']; subst.
    assert (D : fits_in T (s + v) \/ ~ fits_in T (s + v)).
    { unfold fits_in. lia. }
    destruct D as [D|D].
    + destruct (IH (s + v)) as (us & u & ws & y & z & -> & G1 & G2); auto.
      { intros C. apply H. split; auto. }
      exists (v :: us), u, ws, y, z. split; auto. split; auto.
      econstructor; eauto. apply (sum_add s v F); auto.
    + exists [], v, vs, s, (conv T (s + v)). split; auto. split; [constructor|].
      cbn. rewrite plus_into_safe by auto. cbn.
      rewrite (pol_unfit s v (conv T (s + v))); auto. now apply plus_into_safe.
Qed.

(** Means *)
Lemma mean_add s c v : fits_in T s -> fits_in T v ->
  (fits_in T (s + v) -> a_add macc (s, c) v = Some ((s + v, conv U64 (c + 1)), true)) /\
  (forall y b, a_add macc (s, c) v = Some (y, b) ->
     (b = true <-> fits_in T (s + v)) /\ (b = true -> y = (s + v, conv U64 (c + 1)))).
Proof.
  intros F1 F2. unfold macc, mean_checked. cbn [a_add fst snd]. rewrite plus_into_u64. cbn [obind].
  split.
  - intros F3. destruct (pol_fits s v F1 F2 F3) as [-> E]. unfold checked. cbn [option_map fst snd]. now rewrite E.
  - intros y b E. unfold checked in E.
    destruct (plus_into w T T s v) as [r|] eqn:Er; cbn [option_map fst snd] in E; [|discriminate].
    inversion E; subst. destruct (add_pol s v r F1 F2 Er) as [H1 H2]. split; [tauto|].
    intros H. apply H1 in H. subst. auto.
Qed.

Lemma mean_accumulates vs : forall s c, fits_in T s -> Forall (fits_in T) vs ->
  prefix_sums (fits_in T) s vs -> 
  accumulates macc (s, conv U64 c) vs (s + total vs, conv U64 (c + Z.of_nat (length vs))).
Proof.
  induction vs as [|v vs IH]; intros s c F HF H.
  - cbn [total fold_right length]. rewrite !Z.add_0_r. constructor.
  - inversion HF as [|? ? Fv HF']; subst. destruct H as [Q1 Q2].
    econstructor; [apply (mean_add s _ v F); auto|].
    replace (s + total (v :: vs)) with (s + v + total vs) by (rewrite !total_cons; lia).
    rewrite conv_add_l.
    replace (c + Z.of_nat (length (v :: vs))) with (c + 1 + Z.of_nat (length vs)) by (cbn [length]; lia).
    apply IH; auto.
Qed.

Lemma mean_leaves vs : safe_plus w T T -> forall s c, fits_in T s -> Forall (fits_in T) vs ->
  ~ prefix_sums (fits_in T) s vs -> leaves_range macc (s, c) vs.
Proof.
  intros Sf. induction vs as [|v vs IH]; intros s c F HF H.
  - exfalso. apply H. exact I.
  - inversion HF as [|? ? Fv HF']; subst.
    assert (D : fits_in T (s + v) \/ ~ fits_in T (s + v)) by (unfold fits_in; lia).
    destruct D as [D|D].
    + destruct (IH (s + v) (conv U64 (c + 1))) as (us & u & ws & y & z & -> & G1 & G2); auto.
      { intros C. apply H. split; auto. }
      exists (v :: us), u, ws, y, z. split; auto. split; auto.
      econstructor; eauto. apply (mean_add s c v F); auto.
    + exists [], v, vs, (s, c), (conv T (s + v), conv U64 (c + 1)).
      split; auto. split; [constructor|].
      unfold macc, mean_checked. cbn [a_add fst snd]. rewrite plus_into_u64. cbn [obind].
      rewrite plus_into_safe by auto. unfold checked. cbn [option_map fst snd].
      rewrite (pol_unfit s v (conv T (s + v))); auto. now apply plus_into_safe.
Qed.

(** Runs of consecutive values *)
Definition runs_fit (vs : list Z) : Prop :=
  forall us xs ws, vs = us ++ xs ++ ws -> fits_in T (total xs).

Lemma runs_prefix vs xs us ws : runs_fit vs -> vs = us ++ xs ++ ws -> prefix_sums (fits_in T) 0 xs.
Proof.
  intros H E.
  assert (HG : forall ys ps, vs = us ++ (ps ++ ys) ++ ws -> prefix_sums (fits_in T) (total ps) ys).
  { clear xs E. induction ys as [|y ys IH]; intros ps E; [exact I|].
    cbn [prefix_sums]. assert (E2 : vs = us ++ ((ps ++ [y]) ++ ys) ++ ws).
    { rewrite E. rewrite <- !app_assoc. reflexivity. }
    specialize (IH _ E2). rewrite total_snoc in IH. split; auto.
    rewrite <- total_snoc. apply (H us (ps ++ [y]) (ys ++ ws)). rewrite E2, <- !app_assoc. reflexivity. }
  apply (HG xs []). exact E.
Qed.

Lemma sum_mergeable vs : Forall (fits_in T) vs -> runs_fit vs -> mergeable acc vs.
Proof.
  intros HF H. split.
  - intros us xs ws E. exists (0 + total xs). apply sum_accumulates.
    + apply fits_0. + subst. rewrite !Forall_app in HF. tauto. + eapply runs_prefix; eauto.
  - intros xs ys ws x y E Hx Hy.
    assert (HF' := HF). rewrite E, !Forall_app in HF'. destruct HF' as (Fx & Fy & _).
    assert (x = 0 + total xs).
    { eapply accumulates_det; eauto. apply sum_accumulates; auto using fits_0.
      apply (runs_prefix vs xs [] (ys ++ ws)); auto. }
    assert (y = 0 + total ys).
    { eapply accumulates_det; eauto. apply sum_accumulates; auto using fits_0.
      apply (runs_prefix vs ys xs ws); auto. }
    assert (fits_in T (total xs)) by (apply (H [] xs (ys ++ ws)); auto).
    assert (fits_in T (total ys)) by (apply (H xs ys ws); auto).
    assert (fits_in T (total (xs ++ ys))) by (apply (H [] (xs ++ ys) ws); rewrite <- app_assoc; auto).
    rewrite total_app in *. subst x y. rewrite !Z.add_0_l.
    exists (total xs + total ys). split.
    + change (a_add acc (total xs) (conv T (total ys)) = Some (total xs + total ys, true)).
      rewrite conv_id by auto. now apply sum_add.
    + rewrite <- total_app. rewrite <- (Z.add_0_l (total (xs ++ ys))).
      apply sum_accumulates; auto using fits_0. { apply Forall_app; auto. }
      apply (runs_prefix vs (xs ++ ys) [] ws); auto. rewrite <- app_assoc; auto.
Qed.

Lemma mean_mergeable vs : Forall (fits_in T) vs -> runs_fit vs -> mergeable macc vs.
Proof.
  intros HF H. assert (Z0 : (0, 0) = (0, conv U64 0)) by reflexivity.
  assert (HA : forall us xs ws, vs = us ++ xs ++ ws ->
    accumulates macc (a_init macc) xs (total xs, conv U64 (Z.of_nat (length xs)))).
  { intros us xs ws E. cbn [macc mean_checked a_init]. rewrite Z0.
    rewrite <- (Z.add_0_l (total xs)), <- (Z.add_0_l (Z.of_nat (length xs))).
    apply mean_accumulates. { apply fits_0. } { subst. rewrite !Forall_app in HF. tauto. }
    eapply runs_prefix; eauto. }
  split.
  - intros us xs ws E. eauto.
  - intros xs ys ws x y E Hx Hy.
    assert (x = (total xs, conv U64 (Z.of_nat (length xs)))).
    { eapply accumulates_det; [exact Hx|]. apply (HA [] xs (ys ++ ws)); auto. }
    assert (y = (total ys, conv U64 (Z.of_nat (length ys)))).
    { eapply accumulates_det; [exact Hy|]. apply (HA xs ys ws); auto. }
    assert (fits_in T (total xs)) by (apply (H [] xs (ys ++ ws)); auto).
    assert (fits_in T (total ys)) by (apply (H xs ys ws); auto).
    assert (fits_in T (total (xs ++ ys))) by (apply (H [] (xs ++ ys) ws); rewrite <- app_assoc; auto).
    subst x y. exists (total (xs ++ ys), conv U64 (Z.of_nat (length (xs ++ ys)))). split.
    + unfold macc, mean_checked. cbn [a_merge fst snd]. rewrite plus_into_u64. cbn [obind].
      rewrite (conv_id T) by auto. rewrite total_app in *.
      destruct (pol_fits (total xs) (total ys)) as [E1 E2]; auto. rewrite E1. unfold checked.
      cbn [option_map fst snd]. rewrite E2. rewrite app_length, Nat2Z.inj_add, conv_add_l, conv_add_r.
      reflexivity.
    + apply (HA [] (xs ++ ys) ws). rewrite <- app_assoc; auto.
Qed.

(** Soundness *)
Definition sum_exact (vs : list Z) (x : Z) : Prop := x = total vs /\ fits_in T x.
Definition mean_exact (vs : list Z) (x : Z * Z) : Prop :=
  sum_exact vs (fst x) /\ snd x = conv U64 (Z.of_nat (length vs)).

Hypothesis Sf : safe_plus w T T.

Lemma sum_ex_init : sum_exact [] (a_init acc).
Proof. split; [reflexivity|apply fits_0]. Qed.
Lemma sum_ex_add : forall vs x v, fits_in T v -> sum_exact vs x ->
  exists y b, a_add acc x v = Some (y, b) /\ (b = true -> sum_exact (vs ++ [v]) y).
Proof.
  intros vs x v F [-> Fx]. destruct (a_add acc (total vs) v) as [[y b]|] eqn:E.
  - exists y, b. split; auto. intros ->.
    destruct (sum_add (total vs) v Fx F) as [_ G]. destruct (G y true E) as [G1 G2].
    unfold sum_exact. rewrite total_snoc, G2 by auto. tauto.
  - exfalso. cbn in E. rewrite plus_into_safe in E by auto. discriminate.
Qed.
Lemma sum_ex_first : forall v, fits_in T v -> exists y, a_add acc (a_init acc) v = Some (y, true).
Proof. intros v F. exists (0 + v). apply sum_add; auto using fits_0. Qed.
Lemma sum_ex_merge : forall xs ys x y, sum_exact xs x -> sum_exact ys y ->
  exists z b, a_merge acc x y = Some (z, b) /\ (b = true -> sum_exact (xs ++ ys) z).
Proof.
  intros xs ys x y [-> Fx] [-> Fy].
  change (a_merge acc (total xs) (total ys)) with (a_add acc (total xs) (conv T (total ys))).
  rewrite conv_id by auto. destruct (a_add acc (total xs) (total ys)) as [[z b]|] eqn:E.
  - exists z, b. split; auto. intros ->. destruct (sum_add (total xs) (total ys) Fx Fy) as [_ G].
    destruct (G z true E) as [G1 G2]. unfold sum_exact. rewrite total_app, G2 by auto. tauto.
  - exfalso. cbn in E. rewrite plus_into_safe in E by auto. discriminate.
Qed.

Lemma mean_ex_init : mean_exact [] (a_init macc).
Proof. split; [split; [reflexivity|apply fits_0]|reflexivity]. Qed.
Lemma mean_total s c v : a_add macc (s, c) v <> None \/ ~ fits_in T s \/ ~ fits_in T v.
Proof.
  unfold macc, mean_checked. cbn [a_add fst snd]. rewrite plus_into_u64. cbn [obind].
  assert (D : fits_in T s \/ ~ fits_in T s) by (unfold fits_in; lia).
  assert (D' : fits_in T v \/ ~ fits_in T v) by (unfold fits_in; lia).
  destruct D, D'; auto. left. rewrite plus_into_safe by auto. discriminate.
Qed.
Lemma mean_ex_add : forall vs x v, fits_in T v -> mean_exact vs x ->
  exists y b, a_add macc x v = Some (y, b) /\ (b = true -> mean_exact (vs ++ [v]) y).
Proof.
  intros vs [s c] v F [[H1 Fx] H2]. cbn [fst snd] in *. subst s c.
  destruct (a_add macc (total vs, conv U64 (Z.of_nat (length vs))) v) as [[y b]|] eqn:E.
  - exists y, b. split; auto. intros ->.
    destruct (mean_add (total vs) (conv U64 (Z.of_nat (length vs))) v Fx F) as [_ G]. destruct (G y true E) as [G1 G2].
    rewrite G2 by auto. unfold mean_exact, sum_exact. cbn [fst snd]. rewrite total_snoc, conv_add_l.
    rewrite app_length, Nat2Z.inj_add. tauto.
  - exfalso. pose proof (mean_total (total vs) (conv U64 (Z.of_nat (length vs))) v). tauto.
Qed.
Lemma mean_ex_first : forall v, fits_in T v -> exists y, a_add macc (a_init macc) v = Some (y, true).
Proof. intros v F. eexists. apply mean_add; auto using fits_0. Qed.
Lemma mean_ex_merge : forall xs ys x y, mean_exact xs x -> mean_exact ys y ->
  exists z b, a_merge macc x y = Some (z, b) /\ (b = true -> mean_exact (xs ++ ys) z).
Proof.
  intros xs ys [s c] [t d] [[H1 Fx] H2] [[H3 Fy] H4]. cbn [fst snd] in *. subst s c t d.
  unfold macc, mean_checked. cbn [a_merge fst snd]. rewrite plus_into_u64. cbn [obind].
  rewrite (conv_id T) by auto. rewrite plus_into_safe by auto. unfold checked. cbn [option_map fst snd].
  eexists. eexists. split; [reflexivity|]. intros E.
  assert (Ep := plus_into_safe w T T (total xs) (total ys) Sf Fx Fy).
  destruct (add_pol (total xs) (total ys) _ Fx Fy Ep) as [G1 G2].
  apply G1 in E. unfold mean_exact, sum_exact. cbn [fst snd]. rewrite E.
  rewrite total_app, app_length, Nat2Z.inj_add, conv_add_l, conv_add_r. tauto.
Qed.

Lemma mean_exact_result vs z : vs <> [] -> mean_exact vs z -> fits_in T (Z.of_nat (length vs)) ->
  Z.of_nat (length vs) < 2 ^ 64 ->
  a_result macc z = Some (Z.quot (total vs) (Z.of_nat (length vs))).
Proof.
  intros Hn [[H1 F] H2] F2 B. apply (mean_result_exact T vs); auto.
  - split; unfold sum_rel, count_rel; [|auto]. rewrite <- H1. symmetry. now apply conv_id.
  - rewrite <- H1. auto.
Qed.
End CheckedSum.

(** ** Sums without check *)
Section DiscardSum.
Variables (w : bool) (T : ity).
Hypothesis Sf : safe_plus w T T.
Let acc := sum_checked w T T discard_range_errors.
Let macc := mean_checked w T T discard_range_errors.

Lemma discard_add s v : fits_in T s -> fits_in T v -> a_add acc s v = Some (conv T (s + v), true).
Proof. intros. cbn. rewrite plus_into_safe by auto. reflexivity. Qed.

Lemma discard_sum_all : (forall vs x, Forall (fits_in T) vs -> accumulates acc (a_init acc) vs x -> x = conv T (total vs)) /\
  (forall vs, Forall (fits_in T) vs -> exists x, accumulates acc (a_init acc) vs x) /\
  forall vs, Forall (fits_in T) vs -> mergeable acc vs.
Proof.
  assert (H0 : sum_rel T [] (a_init acc)) by apply sum_init.
  assert (H1 : forall v x, fits_in T v -> a_from acc v = Some x -> sum_rel T [v] x).
  { cbn. intros v y _ [= <-]. apply sum_one. }
  assert (H2 : forall vs x v y b, fits_in T v -> sum_rel T vs x -> a_add acc x v = Some (y, b) ->
     sum_rel T (vs ++ [v]) y).
  { intros vs x v y b F -> E. rewrite discard_add in E by auto using conv_fits. inversion E; subst.
    unfold sum_rel. now rewrite conv_add_l, total_snoc. }
  assert (H3 : forall xs ys x y z b, sum_rel T xs x -> sum_rel T ys y ->
     a_merge acc x y = Some (z, b) -> b = true /\ sum_rel T (xs ++ ys) z).
  { intros xs ys x y z b -> -> E.
    change (a_add acc (conv T (total xs)) (conv T (conv T (total ys))) = Some (z, b)) in E.
    rewrite discard_add in E by auto using conv_fits. inversion E; subst. split; auto.
    unfold sum_rel. rewrite (conv_id T (conv T (total ys))) by apply conv_fits.
    now rewrite conv_add_l, conv_add_r, total_app. }
  assert (H4 : forall vs x v, fits_in T v -> sum_rel T vs x -> exists y, a_add acc x v = Some (y, true)).
  { intros vs x v F ->. rewrite discard_add by auto using conv_fits. eauto. }
  assert (H5 : forall xs ys x y, sum_rel T xs x -> sum_rel T ys y ->
     exists z, a_merge acc x y = Some (z, true)).
  { intros xs ys x y -> ->.
    change (exists z, a_add acc (conv T (total xs)) (conv T (conv T (total ys))) = Some (z, true)).
    rewrite discard_add by auto using conv_fits. eauto. }
  split; [|split].
  - intros vs x. apply (feeds_init_rel acc (fits_in T) (sum_rel T)); auto.
  - intros vs. apply (accumulates_defined acc (fits_in T) (sum_rel T)); auto.
  - intros vs. eapply all_merges; eauto. unfold sum_rel; congruence.
Qed.

Lemma discard_mean_add s c v : fits_in T s -> fits_in T v ->
  a_add macc (s, c) v = Some ((conv T (s + v), conv U64 (c + 1)), true).
Proof.
  intros. unfold macc, mean_checked. cbn [a_add fst snd]. rewrite plus_into_u64. cbn [obind].
  rewrite plus_into_safe by auto. reflexivity.
Qed.

Lemma discard_mean_all : (forall vs x, Forall (fits_in T) vs -> accumulates macc (a_init macc) vs x -> mean_rel T vs x) /\
  (forall vs, Forall (fits_in T) vs -> exists x, accumulates macc (a_init macc) vs x) /\
  forall vs, Forall (fits_in T) vs -> mergeable macc vs.
Proof.
  assert (H0 : mean_rel T [] (a_init macc)) by apply mean_init.
  assert (H1 : forall v x, fits_in T v -> a_from macc v = Some x -> mean_rel T [v] x).
  { cbn. intros v y _ [= <-]. apply mean_one. }
  assert (H2 : forall vs x v y b, fits_in T v -> mean_rel T vs x -> a_add macc x v = Some (y, b) ->
     mean_rel T (vs ++ [v]) y).
  { intros vs [s c] v y b F [H1' H2'] E. cbn [fst snd] in *.
    rewrite discard_mean_add in E by (auto; rewrite H1'; apply conv_fits). inversion E; subst y b.
    unfold sum_rel, count_rel in *. subst s c. split; unfold sum_rel, count_rel; cbn [fst snd].
    - now rewrite conv_add_l, total_snoc.
    - now rewrite conv_add_l, app_length, Nat2Z.inj_add. }
  assert (HM : forall s c t d, fits_in T s -> fits_in T t ->
     a_merge macc (s, c) (t, d) = Some ((conv T (s + t), conv U64 (c + d)), true)).
  { intros. unfold macc, mean_checked. cbn [a_merge fst snd]. rewrite plus_into_u64. cbn [obind].
    rewrite (conv_id T t) by auto. rewrite plus_into_safe by auto. reflexivity. }
  assert (H3 : forall xs ys x y z b, mean_rel T xs x -> mean_rel T ys y ->
     a_merge macc x y = Some (z, b) -> b = true /\ mean_rel T (xs ++ ys) z).
  { intros xs ys [s c] [t d] z b [H1' H2'] [H3' H4'] E. cbn [fst snd] in *.
    unfold sum_rel, count_rel in *. subst s c t d.
    rewrite HM in E by apply conv_fits. inversion E; subst z b. split; auto.
    split; unfold sum_rel, count_rel; cbn [fst snd].
    - now rewrite conv_add_l, conv_add_r, total_app.
    - now rewrite conv_add_l, conv_add_r, app_length, Nat2Z.inj_add. }
  assert (H4 : forall vs x v, fits_in T v -> mean_rel T vs x -> exists y, a_add macc x v = Some (y, true)).
  { intros vs [s c] v F [H1' H2']. cbn [fst] in H1'. rewrite discard_mean_add; eauto.
    rewrite H1'. apply conv_fits. }
  assert (H5 : forall xs ys x y, mean_rel T xs x -> mean_rel T ys y ->
     exists z, a_merge macc x y = Some (z, true)).
  { intros xs ys [s c] [t d] [H1' H2'] [H3' H4']. cbn [fst] in *. rewrite HM; eauto.
    - rewrite H1'. apply conv_fits. - rewrite H3'. apply conv_fits. }
  split; [|split].
  - intros vs x. apply (feeds_init_rel macc (fits_in T) (mean_rel T)); auto.
  - intros vs. apply (accumulates_defined macc (fits_in T) (mean_rel T)); auto.
  - intros vs. eapply all_merges; eauto. apply mean_rel_fun.
Qed.
End DiscardSum.

Lemma unsigned_runs T vs : signed T = false -> Forall (fits_in T) vs -> fits_in T (total vs) ->
  runs_fit T vs.
Proof.
  intros S HF F us xs ws ->. rewrite !Forall_app in HF. destruct HF as (F1 & F2 & F3).
  assert (N : forall l, Forall (fits_in T) l -> 0 <= total l).
  { induction 1 as [|x l Hx _ IH]; cbn [total fold_right]; [lia|].
    change (0 <= x + total l). pose proof (nonneg_unsigned T x S Hx). lia. }
  pose proof (N _ F1). pose proof (N _ F2). pose proof (N _ F3).
  rewrite !total_app in F. unfold fits_in in *. rewrite (imin_unsigned T S) in *. lia.
Qed.
Lemma prefix_total P vs : forall s, vs <> [] -> prefix_sums P s vs -> P (s + total vs).
Proof.
  induction vs as [|v vs IH]; intros s Hn H; [congruence|]. destruct H as [H1 H2].
  destruct vs as [|u vs].
  - cbn. replace (s + (v + 0)) with (s + v) by lia. auto.
  - replace (s + total (v :: u :: vs)) with (s + v + total (u :: vs)) by (rewrite !total_cons; lia).
    apply IH; [discriminate|auto].
Qed.
