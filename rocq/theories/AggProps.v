(** * Properties C20-C21: unary aggregate operations *)
From Coq Require Import ZArith List Bool Lia.
From Verif Require Import LangModel LangProofs ConcModel ConcProofs IndexModel IndexSpec
  IndexProofs LoopModel LoopSpec LoopProofs PolicyModel LocalModel LocalSpec LocalProofs
  ExampleMem IntsModel ArithModel ArithSpec ArithProofs AccumModel AggModel AggSpec AggProofs.
Import ListNotations.
Open Scope Z_scope.

(** ** C20: sequential execution *)
Section C20.
Context {V A : Type}.
Variables (acc : accu V A) (ip : inpol V) (op : outpol V) (a rb : buf) (m : mem V).
Hypothesis Hres : result_exists op rb m 0.
Hypothesis Hmark : marks_result op rb.

(** A 1D array: no valid element gives no-data; if accumulating the valid elements in order
    stays within range the result is that of the accumulation; if it leaves the range the
    result is no-data. *)
Theorem C20_aggregate_1d size :
  0 <= size -> (forall i, 0 <= i < size -> arg_exists ip a m i) ->
  let vs := valid_values ip a m (zrange 0 size) in
  let p := aggregate_1d acc ip op a rb size in
  (vs = [] -> computes p op rb 1 (fun _ => NoData) m) /\
  (forall x r, vs <> [] -> accumulates acc (a_init acc) vs x -> a_result acc x = Some r ->
     computes p op rb 1 (fun _ => Value r) m) /\
  (leaves_range acc (a_init acc) vs -> computes p op rb 1 (fun _ => NoData) m).
Proof.
  intros Hs Hex vs p.
  assert (Hrun : run (agg_1d acc ip a (whole1 size)) m = keep m (ref_1d acc vs)).
  { apply run_agg_1d. intros k Hk. apply Hex. unfold indices in Hk. cbn in Hk.
    apply in_zrange in Hk. lia. }
  unfold p, aggregate_1d. split; [|split].
  - intros E. rewrite E in Hrun. eapply computes_bind; [exact Hrun|]. apply finish_nodata; auto.
  - intros x r Hn Hx Hr. rewrite (ref_1d_block acc vs x Hx) in Hrun.
    eapply computes_bind; [exact Hrun|]. unfold block_result. destruct vs; [congruence|].
    apply finish_value; auto.
  - intros Hl. destruct (cfold_leaves acc _ _ Hl) as [y E].
    unfold ref_1d in Hrun. destruct vs as [|v vs'] eqn:Ev.
    { destruct Hl as (us & v & ws & ? & ? & C & _). destruct us; discriminate. }
    rewrite E in Hrun. eapply computes_bind; [exact Hrun|]. apply finish_nodata; auto.
Qed.

(** A single value. *)
Theorem C20_aggregate_0d :
  arg_exists ip a m 0 ->
  let p := aggregate_0d acc ip op a rb in
  (arg_at ip a m 0 = None -> computes p op rb 1 (fun _ => NoData) m) /\
  (forall v x r, arg_at ip a m 0 = Some v -> a_add acc (a_init acc) v = Some (x, true) ->
     a_result acc x = Some r -> computes p op rb 1 (fun _ => Value r) m) /\
  (forall v x, arg_at ip a m 0 = Some v -> a_add acc (a_init acc) v = Some (x, false) ->
     computes p op rb 1 (fun _ => NoData) m).
Proof.
  intros Hex p. assert (Hrun := run_agg_0d acc ip a m Hex).
  unfold valid_values in Hrun. cbn [flat_map] in Hrun. unfold p, aggregate_0d.
  split; [|split].
  - intros E. rewrite E in Hrun. eapply computes_bind; [exact Hrun|]. apply finish_nodata; auto.
  - intros v x r E F Hr. rewrite E in Hrun. cbn [app ref_1d cfold] in Hrun. rewrite F in Hrun.
    eapply computes_bind; [exact Hrun|]. apply finish_value; auto.
  - intros v x E F. rewrite E in Hrun. cbn [app ref_1d cfold] in Hrun. rewrite F in Hrun.
    eapply computes_bind; [exact Hrun|]. apply finish_nodata; auto.
Qed.

(** A raster: the elements are visited in row-major order.  Whether the result is within range
    after the first value counts only if there is no other value. *)
Theorem C20_aggregate_2d rows cols :
  0 <= rows -> 0 <= cols -> (forall i, 0 <= i < rows * cols -> arg_exists ip a m i) ->
  let vs := valid_values ip a m (zrange 0 (rows * cols)) in
  let p := aggregate_2d acc ip op a rb rows cols in
  (vs = [] -> computes p op rb 1 (fun _ => NoData) m) /\
  (forall v x r, vs = [v] -> a_add acc (a_init acc) v = Some (x, true) ->
     a_result acc x = Some r -> computes p op rb 1 (fun _ => Value r) m) /\
  (forall v x, vs = [v] -> a_add acc (a_init acc) v = Some (x, false) ->
     computes p op rb 1 (fun _ => NoData) m) /\
  (forall v vs' y ok x r, vs = v :: vs' -> vs' <> [] -> a_add acc (a_init acc) v = Some (y, ok) ->
     accumulates acc y vs' x -> a_result acc x = Some r ->
     computes p op rb 1 (fun _ => Value r) m) /\
  (forall v vs' y ok, vs = v :: vs' -> a_add acc (a_init acc) v = Some (y, ok) ->
     leaves_range acc y vs' -> computes p op rb 1 (fun _ => NoData) m).
Proof.
  intros Hr Hc Hex vs p.
  assert (Hrun : run (agg_2d acc ip a cols (whole2 rows cols)) m = keep m (ref_2d acc vs)).
  { unfold vs. rewrite <- (block_elements_whole rows cols Hc). apply run_agg_2d.
    intros k Hk. rewrite block_elements_whole in Hk by auto. apply Hex.
    apply in_zrange in Hk. lia. }
  unfold p, aggregate_2d. split; [|split; [|split; [|split]]].
  - intros E. rewrite E in Hrun. eapply computes_bind; [exact Hrun|]. apply finish_nodata; auto.
  - intros v x r E F Hx. rewrite E in Hrun. cbn [ref_2d] in Hrun. rewrite F in Hrun.
    eapply computes_bind; [exact Hrun|]. apply finish_value; auto.
  - intros v x E F. rewrite E in Hrun. cbn [ref_2d] in Hrun. rewrite F in Hrun.
    eapply computes_bind; [exact Hrun|]. apply finish_nodata; auto.
  - intros v vs' y ok x r E Hn F Hx Hxr. rewrite E in Hrun. cbn [ref_2d] in Hrun. rewrite F in Hrun.
    rewrite cfold_ok_nil, (cfold_accumulates acc _ _ _ Hx) in Hrun by auto.
    eapply computes_bind; [exact Hrun|]. apply finish_value; auto.
  - intros v vs' y ok E F Hl. rewrite E in Hrun. cbn [ref_2d] in Hrun. rewrite F in Hrun.
    destruct (cfold_leaves acc _ _ Hl) as [z Ez].
    rewrite cfold_ok_nil, Ez in Hrun.
    + eapply computes_bind; [exact Hrun|]. apply finish_nodata; auto.
    + destruct Hl as (us & w & ws & ? & ? & -> & _). destruct us; discriminate.
Qed.

(** So a raster is aggregated like the 1D array of its elements, except when the result is out
    of range after the first value and there are others. *)
Corollary C20_raster_as_array rows cols :
  0 <= rows -> 0 <= cols -> (forall i, 0 <= i < rows * cols -> arg_exists ip a m i) ->
  let vs := valid_values ip a m (zrange 0 (rows * cols)) in
  let p := aggregate_2d acc ip op a rb rows cols in
  (vs = [] -> computes p op rb 1 (fun _ => NoData) m) /\
  (forall x r, vs <> [] -> accumulates acc (a_init acc) vs x -> a_result acc x = Some r ->
     computes p op rb 1 (fun _ => Value r) m) /\
  (leaves_range acc (a_init acc) vs ->
   (forall v w vs' y, vs = v :: w :: vs' -> a_add acc (a_init acc) v <> Some (y, false)) ->
   computes p op rb 1 (fun _ => NoData) m).
Proof.
  intros Hr Hc Hex vs p.
  destruct (C20_aggregate_2d rows cols Hr Hc Hex) as (H1 & H2 & H3 & H4 & H5).
  split; [exact H1|]. split.
  - intros x r Hn Hx Hxr. fold vs in H2, H4. destruct vs as [|v [|w vs']] eqn:E; [congruence| |].
    + inversion Hx as [|? ? y ? ? F G]; subst. inversion G; subst. eapply H2; eauto.
    + inversion Hx as [|? ? y ? ? F G]; subst. eapply H4; eauto. discriminate.
  - intros (us & v & ws & y & z & E & G & F) Hfirst. fold vs in H3, H5.
    destruct us as [|u us].
    + inversion G; subst y. destruct ws as [|w ws].
      * eapply H3; eauto.
      * exfalso. eapply Hfirst; eauto.
    + inversion G as [|? ? y' ? ? F' G']; subst. eapply H5; [exact E|exact F'|].
      exists us, v, ws, y, z. auto.
Qed.
End C20.

(** The exception is observable: summing the uint8 values 3 and 4 into an int16 with the range
    policy of add gives no-data for the array [3, 4], and 7 for the raster with that row
    (the policy wrongly rejects 0 + 3, see C13_mixed_exactness_refuted). *)
Theorem C20_first_value_2d_refuted :
  exists (acc : accu Z Z) (m : mem Z),
    acc = sum_checked false U8 S16 (add_within_range S16 U8) /\
    mask_of (run (aggregate_1d acc SkipNoData (MarkByMask 1 true) 0 1 2) m) 1 1 = [Some true] /\
    mask_of (run (aggregate_2d acc SkipNoData (MarkByMask 1 true) 0 1 1 2) m) 1 1 = [Some false] /\
    values_of (run (aggregate_2d acc SkipNoData (MarkByMask 1 true) 0 1 1 2) m) 1 1 = [Some 7].
Proof.
  exists (sum_checked false U8 S16 (add_within_range S16 U8)), (mem_of [[3; 4]; [0]] [[]; [false]]).
  repeat split.
Qed.

(** Non-vacuity: summing 5, 7, (no-data), 9 and a sum that leaves uint8. *)
Example C20_case :
  let p := fun size => aggregate_1d (sum_checked false U8 U8 (add_within_range U8 U8))
             (DetectByMask 0 true) (MarkByMask 1 true) 0 1 size in
  let m := mem_of [[5; 7; 100; 9; 240]; [0]] [[false; false; true; false; false]; [false]] in
  values_of (run (p 4) m) 1 1 = [Some 21] /\ mask_of (run (p 4) m) 1 1 = [Some false] /\
  values_of (run (p 5) m) 1 1 = [Some 0] /\ mask_of (run (p 5) m) 1 1 = [Some true] /\
  accumulates (sum_checked false U8 U8 (add_within_range U8 U8)) 0 [5; 7; 9] 21 /\
  leaves_range (sum_checked false U8 U8 (add_within_range U8 U8)) 0 [5; 7; 9; 240].
Proof.
  repeat split.
  - repeat econstructor.
  - exists [5; 7; 9], 240, [], 21, 5. repeat split. repeat econstructor.
Qed.
Print Assumptions C20_aggregate_1d.
Print Assumptions C20_aggregate_0d.
Print Assumptions C20_aggregate_2d.
Print Assumptions C20_raster_as_array.
Print Assumptions C20_first_value_2d_refuted.

(** ** C21: parallel execution *)
Section C21.
Context {V A : Type}.
Variables (acc : accu V A) (ip : inpol V) (op : outpol V) (a rb : buf) (m : mem V).
Hypothesis Hres : result_exists op rb m 0.
Hypothesis Hmark : marks_result op rb.

(** If no run of consecutive valid values leaves the range and merging is concatenating, then
    for every number of threads and every schedule the tasks do not race, and joining their
    results gives what sequential execution gives (C20). *)
Theorem C21_parallel_1d nr_threads size :
  1 <= nr_threads -> 0 <= size < 2 ^ 64 -> (forall i, 0 <= i < size -> arg_exists ip a m i) ->
  let vs := valid_values ip a m (zrange 0 size) in
  mergeable acc vs ->
  exists tasks, agg_tasks_1d acc nr_threads size ip a = Some tasks /\
    (vs = [] -> joins_to acc tasks op rb NoData m) /\
    (forall x r, vs <> [] -> accumulates acc (a_init acc) vs x -> a_result acc x = Some r ->
       joins_to acc tasks op rb (Value r) m).
Proof.
  intros Hn Hs Hex vs HM.
  destruct (index_ranges_1d_spec nr_threads size Hn Hs) as (rs & H1 & _ & H3 & H4).
  exists (map (agg_1d acc ip a) rs). split; [unfold agg_tasks_1d; rewrite H1; auto|].
  set (vss := map (fun r => valid_values ip a m (indices r)) rs).
  assert (Hc : concat vss = vs). { unfold vss, vs. rewrite concat_valid, H3. auto. }
  assert (Hf : forall p, In p (map (agg_1d acc ip a) rs) -> fits all_locs (fun _ => false) p).
  { intros p Hp. apply in_map_iff in Hp as (r & <- & _). apply fits_agg_1d. }
  assert (Hrun : forall r, In r rs ->
            run (agg_1d acc ip a r) m = keep m (ref_1d acc (valid_values ip a m (indices r)))).
  { intros r Hr. apply run_agg_1d. intros k Hk. apply Hex. rewrite Forall_forall in H4.
    destruct (H4 r Hr) as [[B1 B2] B3]. apply in_zrange in Hk. lia. }
  rewrite <- Hc in HM |- *. split.
  - intros Hnil.
    destruct (join_mergeable acc vss op rb m Hres Hmark HM) as (xs & Hxs & J & _).
    eapply joins; [exact Hf| |exact (J Hnil)].
    eapply tasks_run; [exact Hrun|]. apply map_blocks_ref; auto. apply ref_1d_block.
  - intros x r Hnn Hx Hr.
    destruct (join_mergeable acc vss op rb m Hres Hmark HM) as (xs & Hxs & _ & J).
    eapply joins; [exact Hf| |exact (J x r Hnn Hx Hr)].
    eapply tasks_run; [exact Hrun|]. apply map_blocks_ref; auto. apply ref_1d_block.
Qed.

Theorem C21_parallel_2d nr_threads rows cols :
  1 <= nr_threads -> 0 <= rows < 2 ^ 64 -> 0 <= cols ->
  (forall i, 0 <= i < rows * cols -> arg_exists ip a m i) ->
  let vs := valid_values ip a m (zrange 0 (rows * cols)) in
  mergeable acc vs ->
  exists tasks, agg_tasks_2d acc nr_threads rows cols ip a = Some tasks /\
    (vs = [] -> joins_to acc tasks op rb NoData m) /\
    (forall x r, vs <> [] -> accumulates acc (a_init acc) vs x -> a_result acc x = Some r ->
       joins_to acc tasks op rb (Value r) m).
Proof.
  intros Hn Hs Hcl Hex vs HM.
  destruct (blocks2_elements nr_threads rows cols Hn Hs Hcl) as (bs & H1 & H3 & H4).
  exists (map (agg_2d acc ip a cols) bs). split; [unfold agg_tasks_2d; rewrite H1; auto|].
  set (vss := map (fun r => valid_values ip a m (block_elements cols r)) bs).
  assert (Hc : concat vss = vs). { unfold vss, vs. rewrite concat_valid, H3. auto. }
  assert (Hf : forall p, In p (map (agg_2d acc ip a cols) bs) -> fits all_locs (fun _ => false) p).
  { intros p Hp. apply in_map_iff in Hp as (r & <- & _). apply fits_agg_2d. }
  assert (Hrun : forall r, In r bs ->
     run (agg_2d acc ip a cols r) m =
     keep m (ref_2d acc (valid_values ip a m (block_elements cols r)))).
  { intros r Hr. apply run_agg_2d. intros k Hk. apply Hex.
    assert (In k (zrange 0 (rows * cols))).
    { rewrite <- H3. apply in_concat. exists (block_elements cols r). split; auto.
      apply in_map; auto. }
    apply in_zrange in H. lia. }
  rewrite <- Hc in HM |- *. split.
  - intros Hnil.
    destruct (join_mergeable acc vss op rb m Hres Hmark HM) as (xs & Hxs & J & _).
    eapply joins; [exact Hf| |exact (J Hnil)].
    eapply tasks_run; [exact Hrun|]. apply map_blocks_ref; auto. apply ref_2d_block.
  - intros x r Hnn Hx Hr.
    destruct (join_mergeable acc vss op rb m Hres Hmark HM) as (xs & Hxs & _ & J).
    eapply joins; [exact Hf| |exact (J x r Hnn Hx Hr)].
    eapply tasks_run; [exact Hrun|]. apply map_blocks_ref; auto. apply ref_2d_block.
Qed.
End C21.
Print Assumptions C21_parallel_1d.
Print Assumptions C21_parallel_2d.
