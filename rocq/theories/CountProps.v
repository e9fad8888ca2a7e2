(** * Property C26: statistic::count *)
From Coq Require Import ZArith List Bool Lia.
From Verif Require Import LangModel LangProofs ConcModel IndexModel IndexSpec IndexProofs
  LoopModel LoopSpec LoopProofs PolicyModel LocalSpec IntsModel ArithSpec ArithProofs AccumProofs
  AggModel AggSpec AggProofs StatProofs CountModel CountSpec FrozenProofs CountProofs ExampleMem.
Import ListNotations.
Open Scope Z_scope.

Section C26.
(** Overflow behaviour, result type; policies, argument, value looked for; output. *)
Variables (wv : bool) (R : ity) (ip1 ip2 : inpol Z) (a : buf) (w : Z).
Variables (op : outpol Z) (rb : buf) (m : mem Z).
Hypothesis Hres : result_exists op rb m 0.
Hypothesis Hmark : marks_result op rb.

Lemma fits_between x y : 0 <= x <= y -> fits_in R y -> fits_in R x.
Proof. intros H F. pose proof (fits_0 R) as G. unfold fits_in in *. lia. Qed.

Lemma argument_ok l : countable_argument ip1 ip2 op a rb m l ->
  forall i, In i l -> elem_ok ip1 ip2 a (reads_of op rb) m i.
Proof.
  intros (N & P1 & P2 & H) i Hi. destruct (H i Hi) as (H1 & H2 & H3).
  split; [cbn; now apply negb_true_iff, Nat.eqb_neq|]. split; auto.
  split; apply pol_reads_of; auto.
Qed.

(** *** Sequential *)

(** 1D: if the number fits in the result type, the result is the number of valid elements that
    equal the value; it is no-data if no element is valid. *)
Theorem C26_count_1d size :
  0 <= size -> countable_argument ip1 ip2 op a rb m (zrange 0 size) ->
  let k := occurrences ip1 ip2 a w m (zrange 0 size) in
  fits_in R k ->
  computes (count_1d wv R ip1 ip2 a w rb 0 op (whole1 size)) op rb 1
    (fun _ => match valid_elements ip1 ip2 m (zrange 0 size) with [] => NoData | _ => Value k end) m.
Proof.
  intros Hs Ha k Hk. unfold k. rewrite <- (conv_id R (occurrences _ _ _ _ _ _)) by exact Hk.
  apply block_computes; auto. apply does_1d.
  - exact (argument_ok _ Ha).
  - left. exact Hk.
Qed.

(** If it does not fit, it wraps around where the type does so. *)
Theorem C26_wraps_1d size :
  0 <= size -> countable_argument ip1 ip2 op a rb m (zrange 0 size) ->
  wv = true \/ ~ wide_signed R ->
  computes (count_1d wv R ip1 ip2 a w rb 0 op (whole1 size)) op rb 1
    (fun _ => match valid_elements ip1 ip2 m (zrange 0 size) with
              | [] => NoData
              | _ => Value (conv R (occurrences ip1 ip2 a w m (zrange 0 size)))
              end) m.
Proof.
  intros Hs Ha Hw. apply block_computes; auto. apply does_1d.
  - exact (argument_ok _ Ha).
  - right. exact Hw.
Qed.

Theorem C26_count_0d :
  countable_argument ip1 ip2 op a rb m [0] ->
  computes (count_0d ip1 ip2 a w rb 0 op) op rb 1
    (fun _ => match valid_elements ip1 ip2 m [0] with
              | [] => NoData
              | _ => Value (occurrences ip1 ip2 a w m [0])
              end) m.
Proof.
  intros Ha.
  rewrite <- (conv_id R (occurrences ip1 ip2 a w m [0])).
  - apply block_computes; auto. apply (does_0d R). apply (argument_ok _ Ha). cbn; auto.
  - assert (B : occurrences ip1 ip2 a w m [0] = 0 \/ occurrences ip1 ip2 a w m [0] = 1).
    { unfold occurrences, valid_elements. cbn [filter].
      destruct (negb (nd_at ip1 m 0 || nd_at ip2 m 0)); cbn [filter length]; auto.
      destruct (match mval m a 0 with Some v => v =? w | None => false end); cbn; auto. }
    destruct B as [-> | ->]; auto using fits_0, fits_1.
Qed.

Lemma first_row_row cols blk :
  first_row cols blk = row cols (rbegin (snd blk)) (rend (snd blk)) (rbegin (fst blk)).
Proof.
  unfold first_row, row, indices. rewrite <- zseq_zrange. unfold zseq. rewrite map_map.
  apply map_ext. intros k. unfold linear; cbn [fst snd]. lia.
Qed.

(** 2D: the same, provided that the first row has a valid element.  If it has none the result is
    no-data, whatever the other rows hold. *)
Theorem C26_count_2d rows cols :
  0 < rows -> 0 <= cols -> countable_argument ip1 ip2 op a rb m (zrange 0 (rows * cols)) ->
  let k := occurrences ip1 ip2 a w m (zrange 0 (rows * cols)) in
  fits_in R k ->
  computes (count_2d wv R ip1 ip2 a w rb 0 op cols (whole2 rows cols)) op rb 1
    (fun _ => match valid_elements ip1 ip2 m (zrange 0 cols) with [] => NoData | _ => Value k end) m.
Proof.
  intros Hr Hc Ha k Hk.
  assert (Er : zrange 0 cols = first_row cols (whole2 rows cols)).
  { unfold first_row, whole2, whole1, indices; cbn [fst snd rbegin rend].
    rewrite <- (map_id (zrange 0 cols)) at 1. apply map_ext. intros j. unfold linear; cbn. lia. }
  subst k. rewrite <- (block_elements_whole rows cols) in * by lia.
  rewrite Er, first_row_row, <- (conv_id R (occurrences _ _ _ _ _ _)) by exact Hk.
  apply block_computes; auto. apply does_2d; auto.
  - exact (argument_ok _ Ha).
  - left. exact Hk.
Qed.

(** *** Parallel *)
Section Par.
Variable pb : buf.
Hypothesis Hpb : pb <> rb.
Hypothesis Hmb : mask_buffer op <> Some pb.

Lemma argument_ok_par l : countable_argument ip1 ip2 op a rb m l ->
  countable_argument ip1 ip2 op a pb m l ->
  forall i, In i l -> elem_ok ip1 ip2 a (reads_par op rb pb) m i.
Proof.
  intros (N & P1 & P2 & H) (N' & Q1 & Q2 & _) i Hi. destruct (H i Hi) as (H1 & H2 & H3).
  assert (G : forall ip, policy_apart ip op rb -> policy_apart ip op pb -> readable ip m i ->
              pol_reads (reads_par op rb pb) m ip i).
  { intros ip A1 A2 A3. pose proof (pol_reads_of op rb ip m i A1 A3) as A4.
    destruct ip as [| |b nd|b f]; cbn in *; auto; destruct A4 as [A4 A5]; split; auto; unfold reads_par.
    - rewrite andb_true_r. exact A4.
    - cbn. rewrite A4. cbn. now apply negb_true_iff, Nat.eqb_neq. }
  split; [unfold reads_par; cbn|].
  - apply andb_true_iff; split; now apply negb_true_iff, Nat.eqb_neq.
  - split; auto.
Qed.

(** 1D: for every schedule and every number of threads.  If each block has a valid element, the
    result is that of the sequential algorithm.  If one block has none (or no marks are
    kept) the result is marked although it has been computed. *)
Theorem C26_parallel_1d masking nr_threads size :
  1 <= nr_threads -> 0 < size < 2 ^ 64 ->
  countable_argument ip1 ip2 op a rb m (zrange 0 size) ->
  countable_argument ip1 ip2 op a pb m (zrange 0 size) ->
  let k := occurrences ip1 ip2 a w m (zrange 0 size) in
  fits_in R k ->
  exists blocks tasks, index_ranges_1d nr_threads size = Some blocks /\
    count_tasks_1d wv R nr_threads size ip1 ip2 op a w pb = Some tasks /\
    let empty r := valid_elements ip1 ip2 m (indices r) = [] in
    let nblocks := Z.of_nat (length blocks) in
    fresh_results pb nblocks m ->
    ((forall r, In r blocks -> ~ empty r) ->
     tasks_then tasks (count_join wv R masking op pb rb nblocks) op rb pb (Value k) m) /\
    ((exists r, In r blocks /\ empty r) -> op = DontMarkNoData \/ at_most_one empty blocks ->
     tasks_then tasks (count_join wv R masking op pb rb nblocks) op rb pb (marked_anyway op k) m).
Proof.
  intros Hn Hs Ha Ha' k Hk.
  destruct (index_ranges_1d_spec nr_threads size Hn) as (rs & H1 & H2 & H3 & H4); [unfold size_t_max_plus_1; lia|].
  assert (HT : exists ts, count_tasks_1d wv R nr_threads size ip1 ip2 op a w pb = Some ts /\
    ts = map (fun ir => count_1d wv R ip1 ip2 a w pb (fst ir) op (snd ir)) (number 0 rs)).
  { eexists. split; [|reflexivity]. unfold count_tasks_1d. rewrite H1. reflexivity. }
  destruct HT as (tasks & HT & Etasks). exists rs, tasks. split; [exact H1|].
  split; [exact HT|]. intros empty nblocks Hf.
  set (fls := map (fun r => (indices r, indices r)) rs).
  assert (Hlf : length fls = length rs) by apply map_length.
  assert (Htot : total (map (fun fl => zero_or (contribution ip1 ip2 a w m fl)) fls) = k).
  { unfold k. rewrite <- H3. unfold fls. clear. induction rs as [|r rs IH]; [reflexivity|].
    cbn [map concat]. rewrite total_cons, occ_app, IH. f_equal. unfold contribution. cbn [fst snd].
    destruct (valid_elements ip1 ip2 m (indices r)) eqn:E; [|reflexivity].
    cbn. symmetry. apply occ_none; auto. }
  assert (Hne : fls <> []).
  { intros E. assert (rs = []) by (destruct rs; [auto|discriminate]). subst rs. cbn in H3.
    rewrite zrange_cons in H3 by lia. discriminate. }
  assert (Hall : op = DontMarkNoData \/ at_most_one empty rs ->
    tasks_then tasks (count_join wv R masking op pb rb nblocks) op rb pb
      (if existsb (fun fl => match valid_elements ip1 ip2 m (fst fl) with [] => true | _ => false end) fls
       then marked_anyway op k else Value k) m).
  { intros Hone. pose proof (conv_id R k Hk) as Ec. rewrite <- Ec, <- Htot. unfold nblocks. rewrite <- Hlf.
    apply par_count; auto.
    - rewrite Etasks, map_length, number_length. auto.
    - intros i p fl Ei Ej. rewrite Etasks, nth_error_map, number_nth in Ei.
      unfold fls in Ej. rewrite nth_error_map in Ej.
      destruct (nth_error rs i) as [r|] eqn:Er; [|discriminate]. cbn in Ei, Ej.
      inversion Ei; inversion Ej; subst. cbn [fst snd].
      assert (Hin : forall j, In j (indices r) -> In j (zrange 0 size)).
      { intros j Hj. rewrite <- H3. apply in_concat. exists (indices r). split; auto.
        apply in_map, nth_error_In with i; auto. }
      apply does_1d.
      + intros j Hj. apply (argument_ok_par (zrange 0 size)); auto.
      + left. apply (fits_between _ k); auto.
        assert (Hsum : occurrences ip1 ip2 a w m (indices r) <= k).
        { unfold k. rewrite <- H3. apply nth_error_In in Er. clear -Er.
          induction rs as [|r' rs IH]; [destruct Er|]. cbn [map concat]. rewrite occ_app.
          pose proof (occ_nonneg ip1 ip2 a w m (indices r')).
          pose proof (occ_nonneg ip1 ip2 a w m (concat (map indices rs))).
          destruct Er as [->|Er]; [lia|]. specialize (IH Er). lia. }
        pose proof (occ_nonneg ip1 ip2 a w m (indices r)). lia.
    - destruct Hone as [->|Hone]; [auto|]. right. intros i j x y Ei Ej Px Py.
      unfold fls in Ei, Ej. rewrite nth_error_map in Ei, Ej.
      destruct (nth_error rs i) as [r|] eqn:Eri; [|discriminate]. destruct (nth_error rs j) as [r'|] eqn:Erj; [|discriminate].
      cbn in Ei, Ej. inversion Ei; inversion Ej; subst. eapply Hone; eauto.
    - rewrite Hlf. exact Hf.
    - left. rewrite Htot. exact Hk. }
  split.
  - intros Hv.
    replace (existsb _ fls) with false in Hall; [apply Hall|].
    + right. intros i j x y Ei Ej Px Py. exfalso. apply (Hv x); auto. eapply nth_error_In; eauto.
    + symmetry. apply not_true_is_false. rewrite existsb_exists. intros (fl & Hin & E).
      apply in_map_iff in Hin as (r & <- & Hr). cbn [fst] in E. apply (Hv r Hr). unfold empty.
      destruct (valid_elements ip1 ip2 m (indices r)); [auto|discriminate].
  - intros (r & Hr & Er) Hone.
    replace (existsb _ fls) with true in Hall; [apply Hall; auto|].
    symmetry. rewrite existsb_exists. exists (indices r, indices r). split.
    + apply in_map_iff. exists r. auto.
    + cbn [fst]. unfold empty in Er. rewrite Er. reflexivity.
Qed.

(** 2D: the same with the first row of each block deciding. *)
Theorem C26_parallel_2d masking nr_threads rows cols :
  1 <= nr_threads -> 0 < rows < 2 ^ 64 -> 0 <= cols ->
  countable_argument ip1 ip2 op a rb m (zrange 0 (rows * cols)) ->
  countable_argument ip1 ip2 op a pb m (zrange 0 (rows * cols)) ->
  let k := occurrences ip1 ip2 a w m (zrange 0 (rows * cols)) in
  fits_in R k ->
  exists blocks tasks, index_ranges_2d nr_threads rows cols = Some blocks /\
    count_tasks_2d wv R nr_threads rows cols ip1 ip2 op a w pb = Some tasks /\
    let empty b := valid_elements ip1 ip2 m (first_row cols b) = [] in
    let nblocks := Z.of_nat (length blocks) in
    let counted := sum_over (block_count ip1 ip2 a w m cols) blocks in
    fresh_results pb nblocks m ->
    ((forall b, In b blocks -> ~ empty b) ->
     tasks_then tasks (count_join wv R masking op pb rb nblocks) op rb pb (Value k) m) /\
    ((exists b, In b blocks /\ empty b) -> op = DontMarkNoData \/ at_most_one empty blocks ->
     tasks_then tasks (count_join wv R masking op pb rb nblocks) op rb pb
       (marked_anyway op counted) m).
Proof.
  intros Hn Hs Hc Ha Ha' k Hk.
  destruct (blocks2_elements nr_threads rows cols Hn) as (rs & H1 & H3 & H4); [lia|auto|].
  assert (HT : exists ts, count_tasks_2d wv R nr_threads rows cols ip1 ip2 op a w pb = Some ts /\
    ts = map (fun ir => count_2d wv R ip1 ip2 a w pb (fst ir) op cols (snd ir)) (number 0 rs)).
  { eexists. split; [|reflexivity]. unfold count_tasks_2d. rewrite H1. reflexivity. }
  destruct HT as (tasks & HT & Etasks). exists rs, tasks. split; [exact H1|].
  split; [exact HT|]. intros empty nblocks counted Hf.
  set (fls := map (fun b => (first_row cols b, block_elements cols b)) rs).
  assert (Hlf : length fls = length rs) by apply map_length.
  assert (Htot : total (map (fun fl => zero_or (contribution ip1 ip2 a w m fl)) fls) = counted).
  { unfold counted, fls. clear. induction rs as [|r rs IH]; [reflexivity|].
    cbn [map sum_over fold_right]. rewrite total_cons, IH. unfold sum_over. f_equal.
    unfold contribution, block_count. cbn [fst snd].
    destruct (valid_elements ip1 ip2 m (first_row cols r)); reflexivity. }
  assert (Hle : 0 <= counted <= k /\
    forall r, In r rs -> occurrences ip1 ip2 a w m (block_elements cols r) <= k).
  { unfold k, counted. rewrite <- H3. clear.
    induction rs as [|r rs [IH1 IH2]]; [split; [cbn; lia|intros r []]|]. cbn [map concat sum_over fold_right] in *. rewrite occ_app.
    pose proof (occ_nonneg ip1 ip2 a w m (block_elements cols r)).
    pose proof (occ_nonneg ip1 ip2 a w m (concat (map (block_elements cols) rs))).
    unfold sum_over in *. split.
    - assert (B : 0 <= block_count ip1 ip2 a w m cols r <= occurrences ip1 ip2 a w m (block_elements cols r)).
      { unfold block_count. destruct (valid_elements ip1 ip2 m (first_row cols r)); lia. }
      lia.
    - intros r' [->|Hr']; [lia|]. specialize (IH2 r' Hr'). lia. }
  destruct Hle as [Hle1 Hle2].
  assert (Hkc : fits_in R counted) by (apply (fits_between _ k); auto).
  assert (Hne : fls <> []).
  { intros E. assert (rs = []) by (destruct rs; [auto|discriminate]). subst rs.
    destruct (index_ranges_2d_spec nr_threads rows cols Hn) as (bs & G1 & G3 & _); [unfold size_t_max_plus_1; lia|auto|].
    rewrite H1 in G1. inversion G1; subst bs. cbn [length] in G3. unfold nr_blocks in G3.
    pose proof (Z.div_pos rows nr_threads). destruct (Z.ltb_spec 0 (rows / nr_threads)).
    - assert (0 < rows / (rows / nr_threads)).
      { apply Z.div_str_pos. split; [lia|]. apply Z.div_le_upper_bound; [lia|]. nia. }
      destruct (0 <? rows mod (rows / nr_threads)); lia.
    - destruct (Z.ltb_spec 0 rows); lia. }
  assert (Hall : op = DontMarkNoData \/ at_most_one empty rs ->
    tasks_then tasks (count_join wv R masking op pb rb nblocks) op rb pb
      (if existsb (fun fl => match valid_elements ip1 ip2 m (fst fl) with [] => true | _ => false end) fls
       then marked_anyway op counted else Value counted) m).
  { intros Hone. pose proof (conv_id R counted Hkc) as Ec. rewrite <- Ec, <- Htot. unfold nblocks. rewrite <- Hlf.
    apply par_count; auto.
    - rewrite Etasks, map_length, number_length. auto.
    - intros i p fl Ei Ej. rewrite Etasks, nth_error_map, number_nth in Ei.
      unfold fls in Ej. rewrite nth_error_map in Ej.
      destruct (nth_error rs i) as [r|] eqn:Er; [|discriminate]. cbn in Ei, Ej.
      inversion Ei; inversion Ej; subst. cbn [fst snd].
      apply nth_error_In in Er.
      assert (Hin : forall j, In j (block_elements cols r) -> In j (zrange 0 (rows * cols))).
      { intros j Hj. rewrite <- H3. apply in_concat. exists (block_elements cols r). split; auto.
        apply in_map; auto. }
      rewrite Forall_forall in H4. destruct (H4 r Er) as ([W1 W2] & _ & _).
      rewrite first_row_row. apply does_2d; [lia| |].
      + intros j Hj. apply (argument_ok_par (zrange 0 (rows * cols))); auto.
      + left. apply (fits_between _ k); auto.
        pose proof (occ_nonneg ip1 ip2 a w m (block_elements cols r)). specialize (Hle2 r Er). lia.
    - destruct Hone as [->|Hone]; [auto|]. right. intros i j x y Ei Ej Px Py.
      unfold fls in Ei, Ej. rewrite nth_error_map in Ei, Ej.
      destruct (nth_error rs i) as [r|] eqn:Eri; [|discriminate]. destruct (nth_error rs j) as [r'|] eqn:Erj; [|discriminate].
      cbn in Ei, Ej. inversion Ei; inversion Ej; subst. eapply Hone; eauto.
    - rewrite Hlf. exact Hf.
    - left. rewrite Htot. exact Hkc. }
  split.
  - intros Hv.
    assert (Ek : counted = k).
    { unfold counted, k. rewrite <- H3. clear -Hv. induction rs as [|r rs IH]; [reflexivity|].
      cbn [map concat sum_over fold_right]. rewrite occ_app. unfold sum_over in IH.
      rewrite IH by (intros; apply Hv; right; auto). f_equal. unfold block_count.
      destruct (valid_elements ip1 ip2 m (first_row cols r)) eqn:E; [|reflexivity].
      exfalso. apply (Hv r); [left; auto|exact E]. }
    rewrite <- Ek.
    replace (existsb _ fls) with false in Hall; [apply Hall|].
    + right. intros i j x y Ei Ej Px Py. exfalso. apply (Hv x); auto. eapply nth_error_In; eauto.
    + symmetry. apply not_true_is_false. rewrite existsb_exists. intros (fl & Hin & E).
      apply in_map_iff in Hin as (r & <- & Hr). cbn [fst] in E. apply (Hv r Hr). unfold empty.
      destruct (valid_elements ip1 ip2 m (first_row cols r)); [auto|discriminate].
  - intros (r & Hr & Er) Hone.
    replace (existsb _ fls) with true in Hall; [apply Hall; auto|].
    symmetry. rewrite existsb_exists. exists (first_row cols r, block_elements cols r). split.
    + apply in_map_iff. exists r. auto.
    + cbn [fst]. unfold empty in Er. rewrite Er. reflexivity.
Qed.
End Par.
End C26.
Print Assumptions C26_count_1d.
Print Assumptions C26_wraps_1d.
Print Assumptions C26_count_0d.
Print Assumptions C26_count_2d.
Print Assumptions C26_parallel_1d.
Print Assumptions C26_parallel_2d.

(** *** What a user would not expect *)

(** A raster whose first row is no-data: the 5 in the second row is not counted, the result is
    marked no-data.  The array with the same elements gives 1. *)
Theorem C26_first_row_refuted :
  exists m : mem Z,
    let ip := DetectByMask 0 true in
    let op := MarkByMask 1 true in
    let raster := run (count_2d false S32 ip SkipNoData 0 5 1 0 op 2 (whole2 2 2)) m in
    let array := run (count_1d false S32 ip SkipNoData 0 5 1 0 op (whole1 4)) m in
    mask_of raster 1 1 = [Some true] /\
    values_of array 1 1 = [Some 1] /\ mask_of array 1 1 = [Some false].
Proof.
  exists (mem_of [[0; 0; 5; 7]; [9]] [[true; true; false; false]; [false]]).
  repeat split; vm_compute; reflexivity.
Qed.
Print Assumptions C26_first_row_refuted.

(** Two threads, the second half of the array no-data: the 5 is counted, but the result is
    marked no-data. *)
Theorem C26_parallel_refuted :
  exists (m : mem Z) tasks sched m',
    let ip := DetectByMask 0 true in
    let op := MarkByMask 1 true in
    values_of (run (count_1d false S32 ip SkipNoData 0 5 1 0 op (whole1 4)) m) 1 1 = [Some 1] /\
    mask_of (run (count_1d false S32 ip SkipNoData 0 5 1 0 op (whole1 4)) m) 1 1 = [Some false] /\
    count_tasks_1d false S32 2 4 ip SkipNoData op 0 5 2 = Some tasks /\
    exec sched tasks m = Some ([Ret tt; Ret tt], m') /\
    values_of (run (count_join false S32 true op 2 1 2) m') 1 1 = [Some 1] /\
    mask_of (run (count_join false S32 true op 2 1 2) m') 1 1 = [Some true].
Proof.
  exists (mem_of [[5; 7; 0; 0]; [9]; [0; 0]] [[false; false; true; true]; [false]; [false; false]]).
  eexists. exists (concat (repeat [0; 1]%nat 10)). eexists. repeat split; vm_compute; reflexivity.
Qed.
Print Assumptions C26_parallel_refuted.

(** Nothing is valid, and missing data are marked by value: the sequential algorithm marks the
    result, the parallel one overwrites the mark by 0. *)
Theorem C26_parallel_by_value_refuted :
  exists (m : mem Z) tasks sched m',
    let op := MarkByValue 1 (-1) in
    values_of (run (count_1d false S32 AllNoData SkipNoData 0 5 1 0 op (whole1 4)) m) 1 1 = [Some (-1)] /\
    count_tasks_1d false S32 5 4 AllNoData SkipNoData op 0 5 2 = Some tasks /\
    exec sched tasks m = Some ([Ret tt], m') /\
    values_of (run (count_join false S32 false op 2 1 1) m') 1 1 = [Some 0].
Proof.
  exists (mem_of [[5; 7; 0; 0]; [9]; [0; 0]] [[]; []; []]).
  eexists. exists (repeat 0%nat 10). eexists. repeat split; vm_compute; reflexivity.
Qed.
Print Assumptions C26_parallel_by_value_refuted.

(** Two blocks without data: their tasks race on the mark. *)
Theorem C26_parallel_race_refuted :
  exists (m : mem Z) tasks,
    count_tasks_1d false S32 2 4 AllNoData SkipNoData (MarkByMask 1 true) 0 5 2 = Some tasks /\
    ~ no_race tasks m.
Proof.
  exists (mem_of [[5; 7; 0; 0]; [9]; [0; 0]] [[]; [false]; []]).
  eexists. split; [vm_compute; reflexivity|]. intros H.
  specialize (H [] _ _ eq_refl 0%nat 1%nat _ _ _ true true ltac:(discriminate) eq_refl eq_refl
    eq_refl eq_refl). destruct H. discriminate.
Qed.
Print Assumptions C26_parallel_race_refuted.

(** The hypotheses of the theorems hold of ordinary cases. *)
Example C26_case :
  let m := mem_of [[5; 7; 5; 0]; [9]; [0; 0]] [[false; false; false; true]; [false]; [false; false]] in
  let ip := DetectByMask 0 true in
  let op := MarkByMask 1 true in
  result_exists op 1 m 0 /\ marks_result op 1 /\
  countable_argument ip SkipNoData op 0 1 m (zrange 0 4) /\
  countable_argument ip SkipNoData op 0 2 m (zrange 0 4) /\
  fresh_results 2 2 m /\ occurrences ip SkipNoData 0 5 m (zrange 0 4) = 2 /\ fits_in S8 2 /\
  values_of (run (count_1d false S8 ip SkipNoData 0 5 1 0 op (whole1 4)) m) 1 1 = [Some 2].
Proof.
  assert (H4 : forall P : Z -> Prop, P 0 -> P 1 -> P 2 -> P 3 -> forall i, In i (zrange 0 4) -> P i).
  { intros P A0 A1 A2 A3 i Hi.
    apply in_zrange in Hi. assert (i = 0 \/ i = 1 \/ i = 2 \/ i = 3) as [->|[->|[->| ->]]] by lia; auto. }
  cbv zeta. split; [split; discriminate|]. split; [exact I|].
  split; [|split; [|split; [|split; [reflexivity|split; [unfold fits_in; cbn; lia|reflexivity]]]]].
  - split; [discriminate|]. split; [discriminate|]. split; [exact I|].
    apply H4; intros; (split; [discriminate|split; [discriminate|exact I]]).
  - split; [discriminate|]. split; [discriminate|]. split; [exact I|].
    apply H4; intros; (split; [discriminate|split; [discriminate|exact I]]).
  - intros k Hk. assert (k = 0 \/ k = 1) as [->| ->] by lia; split; reflexivity.
Qed.
