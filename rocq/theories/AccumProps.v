(** * Properties C22-C25: accumulators *)
From Coq Require Import ZArith List Bool Lia Permutation Sorted.
From Verif Require Import LangModel IntsModel ArithModel ArithSpec ArithProofs AccumModel AggModel AggSpec
  AggProofs AccumProofs.
Import ListNotations.
Open Scope Z_scope.

(** ** C22: merging accumulators *)

(** Where the arithmetic is defined, merging is concatenating: for every accumulator except
    [Mode] the merged accumulator is the one that was given all values.  [w] tells whether signed
    overflow wraps. *)
Theorem C22_merge w A R :
  merge_is_concatenation (fun _ => True) (count_plain w A R) /\
  merge_is_concatenation (fun _ => True) (sum_plain w A R) /\
  merge_is_concatenation (fits_in A) (min_accu A R) /\
  merge_is_concatenation (fits_in A) (max_accu A R) /\
  merge_is_concatenation (fits_in A) (range_accu w A R) /\
  merge_is_concatenation (fun _ => True) (mean_plain w A R) /\
  merge_is_concatenation (fun _ => True) (median_accu w A R) /\
  merge_is_concatenation (fun _ => True) (variance_accu w A R).
Proof.
  split; [apply count_plain_merge|]. split; [apply sum_plain_merge|]. split; [apply min_merge|].
  split; [apply max_merge|]. split; [apply range_merge|]. split; [apply mean_plain_merge|].
  split; [apply median_merge|apply variance_merge].
Qed.

(** And it is defined: minimum, maximum, range and median always; the others if signed
    overflow wraps or the types are not 32- or 64-bit signed integers. *)
Theorem C22_merge_defined w A R :
  always_defined (fits_in A) (min_accu A R) /\
  always_defined (fits_in A) (max_accu A R) /\
  always_defined (fits_in A) (range_accu w A R) /\
  always_defined (fun _ => True) (median_accu w A R) /\
  (w = true \/ ~ wide_signed R -> always_defined (fun _ => True) (count_plain w A R)) /\
  (w = true \/ ~ wide_signed R /\ ~ wide_signed A ->
   always_defined (fits_in A) (sum_plain w A R) /\
   always_defined (fits_in A) (mean_plain w A R) /\
   always_defined (fits_in A) (variance_accu w A R)).
Proof.
  split; [apply min_merge|]. split; [apply max_merge|]. split; [apply range_merge|].
  split; [apply median_merge|]. split; [intros H; apply (count_plain_all w A R H)|].
  intros H. split; [apply (sum_plain_all w A R H)|]. split; [apply (mean_plain_all w A R H)|].
  apply (variance_all w A R H).
Qed.

(** Modes constructed from a value: the mode of the merged accumulator is a mode of all
    values.  [order] is the order in which the hash table is visited. *)
Theorem C22_merge_mode order A R x xs y ys t u :
  (forall t, Permutation (order t) t) ->
  accumulates (mode_accu order A R) [(x, 1)] xs t ->
  accumulates (mode_accu order A R) [(y, 1)] ys u ->
  exists z r, a_merge (mode_accu order A R) t u = Some (z, true) /\
    a_result (mode_accu order A R) z = Some (conv R r) /\
    is_mode (x :: xs ++ y :: ys) r.
Proof.
  intros Ho Ht Hu.
  apply (mode_accumulates order A R [x]) in Ht; [|apply mode_one].
  apply (mode_accumulates order A R [y]) in Hu; [|apply mode_one].
  pose proof (mode_join _ _ _ _ Ht Hu) as Hz.
  destruct (freq_mode_spec _ _ _ Hz (Ho (freq_merge t u))) as (r & E & Hr); [discriminate|].
  exists (freq_merge t u), r. split; [reflexivity|]. split; [|exact Hr].
  cbn. rewrite E. reflexivity.
Qed.

(** Non-vacuity: the means of 1, 2, 6 and of 4, 12 are merged to the mean of all five. *)
Example C22_case :
  let acc := mean_plain false S16 S32 in
  feeds acc [1; 2; 6] (9, 3) /\ feeds acc [4; 12] (16, 2) /\
  a_merge acc (9, 3) (16, 2) = Some ((25, 5), true) /\ feeds acc ([1; 2; 6] ++ [4; 12]) (25, 5) /\
  a_result acc (25, 5) = Some 5.
Proof.
  repeat split.
  - constructor. repeat econstructor.
  - eapply fed_value; [reflexivity|]. repeat econstructor.
  - constructor. repeat econstructor.
Qed.
Print Assumptions C22_merge.
Print Assumptions C22_merge_defined.
Print Assumptions C22_merge_mode.

(** ** C23: what accumulators compute *)
Section C23.
Variables (w : bool) (A R : ity).

Theorem C23_count vs x : feeds (count_plain w A R) vs x -> fits_in R (Z.of_nat (length vs)) ->
  a_result (count_plain w A R) x = Some (Z.of_nat (length vs)).
Proof. intros H F. cbn. f_equal. rewrite (count_plain_rel _ _ _ _ _ H). now apply conv_id. Qed.

Theorem C23_sum vs x : feeds (sum_plain w A R) vs x -> fits_in R (total vs) ->
  a_result (sum_plain w A R) x = Some (total vs).
Proof. intros H F. cbn. f_equal. rewrite (sum_plain_rel _ _ _ _ _ H). now apply conv_id. Qed.

(** Only the final sum has to be representable; and where it is not, the result is the sum
    modulo the size of the type. *)
Theorem C23_sum_modular vs x r : feeds (sum_plain w A R) vs x ->
  a_result (sum_plain w A R) x = Some r -> fits_in R r /\ (modulus R | r - total vs).
Proof.
  intros H. cbn. intros [= <-]. rewrite (sum_plain_rel _ _ _ _ _ H). split; [apply conv_fits|].
  destruct (conv_eqm R (total vs)) as [k ->]. exists k. lia.
Qed.

Theorem C23_min vs x : Forall (fits_in A) vs -> vs <> [] -> feeds (min_accu A R) vs x ->
  exists r, is_min vs r /\ a_result (min_accu A R) x = Some (conv R r).
Proof.
  intros F Hn H. exists x. split; [|reflexivity].
  apply (min_rel_meaning A); auto. eapply min_accu_rel; eauto.
Qed.
Theorem C23_max vs x : Forall (fits_in A) vs -> vs <> [] -> feeds (max_accu A R) vs x ->
  exists r, is_max vs r /\ a_result (max_accu A R) x = Some (conv R r).
Proof.
  intros F Hn H. exists x. split; [|reflexivity].
  apply (max_rel_meaning A); auto. eapply max_accu_rel; eauto.
Qed.

Theorem C23_range vs x lo hi : Forall (fits_in A) vs -> feeds (range_accu w A R) vs x ->
  is_min vs lo -> is_max vs hi ->
  fits_in R lo -> fits_in R hi -> fits_in R (hi - lo) ->
  a_result (range_accu w A R) x = Some (hi - lo).
Proof.
  intros F H [L1 L2] [M1 M2] F1 F2 F3.
  destruct (range_accu_rel _ _ _ _ _ F H) as [G1 G2].
  assert (Hn : vs <> []) by (intros C; rewrite C in L1; destruct L1).
  destruct (min_rel_meaning _ _ _ F Hn G1) as [I1 I2].
  destruct (max_rel_meaning _ _ _ F Hn G2) as [J1 J2].
  assert (fst x = lo) by (apply Z.le_antisymm; auto).
  assert (snd x = hi) by (apply Z.le_antisymm; auto).
  subst lo hi. now apply range_result_exact.
Qed.

(** The mean is rounded towards zero. *)
Theorem C23_mean vs x : feeds (mean_plain w A R) vs x -> vs <> [] ->
  fits_in R (total vs) -> fits_in R (Z.of_nat (length vs)) -> Z.of_nat (length vs) < 2 ^ 64 ->
  a_result (mean_plain w A R) x = Some (Z.quot (total vs) (Z.of_nat (length vs))).
Proof. intros H. intros. apply mean_result_exact; auto. eapply mean_plain_rel; eauto. Qed.

(** The middle value, or the mean (rounded towards zero) of the two middle values, of the
    values in increasing order. *)
Theorem C23_median vs x s : feeds (median_accu w A R) vs x -> is_sorted vs s -> 
  (forall k, length s = (2 * k + 1)%nat ->
     a_result (median_accu w A R) x = Some (conv R (nth k s 0))) /\
  (forall k, length s = (2 * k)%nat -> (0 < k)%nat ->
     let t := nth (k - 1) s 0 + nth k s 0 in
     fits_in (promote A) t -> fits_in R t ->
     a_result (median_accu w A R) x = Some (Z.quot t 2)).
Proof.
  intros H S. apply median_rel in H. subst x. cbn [median_accu a_result]. unfold median_result.
  rewrite (is_sorted_unique vs (sort vs) s (sort_spec vs) S). split.
  - intros k L. destruct s as [|v s]; [cbn in L; lia|]. rewrite L.
    replace (Nat.odd (2 * k + 1)) with true.
    + replace ((2 * k + 1) / 2)%nat with k; auto.
      apply (Nat.div_unique (2 * k + 1) 2 k 1); lia.
    + symmetry. rewrite Nat.add_1_r, Nat.odd_succ. apply Nat.even_spec. exists k. lia.
  - intros k L K. set (t := nth (k - 1) s 0 + nth k s 0). intros F1 F2. destruct s as [|v s]; [cbn in L; lia|]. rewrite L.
    replace (Nat.odd (2 * k)) with false.
    + replace ((2 * k) / 2)%nat with k by (symmetry; rewrite Nat.mul_comm; apply Nat.div_mul; lia).
      fold t. unfold arith.
      replace ((imin (promote A) <=? t) && (t <=? imax (promote A))) with true.
      2:{ symmetry. unfold fits_in in F1. apply andb_true_intro; split; apply Z.leb_le; lia. }
      rewrite (conv_id (promote A)) by auto.
      replace (if signed (promote A) then Some t else Some t) with (Some t) by (destruct (signed _); auto).
      cbn [obind]. rewrite (conv_id R t) by auto.
      rewrite div_pos; [|destruct R; unfold fits_in in *; cbn in *; lia..|lia].
      cbn. now rewrite conv_id by (apply quot_fits; auto; lia).
    + symmetry. rewrite <- Nat.negb_even. replace (Nat.even (2 * k)) with true; auto.
      symmetry. apply Nat.even_spec. exists k. lia.
Qed.

(** A mode constructed from a value. *)
Theorem C23_mode order v vs x : (forall t, Permutation (order t) t) ->
  accumulates (mode_accu order A R) [(v, 1)] vs x ->
  exists r, is_mode (v :: vs) r /\ a_result (mode_accu order A R) x = Some (conv R r).
Proof.
  intros Ho H. apply (mode_accumulates order A R [v]) in H; [|apply mode_one].
  destruct (freq_mode_spec _ _ _ H (Ho x)) as (r & E & Hr); [discriminate|].
  exists r. split; auto. cbn. rewrite E. reflexivity.
Qed.

(** The mean of the squared deviations from the mean, both means rounded towards zero. *)
Theorem C23_variance vs x : feeds (variance_accu w A R) vs x -> vs <> [] ->
  let n := Z.of_nat (length vs) in
  let mean := Z.quot (total vs) n in
  let squares := map (fun v => (mean - v) * (mean - v)) vs in
  Forall (fits_in R) vs -> fits_in R (total vs) -> fits_in R n -> n < 2 ^ 64 ->
  fits_in R (total squares) ->
  a_result (variance_accu w A R) x = Some (Z.quot (total squares) n).
Proof.
  intros H Hn n mean squares. intros. apply variance_result_exact; auto.
  eapply variance_accu_rel; eauto.
Qed.
End C23.

(** Non-vacuity. *)
Example C23_case :
  let run acc vs := obind (fold_left (fun o v => obind o (fun x => option_map fst (a_add acc x v))) vs
                             (Some (a_init acc))) (a_result acc) in
  run (count_plain false S32 U64) [7; 2; 2; 9] = Some 4 /\
  run (sum_plain false S32 S64) [7; 2; 2; 9] = Some 20 /\
  run (min_accu S32 S32) [7; 2; 2; 9] = Some 2 /\
  run (max_accu S32 S32) [7; 2; 2; 9] = Some 9 /\
  obind (fold_left (fun o v => obind o (fun x => option_map fst (a_add (variance_accu false S32 S32) x v)))
           [7; 2; 2; 9] (Some (a_init (variance_accu false S32 S32))))
    (a_result (variance_accu false S32 S32)) = Some 9 /\
  obind (fold_left (fun o v => obind o (fun x => option_map fst (a_add (median_accu false S32 S32) x v)))
           [7; 2; 2; 9] (Some (a_init (median_accu false S32 S32))))
    (a_result (median_accu false S32 S32)) = Some 4 /\
  is_sorted [7; 2; 2; 9] [2; 2; 7; 9] /\ is_mode [7; 2; 2; 9] 2 /\ is_min [7; 2; 2; 9] 2.
Proof.
  do 6 (split; [reflexivity|]). split; [exact (sort_spec [7; 2; 2; 9])|]. split; split.
  - cbn; auto.
  - intros v. change (multiplicity [7; 2; 2; 9] 2) with 2%nat. unfold multiplicity.
    cbn [count_occ]. destruct (Z.eq_dec 7 v), (Z.eq_dec 2 v), (Z.eq_dec 9 v); lia.
  - cbn; auto.
  - cbn. intros x H. intuition lia.
Qed.
Print Assumptions C23_count.
Print Assumptions C23_sum.
Print Assumptions C23_sum_modular.
Print Assumptions C23_min.
Print Assumptions C23_max.
Print Assumptions C23_range.
Print Assumptions C23_mean.
Print Assumptions C23_median.
Print Assumptions C23_mode.
Print Assumptions C23_variance.

(** ** C24: what they compute otherwise *)

(** Default constructed [Mode]: the mode of the values and one zero. *)
Theorem C24_default_mode order A R vs x : (forall t, Permutation (order t) t) ->
  accumulates (mode_accu order A R) (a_init (mode_accu order A R)) vs x ->
  exists r, is_mode (0 :: vs) r /\ a_result (mode_accu order A R) x = Some (conv R r).
Proof. intros Ho H. apply (C23_mode A R order 0 vs x Ho H). Qed.

(** So the mode of [-1; -1 ...] is right, but that of the single value 5 can be 0. *)
Theorem C24_default_mode_refuted :
  exists order x, (forall t : table, Permutation (order t) t) /\
    accumulates (mode_accu order S32 S32) (a_init (mode_accu order S32 S32)) [5] x /\
    a_result (mode_accu order S32 S32) x = Some 0 /\ ~ is_mode [5] 0.
Proof.
  exists (fun t => t), [(0, 1); (5, 1)]. split; [auto|]. split; [repeat econstructor|].
  split; [reflexivity|]. intros [[C|[]] _]. discriminate.
Qed.

(** The mean divides by the number of values converted to the result type: for [n] a multiple of
    the size of that type the mean of [n] values is a division by zero ... *)
Theorem C24_mean_count_wraps w A R vs x : feeds (mean_plain w A R) vs x -> 
  Z.of_nat (length vs) < 2 ^ 64 -> (modulus R | Z.of_nat (length vs)) ->
  a_result (mean_plain w A R) x = None.
Proof.
  intros H B [k Hk]. destruct (mean_plain_rel _ _ _ _ _ H) as [_ H2]. cbn [mean_plain a_result].
  unfold mean_result. unfold count_rel in H2.
  rewrite conv_id in H2 by (unfold fits_in; cbn; lia). rewrite H2.
  destruct (Z.eqb_spec (Z.of_nat (length vs)) 0); auto.
  replace (conv R (Z.of_nat (length vs))) with 0.
  - unfold tv_div. cbn [fst snd]. rewrite (conv_id _ 0) by apply fits_0. reflexivity.
  - rewrite Hk. rewrite <- (Z.add_0_l (k * modulus R)), conv_shift. symmetry. apply conv_0.
Qed.
(** ... and in between it is wrong: the mean of 257 uint8 ones is 1 only because 257 is taken
    for 1; the mean of 257 uint8 zeros and threes is their sum. *)
Theorem C24_mean_refuted :
  exists vs x, accumulates (mean_plain true U8 U8) (0, 0) vs x /\
    Forall (fits_in U8) vs /\ fits_in U8 (total vs) /\
    a_result (mean_plain true U8 U8) x = Some 3 /\ Z.quot (total vs) (Z.of_nat (length vs)) = 0.
Proof.
  exists (3 :: repeat 0 256), (3, 257).
  split.
  - assert (HG : forall n c, 0 <= c -> c + Z.of_nat n < 1000 ->
       accumulates (mean_plain true U8 U8) (3, c) (repeat 0 n) (3, c + Z.of_nat n)).
    { induction n as [|n IH]; intros c C1 C2.
      - cbn [Z.of_nat repeat]. rewrite Z.add_0_r. constructor.
      - cbn [repeat]. apply (acc_more _ _ _ (3, c + 1)).
        + cbn [mean_plain a_add fst snd]. rewrite plus_into_wrap. cbn [obind].
          rewrite plus_into_u64. cbn [obind]. rewrite (conv_id U64) by (unfold fits_in; cbn; lia).
          reflexivity.
        + replace (c + Z.of_nat (S n)) with (c + 1 + Z.of_nat n) by lia. apply IH; lia. }
    apply (acc_more _ _ _ (3, 1)); [reflexivity|]. apply (HG 256%nat 1); lia.
  - split; [|split; [|split]].
    + apply Forall_forall. intros x [<-|Hx]; [unfold fits_in; cbn; lia|].
      apply repeat_spec in Hx. subst. apply fits_0.
    + unfold fits_in. vm_compute. split; discriminate.
    + reflexivity.
    + reflexivity.
Qed.

(** The range and the median of values of a type need not be representable in it. *)
Theorem C24_range_refuted :
  (exists x, accumulates (range_accu true S8 S8) (a_init (range_accu true S8 S8)) [-128; 127] x /\
     a_result (range_accu true S8 S8) x = Some (-1)) /\
  (exists x, accumulates (range_accu false S32 S32) (a_init (range_accu false S32 S32)) [imin S32; imax S32] x /\
     a_result (range_accu false S32 S32) x = None).
Proof. split; eexists; (split; [repeat econstructor|reflexivity]). Qed.
Theorem C24_median_refuted :
  (exists x, accumulates (median_accu true U8 U8) (a_init (median_accu true U8 U8)) [150; 150] x /\
     a_result (median_accu true U8 U8) x = Some 22) /\
  (exists x, accumulates (median_accu false S32 S32) (a_init (median_accu false S32 S32)) [imax S32; imax S32] x /\
     a_result (median_accu false S32 S32) x = None).
Proof. split; eexists; (split; [repeat econstructor|reflexivity]). Qed.
Print Assumptions C24_default_mode.
Print Assumptions C24_default_mode_refuted.
Print Assumptions C24_mean_count_wraps.
Print Assumptions C24_mean_refuted.
Print Assumptions C24_range_refuted.
Print Assumptions C24_median_refuted.

(** ** C25: merging counts with an out-of-range policy *)

(** The merge with policy increments by one whatever the other count. *)
Theorem C25_checked_merge w A R pol c d : fits_in R c -> fits_in R (c + 1) ->
  exists b, a_merge (count_checked w A R pol) c d = Some (c + 1, b).
Proof.
  intros F1 F2. cbn.
  assert (E : plus_into w R S32 c 1 = Some (c + 1)).
  { destruct (signed R) eqn:S.
    - apply plus_into_fits; auto using fits_1.
    - apply plus_into_fits; auto using fits_1. right. split; [|lia]. now apply (nonneg_unsigned R). }
  rewrite E. cbn. eauto.
Qed.

(** So joining the counts of blocks counts the blocks with a valid value, not the values. *)
Theorem C25_count_refuted :
  exists x y z, accumulates (count_checked false S32 U64 discard_range_errors) 0 [7; 8; 9] x /\
    accumulates (count_checked false S32 U64 discard_range_errors) 0 [1; 2] y /\
    a_merge (count_checked false S32 U64 discard_range_errors) x y = Some (z, true) /\
    x = 3 /\ y = 2 /\ z = 4.
Proof. exists 3, 2, 4. repeat split; repeat econstructor. Qed.

(** The merge without policy adds the counts. *)
Theorem C25_plain_merge w A R c d : fits_in R c -> fits_in R d -> fits_in R (c + d) ->
  a_merge (count_plain w A R) c d = Some (c + d, true).
Proof. intros. cbn. rewrite plus_into_fits; auto. Qed.
Print Assumptions C25_checked_merge.
Print Assumptions C25_count_refuted.
Print Assumptions C25_plain_merge.
