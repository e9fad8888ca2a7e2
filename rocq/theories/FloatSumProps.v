(** * Property C96: sums, means and variances of floating point numbers *)
From Coq Require Import ZArith List Bool Lia SpecFloat.
From Verif Require Import LangModel LangProofs ConcModel IndexSpec IndexProofs LoopModel LoopSpec PolicyModel LocalModel LocalSpec LocalProps ExampleMem
  IntsModel FloatModel IeeeSpec IeeeProofs FloatSpec FloatProofs FloatProps AccumModel AggModel AggSpec AggProps
  FloatAccumModel FloatAccumSpec FloatAccumProofs FloatSumSpec FloatSumProofs MathModel MathSpec MathProps.
Import ListNotations.
Open Scope Z_scope.

Section C96.
Variables (f : fmt) (ip : inpol spec_float) (op : outpol spec_float) (a rb : buf) (m : mem spec_float) (size : Z).
Hypothesis Hres : result_exists op rb m 0.
Hypothesis Hmark : marks_result op rb.
Hypothesis Hsize : 0 <= size < 2 ^ 64.
Hypothesis Hex : forall i, 0 <= i < size -> arg_exists ip a m i.
Let vs := valid_values ip a m (zrange 0 size).

Let zero_number : is_number (fprec f) (femax f) zero.
Proof. split; reflexivity. Qed.

Lemma count_bound : vs <> [] -> 1 <= Z.of_nat (length vs) < 2 ^ 64.
Proof.
  intros N. assert (L := valid_length ip a m (zrange 0 size)). fold vs in L. assert (E : length (zrange 0 size) = Z.to_nat size).
  { unfold zrange. rewrite map_length, seq_length. f_equal. lia. }
  destruct vs; [congruence|]. cbn [length] in *. lia.
Qed.

(** With the range policy of [statistic::sum]: the values are added in order, each sum rounded to a
    nearest number; the result is no-data exactly if a value is not finite or a sum overflows. *)
Theorem C96_sum :
  floats f vs ->
  (vs = [] -> sequentially_to (fsum_accu f true) ip op a rb m size NoData) /\
  (vs <> [] ->
     (exists t, rounded_sum f zero vs t /\ sequentially_to (fsum_accu f true) ip op a rb m size (Value t)) \/
     (no_sum f zero vs /\ sequentially_to (fsum_accu f true) ip op a rb m size NoData)).
Proof.
  intros H. split; [intros E; apply seq_nothing; auto; lia|]. intros N.
  destruct (sum_cases f vs zero zero_number H) as [(t & T1 & T2 & T3 & _)|(E1 & E2 & _)].
  - left. exists t. split; auto. eapply seq_value; eauto; lia.
  - right. split; auto. apply seq_out; auto; [lia|]. intros v w y. apply sum_stays.
Qed.

(** Without: no-data is never given for it; the result is then infinite or NaN. *)
Theorem C96_sum_unchecked :
  floats f vs -> vs <> [] ->
  exists r, sequentially_to (fsum_accu f false) ip op a rb m size (Value r) /\
    (rounded_sum f zero vs r \/ (no_sum f zero vs /\ is_finite r = false)).
Proof.
  intros H N. exists (fold_left (SFadd (fprec f) (femax f)) vs zero). split.
  - eapply seq_value; auto; [lia|apply sum_plain|reflexivity].
  - destruct (fold_cases f vs zero zero_number H) as [[_ T]|E]; auto.
Qed.

(** The mean is a number nearest to that sum divided by the number of values. *)
Theorem C96_mean :
  floats f vs ->
  (vs = [] -> sequentially_to (fmean_accu f true) ip op a rb m size NoData) /\
  (vs <> [] ->
     (exists t r, rounded_sum f zero vs t /\ rounded_mean f t (Z.of_nat (length vs)) r /\
        sequentially_to (fmean_accu f true) ip op a rb m size (Value r) /\
        sequentially_to (fmean_accu f false) ip op a rb m size (Value r)) \/
     (no_sum f zero vs /\ sequentially_to (fmean_accu f true) ip op a rb m size NoData)).
Proof.
  intros H. split; [intros E; apply seq_nothing; auto; lia|]. intros N. assert (B := count_bound N).
  destruct (sum_cases f vs zero zero_number H) as [(t & T1 & T2 & _ & T3)|(E1 & _ & E2)].
  - left. destruct (mean_value f t _ T1 B) as (r & R1 & R2 & R3). exists t, r. split; auto. split; auto. specialize (T3 0). split.
    + eapply seq_value; eauto. lia.
    + eapply seq_value; auto; [lia|apply (mean_plain f vs zero 0)|].
      replace (fold_left (SFadd (fprec f) (femax f)) vs zero) with t; [exact R1|].
      clear - T3. revert T3. generalize 0 at 1 2. generalize zero. induction vs as [|v l IH]; intros s n A; inversion A as [|x0 v0 y l0 z0 E G]; subst; [reflexivity|].
      cbn [fold_left]. cbn -[SFadd sum_within] in E. assert (Y : y = (SFadd (fprec f) (femax f) s v, n + 1)) by congruence. subst y.
      apply (IH _ (n + 1)). replace (n + 1 + Z.of_nat (length l)) with (n + Z.of_nat (length (v :: l))) by (cbn [length]; lia). exact G.
  - right. split; auto. apply seq_out; auto; [lia|apply E2|]. intros v w y. apply mean_stays.
Qed.

(** Sums of multiples of a power of two that need no more digits than the format has, such as
    integers, are exact, also in parallel, with and without the policy. *)
Theorem C96_exact policy g zs :
  grain f g -> multiples f g vs zs -> magnitude zs < 2 ^ fprec f -> vs <> [] ->
  exists t r, fvalue f t = total zs * g /\ rounded_mean f t (Z.of_nat (length vs)) r /\
    aggregates_to (fsum_accu f policy) ip op a rb m size (Value t) /\
    aggregates_to (fmean_accu f policy) ip op a rb m size (Value r).
Proof.
  intros G M B N. destruct (exact_mergeable f policy g vs zs G M B) as [M1 M2]. assert (CB := count_bound N).
  destruct (exact_accumulates f policy g vs zs (S754_zero false) 0 0 G M (zero_canon f)) as (t & T1 & T2 & T3); [lia|].
  destruct T1 as (T0 & T1 & _). rewrite Z.add_0_l in T1, T3. destruct (mean_value f t _ T0 CB) as (r & R1 & R2 & R3).
  exists t, r. split; auto. split; auto. split; eapply everywhere_value; eauto; reflexivity.
Qed.
End C96.
Print Assumptions C96_sum.
Print Assumptions C96_sum_unchecked.
Print Assumptions C96_mean.
Print Assumptions C96_exact.

(** The variance of numbers is the mean of the squares of their differences with the mean, rounded to
    a nearest number in each step, or infinite if a step overflows; the standard deviation is a
    number nearest to its root.  Neither is ever negative or NaN; of one value both are zero. *)
Theorem C96_variance f vs :
  vs <> [] -> Z.of_nat (length vs) < 2 ^ 64 -> Forall (is_number (fprec f) (femax f)) vs ->
  exists x v d,
    accumulates (fvariance_accu f) (a_init (fvariance_accu f)) vs x /\ a_result (fvariance_accu f) x = Some v /\ nonnegative f v /\
    accumulates (fdeviation_accu f) (a_init (fdeviation_accu f)) vs x /\ a_result (fdeviation_accu f) x = Some d /\ nonnegative f d /\
    ((is_number (fprec f) (femax f) v /\ rounded_variance f vs v /\ nearest_root f (fvalue f v) d) \/
     (v = plus_infinity /\ d = plus_infinity /\ variance_overflows f vs)) /\
    (length vs = 1%nat -> v = zero /\ d = zero).
Proof.
  intros N L H. destruct (variance_value f vs N L H) as (v & V1 & V2).
  assert (A := variance_accumulates f vs (S754_zero false) 0 []). cbn [app] in A. rewrite Z.add_0_l in A.
  eexists. exists v, (SFsqrt (fprec f) (femax f) v). split; [exact A|]. split; [exact V1|]. split; [apply unsigned_nonnegative; auto|].
  split; [apply deviation_accumulates; exact A|]. split; [cbn [a_result fdeviation_accu fvariance_accu]; rewrite V1; reflexivity|].
  split; [apply unsigned_nonnegative, sqrt_unsigned; auto|]. split.
  { destruct (variance_steps f vs v N L H V1) as [[W1 W2]|[W1 W2]]; [left|right]; (split; [exact W1|]).
    - split; [exact W2|]. destruct W1 as [F1 F2]. destruct (unsigned_nonnegative f v V2) as [->|[_ NN]]; [discriminate|].
      destruct (proj2 (proj2 (C64_sqrt f v F1)) F2 NN) as (r & R1 & R2). unfold fsqrt, apply_unary, checked in R1.
      destruct (not_negative v); [|discriminate]. inversion R1; subst r. exact R2.
    - split; [rewrite W1; reflexivity|exact W2]. }
  intros E. destruct vs as [|w [|]]; try discriminate. inversion H; subst.
  assert (S := single_variance f w ltac:(auto)). cbn [fold_left length Z.of_nat Pos.of_succ_nat] in V1. rewrite S in V1. inversion V1. split; reflexivity.
Qed.
Print Assumptions C96_variance.

(** Merging the variances of two blocks gives that of both, if the sums are exact as above. *)
Theorem C96_variance_merge f g xs ys zs x y :
  grain f g -> multiples f g (xs ++ ys) zs -> magnitude zs < 2 ^ fprec f ->
  accumulates (fvariance_accu f) (a_init (fvariance_accu f)) xs x ->
  accumulates (fvariance_accu f) (a_init (fvariance_accu f)) ys y ->
  exists z, a_merge (fvariance_accu f) x y = Some (z, true) /\
    accumulates (fvariance_accu f) (a_init (fvariance_accu f)) (xs ++ ys) z.
Proof.
  intros G M B X Y. destruct (exact_mergeable f false g _ zs G M B) as [_ [_ ME]].
  assert (D : forall l z, accumulates (fvariance_accu f) (a_init (fvariance_accu f)) l z ->
    z = ((fold_left (SFadd (fprec f) (femax f)) l (S754_zero false), Z.of_nat (length l)), l)).
  { intros l z A. assert (A' := variance_accumulates f l (S754_zero false) 0 []). rewrite Z.add_0_l in A'. eapply acc_det; eauto. }
  rewrite (D xs x X), (D ys y Y).
  assert (P : forall l, accumulates (fmean_accu f false) (a_init (fmean_accu f false)) l (fold_left (SFadd (fprec f) (femax f)) l (S754_zero false), Z.of_nat (length l))) by (intros l; exact (mean_plain f l (S754_zero false) 0)).
  destruct (ME xs ys [] _ _ ltac:(rewrite app_nil_r; reflexivity) (P xs) (P ys)) as (z & E & A).
  assert (EZ := acc_det _ _ _ _ _ A (P (xs ++ ys))).
  exists (z, xs ++ ys). split.
  - cbn -[SFadd fmean_accu]. change (a_merge (fmean_accu f false) (fold_left (SFadd (fprec f) (femax f)) xs (S754_zero false), Z.of_nat (length xs)) (fold_left (SFadd (fprec f) (femax f)) ys (S754_zero false), Z.of_nat (length ys)) = Some (z, true)) in E. rewrite E. reflexivity.
  - rewrite EZ. assert (A' := variance_accumulates f (xs ++ ys) (S754_zero false) 0 []). rewrite Z.add_0_l in A'. exact A'.
Qed.
Print Assumptions C96_variance_merge.

(** *** Cases *)
Definition big := S754_finite false 4503599627370496 1.  (* 2 ^ 53 *)
Definition unit_one := S754_finite false 4503599627370496 (-52).
Definition unit_two := S754_finite false 4503599627370496 (-51).
Definition unit_three := S754_finite false 6755399441055744 (-51).
Definition tenth := S754_finite false 7205759403792794 (-56).  (* 0.1 *)
Definition huge := S754_finite false 9007199254740991 971.
Definition minus_huge := S754_finite true 9007199254740991 971.

Example C96_case :
  let run_sum l := run (aggregate_1d (fsum_accu Double true) SkipNoData (MarkByMask 1 true) 0 1 (Z.of_nat (length l))) (mem_of [l; [unit_two]] [[]; [false]]) in
  let run_mean l := run (aggregate_1d (fmean_accu Double true) SkipNoData (MarkByMask 1 true) 0 1 (Z.of_nat (length l))) (mem_of [l; [unit_two]] [[]; [false]]) in
  (values_of (run_sum [unit_one; unit_two]) 1 1 = [Some unit_three] /\ mask_of (run_sum [huge; huge]) 1 1 = [Some true] /\
   mask_of (run_sum [unit_one; S754_nan]) 1 1 = [Some true] /\ values_of (run_mean [unit_one; unit_three]) 1 1 = [Some unit_two]) /\
  grain Double one /\ multiples Double one [unit_one; unit_three; S754_zero true] [1; 3; 0] /\ magnitude [1; 3; 0] < 2 ^ fprec Double.
Proof.
  split; [repeat split; vm_compute; reflexivity|]. split; [exists 1074; split; [cbn; lia|vm_compute; reflexivity]|].
  split; [|reflexivity]. unfold multiples. repeat constructor; vm_compute; reflexivity.
Qed.

Example C96_variance_case :
  let l := [unit_one; unit_three] in
  exists x, accumulates (fdeviation_accu Double) (a_init (fdeviation_accu Double)) l x /\
    a_result (fvariance_accu Double) x = Some unit_one /\ a_result (fdeviation_accu Double) x = Some unit_one /\
    Forall (is_number (fprec Double) (femax Double)) l.
Proof.
  eexists. split; [econstructor; [reflexivity|]; econstructor; [reflexivity|]; constructor|].
  split; [vm_compute; reflexivity|]. split; [vm_compute; reflexivity|]. repeat constructor.
Qed.

(** "The number of threads does not matter": two threads sum 2 ^ 53, 1, 1, 1 to 2 ^ 53 + 2, one
    thread to 2 ^ 53. *)
Theorem C96_threads_refuted :
  exists m tasks sched m' results,
    let acc := fsum_accu Double true in
    m = mem_of [[big; unit_one; unit_one; unit_one]; [unit_two]] [[]; [false]] /\
    values_of (run (aggregate_1d acc SkipNoData (MarkByMask 1 true) 0 1 4) m) 1 1 = [Some big] /\
    agg_tasks_1d acc 2 4 SkipNoData 0 = Some tasks /\
    exec sched tasks m = Some (map Ret results, m') /\
    values_of (run (agg_join acc (MarkByMask 1 true) 1 results) m') 1 1 = [Some (S754_finite false 4503599627370497 1)].
Proof.
  eexists. eexists. exists (concat (repeat [0; 1]%nat 10)). eexists. exists [(true, true, big); (true, true, unit_two)].
  split; [reflexivity|]. repeat split.
Qed.
Print Assumptions C96_threads_refuted.

(** Nor is it so for whether the sum overflows: here one thread gives a number, and two no-data. *)
Theorem C96_threads_overflow_refuted :
  exists m tasks sched m' results,
    let acc := fsum_accu Double true in
    m = mem_of [[minus_huge; S754_zero false; huge; huge]; [unit_two]] [[]; [false]] /\
    values_of (run (aggregate_1d acc SkipNoData (MarkByMask 1 true) 0 1 4) m) 1 1 = [Some huge] /\
    mask_of (run (aggregate_1d acc SkipNoData (MarkByMask 1 true) 0 1 4) m) 1 1 = [Some false] /\
    agg_tasks_1d acc 2 4 SkipNoData 0 = Some tasks /\
    exec sched tasks m = Some (map Ret results, m') /\
    mask_of (run (agg_join acc (MarkByMask 1 true) 1 results) m') 1 1 = [Some true].
Proof.
  eexists. eexists. exists (concat (repeat [0; 1]%nat 10)). eexists. exists [(true, true, minus_huge); (true, false, S754_infinity false)].
  split; [reflexivity|]. repeat split.
Qed.
Print Assumptions C96_threads_overflow_refuted.

(** "The mean is not greater than all values" and "the variance of equal values is zero": the mean of
    three times 0.1 is 0.10000000000000002, and their variance is positive. *)
Theorem C96_mean_refuted :
  let acc := fmean_accu Double true in
  let m := mem_of [[tenth; tenth; tenth]; [unit_two]] [[]; [false]] in
  exists r v x, values_of (run (aggregate_1d acc SkipNoData (MarkByMask 1 true) 0 1 3) m) 1 1 = [Some r] /\ below Double tenth r /\
    accumulates (fvariance_accu Double) (a_init (fvariance_accu Double)) [tenth; tenth; tenth] x /\
    a_result (fvariance_accu Double) x = Some v /\ is_finite v = true /\ 0 < fvalue Double v.
Proof.
  eexists. eexists. eexists. split; [vm_compute; reflexivity|]. split; [right; split; [reflexivity|split; [reflexivity|vm_compute; reflexivity]]|].
  split; [econstructor; [reflexivity|]; econstructor; [reflexivity|]; econstructor; [reflexivity|]; constructor|].
  split; [vm_compute; reflexivity|]. split; [reflexivity|vm_compute; reflexivity].
Qed.
Print Assumptions C96_mean_refuted.
