(** * Properties C20-C21 for the sum, mean, minimum and maximum of algorithm/statistic

    [statistic::sum], [mean], [unary_min] and [unary_max] require the value type of the result to be that of
    the argument (sum.h:58-59, mean.h:58-59, unary_min.h, unary_max.h). *)
From Coq Require Import ZArith List Bool Lia.
From Verif Require Import LangModel LangProofs ConcModel ConcProofs IndexModel IndexSpec
  IndexProofs LoopModel LoopSpec LoopProofs PolicyModel LocalModel LocalSpec LocalProofs
  ExampleMem IntsModel ArithModel ArithSpec ArithProofs AccumModel AggModel AggSpec AggProofs
  AccumProofs StatProofs AggProps.
Import ListNotations.
Open Scope Z_scope.

Section Stat.
Variables (w : bool) (T : ity).
Variables (ip : inpol Z) (op : outpol Z) (a rb : buf) (m : mem Z).
Hypothesis Hres : result_exists op rb m 0.
Hypothesis Hmark : marks_result op rb.

(** ** Sequential *)

(** The sum with the range policy of [add]: no-data if there is no value or if the sum of some
    first values is not representable; else the sum. *)
Theorem C20_sum_1d size :
  0 <= size -> (forall i, 0 <= i < size -> arg_exists ip a m i) ->
  let vs := valid_values ip a m (zrange 0 size) in
  let p := aggregate_1d (sum_checked w T T (add_within_range T T)) ip op a rb size in
  Forall (fits_in T) vs ->
  (vs = [] -> computes p op rb 1 (fun _ => NoData) m) /\
  (vs <> [] -> prefix_sums (fits_in T) 0 vs -> computes p op rb 1 (fun _ => Value (total vs)) m) /\
  (w = true \/ ~ wide_signed T -> ~ prefix_sums (fits_in T) 0 vs ->
   computes p op rb 1 (fun _ => NoData) m).
Proof.
  intros Hs Hex vs p HF.
  destruct (C20_aggregate_1d (sum_checked w T T (add_within_range T T)) ip op a rb m Hres Hmark size Hs Hex)
    as (H1 & H2 & H3).
  split; [exact H1|]. split.
  - intros Hn Hp. apply (H2 (total vs)); auto.
    apply (sum_accumulates w T vs 0); auto using fits_0.
  - intros Sf Hp. apply H3. apply sum_leaves; auto using fits_0.
    destruct Sf; [left|right]; auto.
Qed.

Theorem C20_sum_2d rows cols :
  0 <= rows -> 0 <= cols -> (forall i, 0 <= i < rows * cols -> arg_exists ip a m i) ->
  let vs := valid_values ip a m (zrange 0 (rows * cols)) in
  let p := aggregate_2d (sum_checked w T T (add_within_range T T)) ip op a rb rows cols in
  Forall (fits_in T) vs ->
  (vs = [] -> computes p op rb 1 (fun _ => NoData) m) /\
  (vs <> [] -> prefix_sums (fits_in T) 0 vs -> computes p op rb 1 (fun _ => Value (total vs)) m) /\
  (w = true \/ ~ wide_signed T -> ~ prefix_sums (fits_in T) 0 vs ->
   computes p op rb 1 (fun _ => NoData) m).
Proof.
  intros Hr Hc Hex vs p HF.
  destruct (C20_raster_as_array (sum_checked w T T (add_within_range T T)) ip op a rb m Hres Hmark rows cols Hr Hc Hex)
    as (H1 & H2 & H3).
  split; [exact H1|]. split.
  - intros Hn Hp. apply (H2 (total vs)); auto.
    apply (sum_accumulates w T vs 0); auto using fits_0.
  - intros Sf Hp. apply H3.
    + apply sum_leaves; auto using fits_0. destruct Sf; [left|right]; auto.
    + fold vs. intros v u vs' y Ev C. rewrite Ev in HF. inversion HF as [|? ? Fv _]; subst.
      destruct (sum_ex_first w T v Fv) as [y' Ey]. rewrite Ey in C. discriminate.
Qed.

(** The mean with the range policy of [add]. *)
Theorem C20_mean_1d size :
  0 <= size < 2 ^ 64 -> (forall i, 0 <= i < size -> arg_exists ip a m i) ->
  let vs := valid_values ip a m (zrange 0 size) in
  let p := aggregate_1d (mean_checked w T T (add_within_range T T)) ip op a rb size in
  Forall (fits_in T) vs -> 
  (vs = [] -> computes p op rb 1 (fun _ => NoData) m) /\
  (vs <> [] -> fits_in T (Z.of_nat (length vs)) -> prefix_sums (fits_in T) 0 vs ->
   computes p op rb 1 (fun _ => Value (Z.quot (total vs) (Z.of_nat (length vs)))) m) /\
  (w = true \/ ~ wide_signed T -> ~ prefix_sums (fits_in T) 0 vs ->
   computes p op rb 1 (fun _ => NoData) m).
Proof.
  intros Hs Hex vs p HF.
  destruct (C20_aggregate_1d (mean_checked w T T (add_within_range T T)) ip op a rb m Hres Hmark size)
    as (H1 & H2 & H3); [lia|exact Hex|].
  assert (Hlen : Z.of_nat (length vs) <= size).
  { assert (HG : forall l, (length (valid_values ip a m l) <= length l)%nat).
    { induction l as [|i l IH]; cbn; [lia|]. rewrite app_length.
      destruct (arg_at ip a m i); cbn [length]; unfold valid_values in IH; lia. }
    unfold vs. specialize (HG (zrange 0 size)). rewrite length_zrange in HG. lia. }
  split; [exact H1|]. split.
  - intros Hn Fl Hp. apply (H2 (total vs, conv U64 (Z.of_nat (length vs)))); auto.
    + exact (mean_accumulates w T vs 0 0 (fits_0 T) HF Hp).
    + apply (mean_exact_result w T vs); auto; [|lia].
      split; [|reflexivity]. split; [reflexivity|]. cbn [fst].
      change (total vs) with (0 + total vs). apply prefix_total; auto.
  - intros Sf Hp. apply H3. apply mean_leaves; auto using fits_0.
    destruct Sf; [left|right]; auto.
Qed.

(** ** Parallel *)

(** The minimum and maximum. *)
Theorem C21_min_1d nr_threads size :
  1 <= nr_threads -> 0 <= size < 2 ^ 64 -> (forall i, 0 <= i < size -> arg_exists ip a m i) ->
  let vs := valid_values ip a m (zrange 0 size) in
  Forall (fits_in T) vs ->
  exists tasks, agg_tasks_1d (min_accu T T) nr_threads size ip a = Some tasks /\
    (vs = [] -> joins_to (min_accu T T) tasks op rb NoData m) /\
    (forall r, is_min vs r -> joins_to (min_accu T T) tasks op rb (Value r) m).
Proof.
  intros Hn Hs Hex vs HF. destruct (min_merge T T) as (_ & HD & HM).
  destruct (C21_parallel_1d (min_accu T T) ip op a rb m Hres Hmark nr_threads size Hn Hs Hex (HM vs HF))
    as (tasks & E & H1 & H2).
  exists tasks. split; auto. split; auto. intros r [Hr1 Hr2].
  destruct HD as [HD _]. destruct (HD vs HF) as [x Hx].
  assert (vs <> []) by (intros C; rewrite C in Hr1; destruct Hr1).
  apply (H2 x); auto. cbn.
  assert (G : is_min vs x).
  { apply (min_rel_meaning T); auto. apply (min_accu_rel T T); auto. now constructor. }
  destruct G as [G1 G2]. f_equal. rewrite conv_id by (rewrite Forall_forall in HF; auto).
  apply Z.le_antisymm; auto.
Qed.
Theorem C21_max_1d nr_threads size :
  1 <= nr_threads -> 0 <= size < 2 ^ 64 -> (forall i, 0 <= i < size -> arg_exists ip a m i) ->
  let vs := valid_values ip a m (zrange 0 size) in
  Forall (fits_in T) vs ->
  exists tasks, agg_tasks_1d (max_accu T T) nr_threads size ip a = Some tasks /\
    (vs = [] -> joins_to (max_accu T T) tasks op rb NoData m) /\
    (forall r, is_max vs r -> joins_to (max_accu T T) tasks op rb (Value r) m).
Proof.
  intros Hn Hs Hex vs HF. destruct (max_merge T T) as (_ & HD & HM).
  destruct (C21_parallel_1d (max_accu T T) ip op a rb m Hres Hmark nr_threads size Hn Hs Hex (HM vs HF))
    as (tasks & E & H1 & H2).
  exists tasks. split; auto. split; auto. intros r [Hr1 Hr2].
  destruct HD as [HD _]. destruct (HD vs HF) as [x Hx].
  assert (vs <> []) by (intros C; rewrite C in Hr1; destruct Hr1).
  apply (H2 x); auto. cbn.
  assert (G : is_max vs x).
  { apply (max_rel_meaning T); auto. apply (max_accu_rel T T); auto. now constructor. }
  destruct G as [G1 G2]. f_equal. rewrite conv_id by (rewrite Forall_forall in HF; auto).
  apply Z.le_antisymm; auto.
Qed.
Theorem C21_min_2d nr_threads rows cols :
  1 <= nr_threads -> 0 <= rows < 2 ^ 64 -> 0 <= cols ->
  (forall i, 0 <= i < rows * cols -> arg_exists ip a m i) ->
  let vs := valid_values ip a m (zrange 0 (rows * cols)) in
  Forall (fits_in T) vs ->
  exists tasks, agg_tasks_2d (min_accu T T) nr_threads rows cols ip a = Some tasks /\
    (vs = [] -> joins_to (min_accu T T) tasks op rb NoData m) /\
    (forall r, is_min vs r -> joins_to (min_accu T T) tasks op rb (Value r) m).
Proof.
  intros Hn Hs Hc Hex vs HF. destruct (min_merge T T) as (_ & HD & HM).
  destruct (C21_parallel_2d (min_accu T T) ip op a rb m Hres Hmark nr_threads rows cols Hn Hs Hc Hex (HM vs HF))
    as (tasks & E & H1 & H2).
  exists tasks. split; auto. split; auto. intros r [Hr1 Hr2].
  destruct HD as [HD _]. destruct (HD vs HF) as [x Hx].
  assert (vs <> []) by (intros C; rewrite C in Hr1; destruct Hr1).
  apply (H2 x); auto. cbn.
  assert (G : is_min vs x).
  { apply (min_rel_meaning T); auto. apply (min_accu_rel T T); auto. now constructor. }
  destruct G as [G1 G2]. f_equal. rewrite conv_id by (rewrite Forall_forall in HF; auto).
  apply Z.le_antisymm; auto.
Qed.
Theorem C21_max_2d nr_threads rows cols :
  1 <= nr_threads -> 0 <= rows < 2 ^ 64 -> 0 <= cols ->
  (forall i, 0 <= i < rows * cols -> arg_exists ip a m i) ->
  let vs := valid_values ip a m (zrange 0 (rows * cols)) in
  Forall (fits_in T) vs ->
  exists tasks, agg_tasks_2d (max_accu T T) nr_threads rows cols ip a = Some tasks /\
    (vs = [] -> joins_to (max_accu T T) tasks op rb NoData m) /\
    (forall r, is_max vs r -> joins_to (max_accu T T) tasks op rb (Value r) m).
Proof.
  intros Hn Hs Hc Hex vs HF. destruct (max_merge T T) as (_ & HD & HM).
  destruct (C21_parallel_2d (max_accu T T) ip op a rb m Hres Hmark nr_threads rows cols Hn Hs Hc Hex (HM vs HF))
    as (tasks & E & H1 & H2).
  exists tasks. split; auto. split; auto. intros r [Hr1 Hr2].
  destruct HD as [HD _]. destruct (HD vs HF) as [x Hx].
  assert (vs <> []) by (intros C; rewrite C in Hr1; destruct Hr1).
  apply (H2 x); auto. cbn.
  assert (G : is_max vs x).
  { apply (max_rel_meaning T); auto. apply (max_accu_rel T T); auto. now constructor. }
  destruct G as [G1 G2]. f_equal. rewrite conv_id by (rewrite Forall_forall in HF; auto).
  apply Z.le_antisymm; auto.
Qed.

(** The sum without range policy: the sum modulo the size of the type, as in sequential
    execution. *)
Theorem C21_sum_unchecked_1d nr_threads size :
  w = true \/ ~ wide_signed T ->
  1 <= nr_threads -> 0 <= size < 2 ^ 64 -> (forall i, 0 <= i < size -> arg_exists ip a m i) ->
  let vs := valid_values ip a m (zrange 0 size) in
  let acc := sum_checked w T T discard_range_errors in
  Forall (fits_in T) vs ->
  exists tasks, agg_tasks_1d acc nr_threads size ip a = Some tasks /\
    (vs = [] -> joins_to acc tasks op rb NoData m /\
                computes (aggregate_1d acc ip op a rb size) op rb 1 (fun _ => NoData) m) /\
    (vs <> [] -> joins_to acc tasks op rb (Value (conv T (total vs))) m /\
                 computes (aggregate_1d acc ip op a rb size) op rb 1 (fun _ => Value (conv T (total vs))) m).
Proof.
  intros Sf Hn Hs Hex vs acc HF.
  assert (S2 : safe_plus w T T) by (destruct Sf; [left|right]; auto).
  destruct (discard_sum_all w T S2) as (HR & HD & HM).
  destruct (C21_parallel_1d acc ip op a rb m Hres Hmark nr_threads size Hn Hs Hex (HM vs HF))
    as (tasks & E & H1 & H2).
  destruct (C20_aggregate_1d acc ip op a rb m Hres Hmark size (proj1 Hs) Hex) as (K1 & K2 & _).
  exists tasks. split; auto. split; auto. intros Hnn.
  destruct (HD vs HF) as [x Hx]. assert (x = conv T (total vs)) by (apply HR; auto). subst x.
  split; [apply (H2 (conv T (total vs)))|apply (K2 (conv T (total vs)))]; auto.
Qed.

(** The sum with the range policy of [add].  If no sum of consecutive values leaves the range of
    the type, the result is the sum. *)
Theorem C21_sum_1d nr_threads size :
  1 <= nr_threads -> 0 <= size < 2 ^ 64 -> (forall i, 0 <= i < size -> arg_exists ip a m i) ->
  let vs := valid_values ip a m (zrange 0 size) in
  let acc := sum_checked w T T (add_within_range T T) in
  Forall (fits_in T) vs ->
  (forall us xs ws, vs = us ++ xs ++ ws -> fits_in T (total xs)) ->
  exists tasks, agg_tasks_1d acc nr_threads size ip a = Some tasks /\
    (vs = [] -> joins_to acc tasks op rb NoData m) /\
    (vs <> [] -> joins_to acc tasks op rb (Value (total vs)) m).
Proof.
  intros Hn Hs Hex vs acc HF HR.
  destruct (C21_parallel_1d acc ip op a rb m Hres Hmark nr_threads size Hn Hs Hex (sum_mergeable w T vs HF HR))
    as (tasks & E & H1 & H2).
  exists tasks. split; auto. split; auto. intros Hnn. apply (H2 (total vs)); auto.
  apply (sum_accumulates w T vs 0); auto using fits_0.
  apply (runs_prefix T vs vs [] []); auto. now rewrite app_nil_r.
Qed.

Theorem C21_sum_2d nr_threads rows cols :
  1 <= nr_threads -> 0 <= rows < 2 ^ 64 -> 0 <= cols ->
  (forall i, 0 <= i < rows * cols -> arg_exists ip a m i) ->
  let vs := valid_values ip a m (zrange 0 (rows * cols)) in
  let acc := sum_checked w T T (add_within_range T T) in
  Forall (fits_in T) vs ->
  (forall us xs ws, vs = us ++ xs ++ ws -> fits_in T (total xs)) ->
  exists tasks, agg_tasks_2d acc nr_threads rows cols ip a = Some tasks /\
    (vs = [] -> joins_to acc tasks op rb NoData m) /\
    (vs <> [] -> joins_to acc tasks op rb (Value (total vs)) m).
Proof.
  intros Hn Hs Hc Hex vs acc HF HR.
  destruct (C21_parallel_2d acc ip op a rb m Hres Hmark nr_threads rows cols Hn Hs Hc Hex (sum_mergeable w T vs HF HR))
    as (tasks & E & H1 & H2).
  exists tasks. split; auto. split; auto. intros Hnn. apply (H2 (total vs)); auto.
  apply (sum_accumulates w T vs 0); auto using fits_0.
  apply (runs_prefix T vs vs [] []); auto. now rewrite app_nil_r.
Qed.

(** In any case the result is the sum or no-data, and never the sum if that is not
    representable. *)
Theorem C21_sum_sound_1d nr_threads size :
  w = true \/ ~ wide_signed T ->
  1 <= nr_threads -> 0 <= size < 2 ^ 64 -> (forall i, 0 <= i < size -> arg_exists ip a m i) ->
  let vs := valid_values ip a m (zrange 0 size) in
  let acc := sum_checked w T T (add_within_range T T) in
  Forall (fits_in T) vs ->
  exists tasks o, agg_tasks_1d acc nr_threads size ip a = Some tasks /\ joins_to acc tasks op rb o m /\
    (o = NoData \/ o = Value (total vs) /\ vs <> [] /\ fits_in T (total vs)).
Proof.
  intros Sf Hn Hs Hex vs acc HF.
  assert (S2 : safe_plus w T T) by (destruct Sf; [left|right]; auto).
  destruct (parallel_sound_1d acc (fits_in T) (sum_exact T) (sum_ex_init w T) (sum_ex_add w T S2)
    (sum_ex_merge w T S2) ip op a rb m Hres Hmark nr_threads size Hn Hs Hex HF) as (tasks & o & E & J & Ho).
  { intros z _ _. exists z. reflexivity. }
  exists tasks, o. split; auto. split; auto.
  destruct Ho as [->|(z & r & [Hz Fz] & Hnn & Er & ->)]; auto. right.
  cbn in Er. inversion Er; subst. auto.
Qed.

Theorem C21_sum_sound_2d nr_threads rows cols :
  w = true \/ ~ wide_signed T ->
  1 <= nr_threads -> 0 <= rows < 2 ^ 64 -> 0 <= cols ->
  (forall i, 0 <= i < rows * cols -> arg_exists ip a m i) ->
  let vs := valid_values ip a m (zrange 0 (rows * cols)) in
  let acc := sum_checked w T T (add_within_range T T) in
  Forall (fits_in T) vs ->
  exists tasks o, agg_tasks_2d acc nr_threads rows cols ip a = Some tasks /\ joins_to acc tasks op rb o m /\
    (o = NoData \/ o = Value (total vs) /\ vs <> [] /\ fits_in T (total vs)).
Proof.
  intros Sf Hn Hs Hc Hex vs acc HF.
  assert (S2 : safe_plus w T T) by (destruct Sf; [left|right]; auto).
  destruct (parallel_sound_2d acc (fits_in T) (sum_exact T) (sum_ex_init w T) (sum_ex_add w T S2)
    (sum_ex_first w T) (sum_ex_merge w T S2) ip op a rb m Hres Hmark nr_threads rows cols Hn Hs Hc Hex HF) as (tasks & o & E & J & Ho).
  { intros z _ _. exists z. reflexivity. }
  exists tasks, o. split; auto. split; auto.
  destruct Ho as [->|(z & r & [Hz Fz] & Hnn & Er & ->)]; auto. right.
  cbn in Er. inversion Er; subst. auto.
Qed.

(** For unsigned types the parallel result is that of sequential execution: the sum if it is
    representable, else no-data. *)
Corollary C21_sum_unsigned_1d nr_threads size :
  signed T = false ->
  1 <= nr_threads -> 0 <= size < 2 ^ 64 -> (forall i, 0 <= i < size -> arg_exists ip a m i) ->
  let vs := valid_values ip a m (zrange 0 size) in
  let acc := sum_checked w T T (add_within_range T T) in
  Forall (fits_in T) vs ->
  exists tasks, agg_tasks_1d acc nr_threads size ip a = Some tasks /\
    let o := match vs with
             | [] => NoData
             | _ => if total vs <=? imax T then Value (total vs) else NoData
             end in
    joins_to acc tasks op rb o m /\
    computes (aggregate_1d acc ip op a rb size) op rb 1 (fun _ => o) m.
Proof.
  intros U Hn Hs Hex vs acc HF.
  assert (NW : ~ wide_signed T) by (intros [E|E]; rewrite E in U; discriminate).
  assert (N : 0 <= total vs).
  { clear - U HF. induction HF as [|x l Hx _ IH]; [cbn; lia|].
    rewrite total_cons. pose proof (nonneg_unsigned T x U Hx). lia. }
  destruct (C20_sum_1d size (proj1 Hs) Hex HF) as (K1 & K2 & K3).
  destruct (C21_sum_sound_1d nr_threads size (or_intror NW) Hn Hs Hex HF) as (tasks & o & E & J & Ho).
  exists tasks. split; auto. cbv zeta. fold vs in K1, K2, K3, Ho.
  assert (EO : vs = [] \/ vs <> []) by (destruct vs; [left|right]; congruence).
  destruct EO as [Ev|Hnn].
  - rewrite Ev. split; [|auto]. destruct Ho as [->|(_ & C & _)]; [auto|congruence].
  - replace (match vs with [] => NoData | _ :: _ => if total vs <=? imax T then Value (total vs) else NoData end)
      with (if total vs <=? imax T then Value (total vs) else NoData)
      by (destruct vs; [congruence|reflexivity]).
    destruct (Z.leb_spec (total vs) (imax T)) as [L|L].
    + assert (F : fits_in T (total vs)) by (unfold fits_in; rewrite imin_unsigned; auto).
      assert (HR : runs_fit T vs) by (apply unsigned_runs; auto). split.
      * destruct (C21_sum_1d nr_threads size Hn Hs Hex HF HR) as (tasks' & E' & _ & J').
        rewrite E in E'. inversion E'; subst tasks'. apply J'; auto.
      * apply K2; auto. apply (runs_prefix T vs vs [] []); auto. now rewrite app_nil_r.
    + split.
      * destruct Ho as [->|(_ & _ & C)]; [auto|]. unfold fits_in in C. lia.
      * apply K3; auto. intros Hp. apply prefix_total in Hp; auto. unfold fits_in in Hp. lia.
Qed.

Corollary C21_sum_unsigned_2d nr_threads rows cols :
  signed T = false ->
  1 <= nr_threads -> 0 <= rows < 2 ^ 64 -> 0 <= cols ->
  (forall i, 0 <= i < rows * cols -> arg_exists ip a m i) ->
  let vs := valid_values ip a m (zrange 0 (rows * cols)) in
  let acc := sum_checked w T T (add_within_range T T) in
  Forall (fits_in T) vs ->
  exists tasks, agg_tasks_2d acc nr_threads rows cols ip a = Some tasks /\
    let o := match vs with
             | [] => NoData
             | _ => if total vs <=? imax T then Value (total vs) else NoData
             end in
    joins_to acc tasks op rb o m /\
    computes (aggregate_2d acc ip op a rb rows cols) op rb 1 (fun _ => o) m.
Proof.
  intros U Hn Hs Hc Hex vs acc HF.
  assert (NW : ~ wide_signed T) by (intros [E|E]; rewrite E in U; discriminate).
  assert (N : 0 <= total vs).
  { clear - U HF. induction HF as [|x l Hx _ IH]; [cbn; lia|].
    rewrite total_cons. pose proof (nonneg_unsigned T x U Hx). lia. }
  destruct (C20_sum_2d rows cols (proj1 Hs) Hc Hex HF) as (K1 & K2 & K3).
  destruct (C21_sum_sound_2d nr_threads rows cols (or_intror NW) Hn Hs Hc Hex HF) as (tasks & o & E & J & Ho).
  exists tasks. split; auto. cbv zeta. fold vs in K1, K2, K3, Ho.
  assert (EO : vs = [] \/ vs <> []) by (destruct vs; [left|right]; congruence).
  destruct EO as [Ev|Hnn].
  - rewrite Ev. split; [|auto]. destruct Ho as [->|(_ & C & _)]; [auto|congruence].
  - replace (match vs with [] => NoData | _ :: _ => if total vs <=? imax T then Value (total vs) else NoData end)
      with (if total vs <=? imax T then Value (total vs) else NoData)
      by (destruct vs; [congruence|reflexivity]).
    destruct (Z.leb_spec (total vs) (imax T)) as [L|L].
    + assert (F : fits_in T (total vs)) by (unfold fits_in; rewrite imin_unsigned; auto).
      assert (HR : runs_fit T vs) by (apply unsigned_runs; auto). split.
      * destruct (C21_sum_2d nr_threads rows cols Hn Hs Hc Hex HF HR) as (tasks' & E' & _ & J').
        rewrite E in E'. inversion E'; subst tasks'. apply J'; auto.
      * apply K2; auto. apply (runs_prefix T vs vs [] []); auto. now rewrite app_nil_r.
    + split.
      * destruct Ho as [->|(_ & _ & C)]; [auto|]. unfold fits_in in C. lia.
      * apply K3; auto. intros Hp. apply prefix_total in Hp; auto. unfold fits_in in Hp. lia.
Qed.

(** The mean with the range policy of [add]. *)
Theorem C21_mean_1d nr_threads size :
  1 <= nr_threads -> 0 <= size < 2 ^ 64 -> (forall i, 0 <= i < size -> arg_exists ip a m i) ->
  let vs := valid_values ip a m (zrange 0 size) in
  let acc := mean_checked w T T (add_within_range T T) in
  Forall (fits_in T) vs ->
  (forall us xs ws, vs = us ++ xs ++ ws -> fits_in T (total xs)) ->
  exists tasks, agg_tasks_1d acc nr_threads size ip a = Some tasks /\
    (vs = [] -> joins_to acc tasks op rb NoData m) /\
    (vs <> [] -> fits_in T (Z.of_nat (length vs)) -> Z.of_nat (length vs) < 2 ^ 64 ->
     joins_to acc tasks op rb (Value (Z.quot (total vs) (Z.of_nat (length vs)))) m).
Proof.
  intros Hn Hs Hex vs acc HF HR.
  destruct (C21_parallel_1d acc ip op a rb m Hres Hmark nr_threads size Hn Hs Hex (mean_mergeable w T vs HF HR))
    as (tasks & E & H1 & H2).
  exists tasks. split; auto. split; auto. intros Hnn Fl Bl.
  apply (H2 (total vs, conv U64 (Z.of_nat (length vs)))); auto.
  - apply (mean_accumulates w T vs 0 0 (fits_0 T) HF).
    apply (runs_prefix T vs vs [] []); auto. now rewrite app_nil_r.
  - apply (mean_exact_result w T vs); auto. split; [|reflexivity]. split; [reflexivity|].
    apply (HR [] vs []). now rewrite app_nil_r.
Qed.

Theorem C21_mean_2d nr_threads rows cols :
  1 <= nr_threads -> 0 <= rows < 2 ^ 64 -> 0 <= cols ->
  (forall i, 0 <= i < rows * cols -> arg_exists ip a m i) ->
  let vs := valid_values ip a m (zrange 0 (rows * cols)) in
  let acc := mean_checked w T T (add_within_range T T) in
  Forall (fits_in T) vs ->
  (forall us xs ws, vs = us ++ xs ++ ws -> fits_in T (total xs)) ->
  exists tasks, agg_tasks_2d acc nr_threads rows cols ip a = Some tasks /\
    (vs = [] -> joins_to acc tasks op rb NoData m) /\
    (vs <> [] -> fits_in T (Z.of_nat (length vs)) -> Z.of_nat (length vs) < 2 ^ 64 ->
     joins_to acc tasks op rb (Value (Z.quot (total vs) (Z.of_nat (length vs)))) m).
Proof.
  intros Hn Hs Hc Hex vs acc HF HR.
  destruct (C21_parallel_2d acc ip op a rb m Hres Hmark nr_threads rows cols Hn Hs Hc Hex (mean_mergeable w T vs HF HR))
    as (tasks & E & H1 & H2).
  exists tasks. split; auto. split; auto. intros Hnn Fl Bl.
  apply (H2 (total vs, conv U64 (Z.of_nat (length vs)))); auto.
  - apply (mean_accumulates w T vs 0 0 (fits_0 T) HF).
    apply (runs_prefix T vs vs [] []); auto. now rewrite app_nil_r.
  - apply (mean_exact_result w T vs); auto. split; [|reflexivity]. split; [reflexivity|].
    apply (HR [] vs []). now rewrite app_nil_r.
Qed.

(** Without range policy only the sum of all values needs to be representable. *)
Theorem C21_mean_unchecked_1d nr_threads size :
  w = true \/ ~ wide_signed T ->
  1 <= nr_threads -> 0 <= size < 2 ^ 64 -> (forall i, 0 <= i < size -> arg_exists ip a m i) ->
  let vs := valid_values ip a m (zrange 0 size) in
  let acc := mean_checked w T T discard_range_errors in
  Forall (fits_in T) vs -> fits_in T (total vs) ->
  exists tasks, agg_tasks_1d acc nr_threads size ip a = Some tasks /\
    (vs = [] -> joins_to acc tasks op rb NoData m) /\
    (vs <> [] -> fits_in T (Z.of_nat (length vs)) -> Z.of_nat (length vs) < 2 ^ 64 ->
     joins_to acc tasks op rb (Value (Z.quot (total vs) (Z.of_nat (length vs)))) m).
Proof.
  intros Sf Hn Hs Hex vs acc HF HR.
  assert (S2 : safe_plus w T T) by (destruct Sf; [left|right]; auto).
  destruct (discard_mean_all w T S2) as (HRel & HD & HM).
  destruct (C21_parallel_1d acc ip op a rb m Hres Hmark nr_threads size Hn Hs Hex (HM vs HF))
    as (tasks & E & H1 & H2).
  exists tasks. split; auto. split; auto. intros Hnn Fl Bl.
  destruct (HD vs HF) as [x Hx]. apply (H2 x); auto.
  apply (mean_result_exact T vs); auto.
Qed.

Theorem C21_mean_unchecked_2d nr_threads rows cols :
  w = true \/ ~ wide_signed T ->
  1 <= nr_threads -> 0 <= rows < 2 ^ 64 -> 0 <= cols ->
  (forall i, 0 <= i < rows * cols -> arg_exists ip a m i) ->
  let vs := valid_values ip a m (zrange 0 (rows * cols)) in
  let acc := mean_checked w T T discard_range_errors in
  Forall (fits_in T) vs -> fits_in T (total vs) ->
  exists tasks, agg_tasks_2d acc nr_threads rows cols ip a = Some tasks /\
    (vs = [] -> joins_to acc tasks op rb NoData m) /\
    (vs <> [] -> fits_in T (Z.of_nat (length vs)) -> Z.of_nat (length vs) < 2 ^ 64 ->
     joins_to acc tasks op rb (Value (Z.quot (total vs) (Z.of_nat (length vs)))) m).
Proof.
  intros Sf Hn Hs Hc Hex vs acc HF HR.
  assert (S2 : safe_plus w T T) by (destruct Sf; [left|right]; auto).
  destruct (discard_mean_all w T S2) as (HRel & HD & HM).
  destruct (C21_parallel_2d acc ip op a rb m Hres Hmark nr_threads rows cols Hn Hs Hc Hex (HM vs HF))
    as (tasks & E & H1 & H2).
  exists tasks. split; auto. split; auto. intros Hnn Fl Bl.
  destruct (HD vs HF) as [x Hx]. apply (H2 x); auto.
  apply (mean_result_exact T vs); auto.
Qed.

End Stat.

(** For signed types the parallel result can differ from the sequential one: the int8 values
    -100, -20, 120, 100 have sum 100, and so says sequential execution.  Two threads sum
    -100, -20 and 120, 100; the latter leaves the range and the result is no-data. *)
Theorem C21_signed_sum_refuted :
  exists (acc : accu Z Z) (m : mem Z) tasks sched m',
    acc = sum_checked true S8 S8 (add_within_range S8 S8) /\
    values_of (run (aggregate_1d acc SkipNoData (MarkByMask 1 true) 0 1 4) m) 1 1 = [Some 100] /\
    mask_of (run (aggregate_1d acc SkipNoData (MarkByMask 1 true) 0 1 4) m) 1 1 = [Some false] /\
    agg_tasks_1d acc 2 4 SkipNoData 0 = Some tasks /\
    exec sched tasks m = Some ([Ret (true, true, -120); Ret (true, false, -36)], m') /\
    mask_of (run (agg_join acc (MarkByMask 1 true) 1 [(true, true, -120); (true, false, -36)]) m') 1 1
      = [Some true].
Proof.
  exists (sum_checked true S8 S8 (add_within_range S8 S8)),
    (mem_of [[-100; -20; 120; 100]; [0]] [[]; [false]]).
  eexists. exists (concat (repeat [0; 1]%nat 10)). eexists. repeat split.
Qed.

(** With an argument type narrower than the result type (not reachable through
    [statistic::sum], but through [unary_aggregate_operation]), merging converts the sum of a
    block to the argument type: four uint8 values 150 summed into a uint64 by two threads give
    88 instead of 600. *)
Theorem C21_sum_narrowing_refuted :
  exists (acc : accu Z Z) (m : mem Z) tasks sched m',
    acc = sum_checked true U8 U64 (add_within_range U64 U8) /\
    values_of (run (aggregate_1d acc SkipNoData (MarkByMask 1 true) 0 1 4) m) 1 1 = [Some 600] /\
    agg_tasks_1d acc 2 4 SkipNoData 0 = Some tasks /\
    exec sched tasks m = Some ([Ret (true, true, 300); Ret (true, true, 300)], m') /\
    let join := run (agg_join acc (MarkByMask 1 true) 1 [(true, true, 300); (true, true, 300)]) m' in
    mask_of join 1 1 = [Some false] /\ values_of join 1 1 = [Some 88].
Proof.
  exists (sum_checked true U8 U64 (add_within_range U64 U8)),
    (mem_of [[150; 150; 150; 150]; [0]] [[]; [false]]).
  eexists. exists (concat (repeat [0; 1]%nat 10)). eexists. repeat split.
Qed.

(** Non-vacuity: int16 values with a no-data element, summed by two threads. *)
Example C21_case :
  let acc := sum_checked false S16 S16 (add_within_range S16 S16) in
  let m := mem_of [[30000; -29000; 7; 500]; [0]] [[false; false; true; false]; [false]] in
  valid_values (DetectByMask 0 true) 0 m (zrange 0 4) = [30000; -29000; 500] /\
  (forall us xs ws, [30000; -29000; 500] = us ++ xs ++ ws -> fits_in S16 (total xs)) /\
  exists tasks m', agg_tasks_1d acc 2 4 (DetectByMask 0 true) 0 = Some tasks /\
    exec (concat (repeat [0; 1]%nat 10)) tasks m = Some ([Ret (true, true, 1000); Ret (true, true, 500)], m') /\
    values_of (run (agg_join acc (MarkByMask 1 true) 1 [(true, true, 1000); (true, true, 500)]) m') 1 1
      = [Some 1500].
Proof.
  split; [reflexivity|]. split.
  - intros us xs ws E.
    let rec go xs := destruct xs; [unfold fits_in; cbn; lia|
       first [discriminate E|injection E as <- E; go xs]] in
    let rec skip us := destruct us; [go xs|first [discriminate E|injection E as <- E; skip us]] in
    skip us.
  - eexists. eexists. repeat split.
Qed.
Print Assumptions C20_sum_1d.
Print Assumptions C20_sum_2d.
Print Assumptions C20_mean_1d.
Print Assumptions C21_min_1d.
Print Assumptions C21_max_1d.
Print Assumptions C21_min_2d.
Print Assumptions C21_max_2d.
Print Assumptions C21_sum_unchecked_1d.
Print Assumptions C21_sum_1d.
Print Assumptions C21_sum_2d.
Print Assumptions C21_sum_sound_1d.
Print Assumptions C21_sum_sound_2d.
Print Assumptions C21_sum_unsigned_1d.
Print Assumptions C21_sum_unsigned_2d.
Print Assumptions C21_mean_1d.
Print Assumptions C21_mean_2d.
Print Assumptions C21_mean_unchecked_1d.
Print Assumptions C21_mean_unchecked_2d.
Print Assumptions C21_signed_sum_refuted.
Print Assumptions C21_sum_narrowing_refuted.
