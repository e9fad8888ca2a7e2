(** * Property C95: the minimum, the maximum and the range of floating point numbers *)
From Coq Require Import ZArith List Bool Lia SpecFloat.
From Verif Require Import LangModel LangProofs ConcModel IndexSpec LoopModel LoopSpec PolicyModel LocalModel LocalSpec LocalProps ExampleMem
  IntsModel FloatModel IeeeSpec IeeeProofs FloatSpec FloatProofs FloatProps AccumModel AggModel AggSpec AggProps
  FloatAccumModel FloatAccumSpec FloatAccumProofs.
Import ListNotations.
Open Scope Z_scope.

Section C95.
Variables (f : fmt) (ip : inpol spec_float) (op : outpol spec_float) (a rb : buf) (m : mem spec_float) (size : Z).
Hypothesis Hres : result_exists op rb m 0.
Hypothesis Hmark : marks_result op rb.
Hypothesis Hsize : 0 <= size < 2 ^ 64.
Hypothesis Hex : forall i, 0 <= i < size -> arg_exists ip a m i.
Let vs := valid_values ip a m (zrange 0 size).
Hypothesis Hvs : floats f vs.

(** NaN is ignored: the minimum is the first of the smallest values that are not NaN, for
    every layout, every number of threads and every schedule.  But if all are NaN or infinite, it
    is the largest finite number, which need not be one of the values. *)
Theorem C95_minimum :
  (vs = [] -> aggregates_to (fmin_accu f) ip op a rb m size NoData) /\
  (vs <> [] -> exists r, aggregates_to (fmin_accu f) ip op a rb m size (Value r) /\
     ((exists v, List.In v vs /\ is_nan v = false /\ v <> plus_infinity) -> smallest f vs r) /\
     ((forall v, List.In v vs -> is_nan v = true \/ v = plus_infinity) -> is_largest f r)).
Proof.
  assert (M := min_mergeable f vs Hvs). split.
  - intros E. apply everywhere_nothing; auto.
  - intros N. destruct (min_result f vs Hvs) as (_ & R). eexists. split; [|exact R].
    eapply (everywhere_value (fmin_accu f) ip op a rb m size Hres Hmark Hsize Hex M); [exact N| |reflexivity].
    apply (pick_accumulates (fun x y => SFltb x y)); auto.
Qed.

Theorem C95_maximum :
  (vs = [] -> aggregates_to (fmax_accu f) ip op a rb m size NoData) /\
  (vs <> [] -> exists r, aggregates_to (fmax_accu f) ip op a rb m size (Value r) /\
     ((exists v, List.In v vs /\ is_nan v = false /\ v <> minus_infinity) -> greatest f vs r) /\
     ((forall v, List.In v vs -> is_nan v = true \/ v = minus_infinity) -> is_lowest f r)).
Proof.
  assert (M := max_mergeable f vs Hvs). split.
  - intros E. apply everywhere_nothing; auto.
  - intros N. destruct (max_result f vs Hvs) as (_ & R). eexists. split; [|exact R].
    eapply (everywhere_value (fmax_accu f) ip op a rb m size Hres Hmark Hsize Hex M); [exact N| |reflexivity].
    apply (pick_accumulates (fun x y => SFltb y x)); auto.
Qed.

(** The range of values that are numbers is the number nearest to the difference of the greatest
    and the smallest, or infinity if that is too large. *)
Theorem C95_range :
  vs <> [] -> (forall v, List.In v vs -> is_finite v = true) ->
  exists lo hi r, smallest f vs lo /\ greatest f vs hi /\ aggregates_to (frange_accu f) ip op a rb m size (Value r) /\
    ((nearest f (fvalue f hi - fvalue f lo) 1 r /\ ~ overflows f (fvalue f hi - fvalue f lo) 1) \/
     (r = plus_infinity /\ overflows f (fvalue f hi - fvalue f lo) 1)).
Proof.
  intros N F. assert (M := range_mergeable f vs Hvs).
  destruct (min_result f vs Hvs) as (L1 & L2 & _). destruct (max_result f vs Hvs) as (H1 & H2 & _).
  set (lo := fold_left std_min vs (numeric_max f)) in *. set (hi := fold_left std_max vs (numeric_lowest f)) in *.
  assert (I : exists v, List.In v vs /\ is_finite v = true) by (destruct vs as [|v l]; [congruence|exists v; split; [left; auto|apply F; left; auto]]).
  destruct I as (v & V & FV).
  assert (L : smallest f vs lo) by (apply L2; exists v; split; auto; destruct v; try discriminate; split; auto; discriminate).
  assert (H : greatest f vs hi) by (apply H2; exists v; split; auto; destruct v; try discriminate; split; auto; discriminate).
  assert (Lf : is_finite lo = true) by (destruct L as (_ & (us & ws & E & _) & _); apply F; rewrite E; apply in_or_app; right; left; auto).
  assert (Hf : is_finite hi = true) by (destruct H as (_ & (us & ws & E & _) & _); apply F; rewrite E; apply in_or_app; right; left; auto).
  exists lo, hi, (SFsub (fprec f) (femax f) hi lo). split; auto. split; auto. split.
  - eapply (everywhere_value (frange_accu f) ip op a rb m size Hres Hmark Hsize Hex M); [exact N|apply range_accumulates; reflexivity|]. reflexivity.
  - assert (R := sub_rounding f hi lo (conj H1 Hf) (conj L1 Lf)). destruct R as [RF [[T E]|[T C]]].
    + right. rewrite overflows_iff. split; auto. rewrite E. unfold plus_infinity. f_equal. apply Z.ltb_ge.
      destruct H as (_ & _ & G). specialize (G lo). assert (In lo vs) by (destruct L as (_ & (us & ws & E' & _) & _); rewrite E'; apply in_or_app; right; left; auto).
      assert (NL : is_nan lo = false) by apply L. specialize (G H NL). unfold below in G.
      assert (rank lo = 0) by (destruct lo; try discriminate; auto). assert (rank hi = 0) by (destruct hi; try discriminate; auto). lia.
    + left. rewrite overflows_iff. split; auto. apply nearest_iff. exact C.
Qed.
End C95.
Print Assumptions C95_minimum.
Print Assumptions C95_maximum.
Print Assumptions C95_range.

(** The elementwise minimum and maximum of two rasters: of two values that are not NaN, one that is
    not greater (less) than the other, the first if they compare equal; if one of them is NaN, the first. *)
Theorem C95_pairs f ip1 ip2 c nd a1 a2 rb m rows cols :
  0 <= rows -> 0 <= cols -> a1 <> rb -> a2 <> rb ->
  (forall i, 0 <= i < rows * cols ->
     arg_exists ip1 a1 m i /\ arg_exists ip2 a2 m i /\ result_exists (MarkByMask c nd) rb m i) ->
  exists m1 m2,
    run (binary_2d_2d fbinary_min every_pair every_result ip1 ip2 (MarkByMask c nd) a1 a2 rb cols (whole2 rows cols)) m = Some (tt, m1) /\
    run (binary_2d_2d fbinary_max every_pair every_result ip1 ip2 (MarkByMask c nd) a1 a2 rb cols (whole2 rows cols)) m = Some (tt, m2) /\
    forall i, 0 <= i < rows * cols ->
      (forall x y, arg_at ip1 a1 m i = Some x -> arg_at ip2 a2 m i = Some y ->
         mmsk m1 c i = mmsk m c i /\ mmsk m2 c i = mmsk m c i /\
         exists lo hi, mval m1 rb i = Some lo /\ mval m2 rb i = Some hi /\
           (is_nan x = true \/ is_nan y = true -> lo = x /\ hi = x) /\
           (is_float (fprec f) (femax f) x -> is_float (fprec f) (femax f) y -> is_nan x = false -> is_nan y = false ->
              (below f x y -> lo = x /\ hi = y) /\ (below f y x -> lo = y /\ hi = x) /\ (alike f x y -> lo = x /\ hi = x))) /\
      (arg_at ip1 a1 m i = None \/ arg_at ip2 a2 m i = None -> mmsk m1 c i = Some nd /\ mmsk m2 c i = Some nd).
Proof.
  intros Hr Hc H1 H2 Hex.
  destruct (C05_binary_2d_2d fbinary_min every_pair every_result ip1 ip2 (MarkByMask c nd) a1 a2 rb m rows cols Hr Hc I H1 H2 Hex) as (m1 & R1 & P1 & _).
  destruct (C05_binary_2d_2d fbinary_max every_pair every_result ip1 ip2 (MarkByMask c nd) a1 a2 rb m rows cols Hr Hc I H1 H2 Hex) as (m2 & R2 & P2 & _).
  exists m1, m2. split; auto. split; auto. intros i Hi.
  destruct (P1 i Hi) as [V1 M1]. destruct (P2 i Hi) as [V2 M2]. specialize (M1 c eq_refl). specialize (M2 c eq_refl).
  destruct (Hex i Hi) as (_ & _ & E3 & E4). destruct (mval m rb i) as [old|] eqn:OV; [|contradiction].
  cbn [result_exists] in E4. destruct (mmsk m c i) as [b|] eqn:OM; [|exfalso; apply E4; auto].
  cbn [option_map] in *. split.
  - intros x y X Y. rewrite X, Y in *. cbn [binary_outcome every_pair every_result final_value final_mask] in *.
    split; auto. split; auto. exists (fbinary_min x y), (fbinary_max x y). split; auto. split; auto. unfold fbinary_min, fbinary_max, std_min, std_max. split.
    + intros [N|N]; rewrite (nan_is _ N), ?ltb_nan_l, ?ltb_nan_r; auto.
    + intros FX FY NX NY. destruct (order_exclusive f x y) as (O1 & O2 & O3).
      assert (L1 := ltb_below f x y FX FY NX NY). assert (L2 := ltb_below f y x FY FX NY NX).
      destruct (SFltb x y), (SFltb y x); split; [|split| |split| |split| |split]; intros B; auto; exfalso; intuition congruence.
  - intros [N|N]; rewrite N in *; unfold binary_outcome in *; [|destruct (arg_at ip1 a1 m i)]; cbn [final_mask] in *; auto.
Qed.
Print Assumptions C95_pairs.

(** *** Cases *)
Definition f64_one := S754_finite false 4503599627370496 (-52).
Definition f64_two := S754_finite false 4503599627370496 (-51).
Definition f64_max := S754_finite false 9007199254740991 971.

Example C95_case :
  let run_min l := run (aggregate_1d (fmin_accu Double) SkipNoData (MarkByMask 1 true) 0 1 (Z.of_nat (length l))) (mem_of [l; [f64_two]] [[]; [false]]) in
  let run_max l := run (aggregate_1d (fmax_accu Double) SkipNoData (MarkByMask 1 true) 0 1 (Z.of_nat (length l))) (mem_of [l; [f64_two]] [[]; [false]]) in
  let l := [S754_nan; f64_two; S754_infinity false; S754_zero true; S754_nan; f64_one; S754_zero false] in
  floats Double l /\
  values_of (run_min l) 1 1 = [Some (S754_zero true)] /\ values_of (run_max l) 1 1 = [Some (S754_infinity false)] /\
  values_of (run (aggregate_1d (frange_accu Double) SkipNoData (MarkByMask 1 true) 0 1 3) (mem_of [[f64_two; S754_zero true; f64_one]; [f64_one]] [[]; [false]])) 1 1
    = [Some f64_two].
Proof. split; [repeat constructor|]. repeat split; vm_compute; reflexivity. Qed.

(** "The minimum is one of the values": not of NaNs only, nor of infinities only; and the result is
    not marked. *)
Theorem C95_minimum_refuted :
  exists l, l <> [] /\ floats Double l /\
    let r := run (aggregate_1d (fmin_accu Double) SkipNoData (MarkByMask 1 true) 0 1 (Z.of_nat (length l))) (mem_of [l; [f64_two]] [[]; [false]]) in
    values_of r 1 1 = [Some f64_max] /\ mask_of r 1 1 = [Some false] /\ ~ List.In f64_max l.
Proof.
  exists [S754_nan; S754_infinity false]. split; [discriminate|]. split; [repeat constructor|]. split; [vm_compute; reflexivity|].
  split; [vm_compute; reflexivity|]. intros [E|[E|[]]]; discriminate.
Qed.
Print Assumptions C95_minimum_refuted.

(** The range of NaNs only is minus infinity. *)
Theorem C95_range_refuted :
  let r := run (aggregate_1d (frange_accu Double) SkipNoData (MarkByMask 1 true) 0 1 2) (mem_of [[S754_nan; S754_nan]; [f64_two]] [[]; [false]]) in
  values_of r 1 1 = [Some minus_infinity] /\ mask_of r 1 1 = [Some false].
Proof. split; vm_compute; reflexivity. Qed.
Print Assumptions C95_range_refuted.

(** "The order of the two arguments does not matter": with NaN, and with zeros, it does. *)
Theorem C95_order_refuted :
  let m := mem_of [[S754_nan; f64_one; S754_zero true]; [f64_one; S754_nan; S754_zero false]; [f64_two; f64_two; f64_two]] [[false; false; false]] in
  let r a1 a2 := values_of (run (binary_2d_2d fbinary_min every_pair every_result SkipNoData SkipNoData (MarkByMask 0 true) a1 a2 2 3 (whole2 1 3)) m) 2 3 in
  r 0%nat 1%nat = [Some S754_nan; Some f64_one; Some (S754_zero true)] /\
  r 1%nat 0%nat = [Some f64_one; Some S754_nan; Some (S754_zero false)].
Proof. split; vm_compute; reflexivity. Qed.
Print Assumptions C95_order_refuted.

(** "An accumulator that is constructed from its first value is one to which it is added": one
    constructed from NaN stays NaN, whatever is added; one to which NaN is added ignores it. *)
Theorem C95_constructed_refuted f :
  (forall vs, accumulates (fmin_accu f) S754_nan vs S754_nan /\ accumulates (fmax_accu f) S754_nan vs S754_nan) /\
  a_from (fmin_accu f) S754_nan = Some S754_nan /\ a_from (fmax_accu f) S754_nan = Some S754_nan /\
  (forall vs x, accumulates (fmin_accu f) (a_init (fmin_accu f)) (S754_nan :: vs) x <-> accumulates (fmin_accu f) (a_init (fmin_accu f)) vs x) /\
  (forall vs x, accumulates (fmax_accu f) (a_init (fmax_accu f)) (S754_nan :: vs) x <-> accumulates (fmax_accu f) (a_init (fmax_accu f)) vs x).
Proof.
  assert (K1 : forall v, std_min S754_nan v = S754_nan) by (intros; unfold std_min; rewrite ltb_nan_r; auto).
  assert (K2 : forall v, std_max S754_nan v = S754_nan) by (intros; unfold std_max; rewrite ltb_nan_l; auto).
  assert (K3 : forall v, std_min v S754_nan = v) by (intros; unfold std_min; rewrite ltb_nan_l; auto).
  assert (K4 : forall v, std_max v S754_nan = v) by (intros; unfold std_max; rewrite ltb_nan_r; auto).
  assert (A1 := fun vs x y => pick_accumulates (fun x y => SFltb x y) (fmin_accu f) (fun _ _ => eq_refl) vs x y).
  assert (A2 := fun vs x y => pick_accumulates (fun x y => SFltb y x) (fmax_accu f) (fun _ _ => eq_refl) vs x y).
  split; [|split; [reflexivity|split; [reflexivity|split]]].
  - intros vs. rewrite A1, A2. change (pick (fun x y => SFltb x y)) with std_min. change (pick (fun x y => SFltb y x)) with std_max.
    induction vs as [|v vs IH]; cbn [fold_left]; auto. rewrite K1, K2. exact IH.
  - intros vs x. rewrite !A1. change (pick (fun x y => SFltb x y)) with std_min. cbn [fold_left]. rewrite K3. tauto.
  - intros vs x. rewrite !A2. change (pick (fun x y => SFltb y x)) with std_max. cbn [fold_left]. rewrite K4. tauto.
Qed.
Print Assumptions C95_constructed_refuted.
