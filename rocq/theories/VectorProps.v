(** * C59, C60, C61: slope, laplacian and lax *)
From Coq Require Import ZArith List Bool Lia QArith Qcanon.
From Verif Require Import LangModel LangProofs ConcModel IndexModel IndexSpec IndexProofs LoopModel LoopSpec
  LoopProofs PolicyModel LocalModel LocalSpec LocalProofs CoreSpec CopySpec ConvolveModel ConvolveSpec
  ConvolveProofs PoolModel PoolSpec PoolProps VectorModel VectorSpec VectorProofs
  VectorExactSpec VectorExact ExampleMem.
Import ListNotations.
Open Scope Z_scope.

Lemma cell_of rows cols f : in_image rows cols f = true ->
  0 <= linear cols f < rows * cols /\ (linear cols f / cols, linear cols f mod cols) = f.
Proof.
  intros H. apply in_image_spec in H. destruct f as [i j]. unfold linear. cbn [fst snd] in *.
  split; [nia|]. rewrite Z.add_comm, Z.div_add, Z.mod_add by lia.
  rewrite Z.div_small, Z.mod_small by lia. reflexivity.
Qed.

Lemma seen_masked {V} b (m : mem V) i (o : option V) : mval m b i <> None ->
  (if masked b m i then None else o) = also (seen b m i) (fun _ => o).
Proof.
  intros H. unfold seen, arg_at, masked. destruct (nd_at _ _ _); [reflexivity|].
  destruct (mval m b i); [reflexivity|congruence].
Qed.

(** ** Executing several algorithms one after the other *)

(** The thread pool executes such calls to the end, with that memory, whatever the schedule. *)
Theorem C59_by_the_pool : forall (V : Type) (calls : list (call V)) m m1 n destroy sched,
  leaves calls m m1 -> (1 <= n)%nat -> fair n sched ->
  exists l, submitted (Z.of_nat n) calls = Some l /\
  exists t s, pool_run (first_choices t sched) (pool_init n (program n l destroy) m) = Some s /\
    p_script s = [] /\ mem_eq (p_mem s) m1.
Proof.
  intros V calls m m1 n destroy sched [_ H] Hn Hf. destruct (H (Z.of_nat n)) as (l & El & Y); [lia|].
  exists l. split; [exact El|].
  assert (Nf : forall l m, yields_in_turn l m m1 -> never_fault l m).
  { clear. induction l as [|[tasks join] l IH]; intros m; [constructor|]. intros [_ Y]. cbn [never_fault]. split.
    - intros sc. destruct (Y sc) as (ps & m2 & E & _). congruence.
    - intros sc ps m2 E D. destruct (Y sc) as (ps' & m2' & E' & K & _). rewrite E in E'. injection E' as <- <-.
      destruct (K D) as (m3 & R & Y3). eauto. }
  assert (Ef : forall l m m2, yields_in_turn l m m1 -> effects l m m2 -> mem_eq m2 m1).
  { clear. induction l as [|[tasks join] l IH]; intros m m2 Y E.
    - inversion E; subst. cbn in Y. exact Y.
    - inversion E as [|tasks' join' l' m' m3 m4 m5 sc ps X1 X2 X3 X4]; subst.
      destruct Y as [_ Y]. destruct (Y sc) as (ps' & m2' & E' & K & _). rewrite X1 in E'. injection E' as <- <-.
      destruct (K X2) as (m6 & R & Y5). rewrite X3 in R. injection R as <-. eauto. }
  destruct (C28_calls_return V n l destroy m sched Hn (Nf l m Y) Hf) as (t & s & A & B & C & _).
  exists t, s. split; [exact A|]. split; [exact B|]. eapply Ef; eauto.
Qed.
Print Assumptions C59_by_the_pool.

(** ** C59: slope *)

(** With policies that detect no-data in any way and that mark it in the mask of the result. *)
Theorem C59_slope : forall (V SV SW : Type) (fl : floats V) (ar : arith V V SV SW) rows cols ip
    value result dz_dx dz_dy eight_x eight_y two cell_size m,
  slope_arguments fl rows cols ip value result dz_dx dz_dy eight_x eight_y two cell_size m ->
  stored (rows * cols) HasMask result m ->
  fresh (rows * cols) HasMask dz_dx m -> fresh (rows * cols) HasMask dz_dy m ->
  exists m1, leaves (slope_calls fl rows cols ar HasMask HasMask ip (MarkByMask result true)
      value result dz_dx dz_dy eight_x eight_y two) m m1 /\
    changes_buffers [result; dz_dx; dz_dy] m m1 /\
    forall f, in_image rows cols f = true ->
      let i := linear cols f in
      seen result m1 i = also (seen result m i) (fun _ =>
        slope_at fl ar ip value rows cols m (cell_size 0) (cell_size 1) f) /\
      (value_at ip value cols m f = None -> mval m1 result i = mval m result i).
Proof.
  intros V SV SW fl ar rows cols ip value result dz_dx dz_dy eight_x eight_y two cell_size m
    (Hr & Hc & Hd & Hip & Hs & Ha) Sr Fx Fy.
  destruct (slope_marking fl rows cols Hr Hc ar ip value result dz_dx dz_dy eight_x eight_y two cell_size m
    Hd Hip Hs Ha Sr Fx Fy) as (m1 & L & [_ T] & H).
  exists m1. split; [exact L|]. split; [exact T|]. intros f Hf i. destruct (cell_of rows cols f Hf) as [Hi E].
  destruct (H i Hi) as [H1 H2]. unfold i in *. rewrite E in H1. split.
  - rewrite H1. apply seen_masked. apply Sr. exact Hi.
  - intros N. apply H2. unfold value_at, arg_at in N. destruct (nd_at ip m (linear cols f)); [reflexivity|].
    destruct (Ha _ Hi) as [_ Hv]. congruence.
Qed.
Print Assumptions C59_slope.

(** Without an output no-data policy, whatever the types of the collections. *)
Theorem C59_without_marking : forall (V SV SW : Type) (fl : floats V) (ar : arith V V SV SW) rows cols ip
    st_value st_result value result dz_dx dz_dy eight_x eight_y two cell_size m,
  slope_arguments fl rows cols ip value result dz_dx dz_dy eight_x eight_y two cell_size m ->
  stored (rows * cols) st_result result m ->
  fresh (rows * cols) st_value dz_dx m -> fresh (rows * cols) st_value dz_dy m ->
  zeros fl (rows * cols) dz_dx m -> zeros fl (rows * cols) dz_dy m ->
  exists m1, leaves (slope_calls fl rows cols ar st_value st_result ip DontMarkNoData
      value result dz_dx dz_dy eight_x eight_y two) m m1 /\
    changes_buffers [result; dz_dx; dz_dy] m m1 /\ (forall b i, mmsk m1 b i = mmsk m b i) /\
    forall f, in_image rows cols f = true ->
      let i := linear cols f in
      let s := unchecked_sum fl ar ip value rows cols m (cell_size 0) (cell_size 1) f in
      mval m1 result i =
        Some (match st_result, mmsk m result i with HasMask, Some true => s | _, _ => fsqrt fl s end).
Proof.
  intros V SV SW fl ar rows cols ip st_value st_result value result dz_dx dz_dy eight_x eight_y two cell_size m
    (Hr & Hc & Hd & Hip & Hs & Ha) Sr Fx Fy Zx Zy.
  destruct (slope_plain fl rows cols Hr Hc ar ip value result dz_dx dz_dy eight_x eight_y two cell_size m
    Hd Hip Hs Ha st_value st_result Sr Fx Fy Zx Zy) as (m1 & L & [_ T] & M & H).
  exists m1. split; [exact L|]. split; [exact T|]. split; [exact M|]. intros f Hf i s.
  destruct (cell_of rows cols f Hf) as [Hi E]. specialize (H i Hi). unfold i in *. rewrite E in H. cbv zeta in H.
  rewrite H. fold s. destruct st_result; cbn; [reflexivity|].
  destruct (mmsk m result (linear cols f)) as [[|]|]; reflexivity.
Qed.
Print Assumptions C59_without_marking.

(** In exact arithmetic: the slope of a flat raster is zero at every valid cell, at the borders and next to
    no-data, too. *)
Theorem C59_flat : forall root rows cols ip value result dz_dx dz_dy eight_x eight_y two cell_size m v,
  slope_arguments (exact root) rows cols ip value result dz_dx dz_dy eight_x eight_y two cell_size m ->
  stored (rows * cols) HasMask result m ->
  fresh (rows * cols) HasMask dz_dx m -> fresh (rows * cols) HasMask dz_dy m ->
  cell_size 0 <> Q2Qc 0 -> cell_size 1 <> Q2Qc 0 ->
  raster_is ip value rows cols m (fun _ => v) ->
  exists m1, leaves (slope_calls (exact root) rows cols (exact_sums false) HasMask HasMask ip (MarkByMask result true)
      value result dz_dx dz_dy eight_x eight_y two) m m1 /\
    forall f, in_image rows cols f = true -> mmsk m result (linear cols f) = Some false ->
      seen result m1 (linear cols f) =
        match value_at ip value cols m f with Some _ => Some (root (Q2Qc 0)) | None => None end.
Proof.
  intros root rows cols ip value result dz_dx dz_dy eight_x eight_y two cell_size m v A Sr Fx Fy N0 N1 R.
  destruct (C59_slope _ _ _ (exact root) (exact_sums false) rows cols ip value result dz_dx dz_dy eight_x eight_y two cell_size m A Sr Fx Fy)
    as (m1 & L & _ & H).
  exists m1. split; [exact L|]. intros f Hf Hm. destruct (H f Hf) as [E _]. rewrite E.
  destruct (cell_of rows cols f Hf) as [Hi _]. destruct (Sr _ Hi) as [Hv _].
  unfold seen at 1, arg_at. cbn [nd_at]. rewrite Hm. cbn [Bool.eqb].
  destruct (mval m result (linear cols f)); [|congruence]. cbn [also].
  destruct (value_at ip value cols m f) eqn:Ev.
  - apply (slope_flat root ip value rows cols m v); auto. congruence.
  - unfold slope_at, squared_difference, weighted_sum, convolved.
    assert (En : nd_at ip m (linear cols f) = true).
    { unfold value_at, arg_at in Ev. destruct (nd_at ip m (linear cols f)); [reflexivity|].
      destruct A as (_ & _ & _ & _ & _ & Ha). destruct (Ha _ Hi) as [_ Hx]. congruence. }
    rewrite En. reflexivity.
Qed.
Print Assumptions C59_flat.

(** In exact arithmetic: if the heights around a cell that is not at the border are those of a plane that
    rises by [a] and [b] per unit of length, then the slope is the length of [(a, b)]. *)
Theorem C59_plane : forall root rows cols ip value result dz_dx dz_dy eight_x eight_y two cell_size m a b e f,
  slope_arguments (exact root) rows cols ip value result dz_dx dz_dy eight_x eight_y two cell_size m ->
  stored (rows * cols) HasMask result m ->
  fresh (rows * cols) HasMask dz_dx m -> fresh (rows * cols) HasMask dz_dy m ->
  cell_size 0 <> Q2Qc 0 -> cell_size 1 <> Q2Qc 0 ->
  1 <= fst f < rows - 1 -> 1 <= snd f < cols - 1 -> mmsk m result (linear cols f) = Some false ->
  (forall i j, Z.abs (i - fst f) <= 1 -> Z.abs (j - snd f) <= 1 ->
     value_at ip value cols m (i, j) =
     Some (a * (cell_size 0%Z * Q2Qc (inject_Z j)) + b * (cell_size 1%Z * Q2Qc (inject_Z i)) + e)%Qc) ->
  exists m1, leaves (slope_calls (exact root) rows cols (exact_sums false) HasMask HasMask ip (MarkByMask result true)
      value result dz_dx dz_dy eight_x eight_y two) m m1 /\
    seen result m1 (linear cols f) = Some (root (a * a + b * b)%Qc).
Proof.
  intros root rows cols ip value result dz_dx dz_dy eight_x eight_y two cell_size m a b e f A Sr Fx Fy N0 N1 F1 F2 Hm Hz.
  destruct (C59_slope _ _ _ (exact root) (exact_sums false) rows cols ip value result dz_dx dz_dy eight_x eight_y two cell_size m A Sr Fx Fy)
    as (m1 & L & _ & H).
  exists m1. split; [exact L|].
  assert (Hf : in_image rows cols f = true) by (apply in_image_spec; lia).
  destruct (H f Hf) as [E _]. rewrite E.
  destruct (cell_of rows cols f Hf) as [Hi _]. destruct (Sr _ Hi) as [Hv _].
  unfold seen at 1, arg_at. cbn [nd_at]. rewrite Hm. cbn [Bool.eqb].
  destruct (mval m result (linear cols f)); [|congruence]. cbn [also].
  apply (slope_plane root ip value rows cols m a b e (cell_size 0) (cell_size 1) f); auto.
  intros d Hd.
  assert (B : Z.abs (fst d) <= 1 /\ Z.abs (snd d) <= 1).
  { cbn in Hd. repeat destruct Hd as [<- | Hd]; cbn; try lia; destruct Hd. }
  destruct B as [B1 B2]. split; [apply in_image_spec; cbn [fst snd]; lia|]. apply Hz; cbn [fst snd]; lia.
Qed.
Print Assumptions C59_plane.

(** ** C60: laplacian *)
Theorem C60_laplacian : forall (V SV SW : Type) (fl : floats V) (ar : arith V V SV SW) rows cols ip
    value result defined defined_as_floats sum_of_weights multiplied zero area cell_area m,
  tells_weights_apart fl ar ->
  laplacian_arguments fl rows cols ip value result defined defined_as_floats sum_of_weights multiplied zero area cell_area m ->
  stored (rows * cols) HasMask result m -> fresh (rows * cols) HasMask multiplied m ->
  exists m1, leaves (laplacian_calls fl rows cols ar HasMask ip (MarkByMask result true)
      value result defined defined_as_floats sum_of_weights multiplied zero area) m m1 /\
    changes_buffers [result; defined; defined_as_floats; sum_of_weights; multiplied] m m1 /\
    forall f, in_image rows cols f = true ->
      let i := linear cols f in
      seen result m1 i = also (seen result m i) (fun _ => laplacian_at fl ar ip value rows cols m cell_area f) /\
      (value_at ip value cols m f = None -> mval m1 result i = mval m result i).
Proof.
  intros V SV SW fl ar rows cols ip value result defined defined_as_floats sum_of_weights multiplied zero area ca m
    (W0 & W2 & W3) (Hr & Hc & Hd & Hip & Hs & Ha & Ht) Sr Fm.
  destruct (laplacian_marking fl rows cols Hr Hc ar W0 W2 W3 ip value result defined defined_as_floats sum_of_weights
    multiplied zero area ca m Hd Hip Hs Ha Ht Sr Fm) as (m1 & L & [_ T] & H).
  exists m1. split; [exact L|]. split; [exact T|]. intros f Hf i. destruct (cell_of rows cols f Hf) as [Hi E].
  destruct (H i Hi) as [H1 H2]. unfold i in *. rewrite E in H1. split.
  - rewrite H1. apply seen_masked. apply Sr. exact Hi.
  - intros N. apply H2. unfold value_at, arg_at in N. destruct (nd_at ip m (linear cols f)); [reflexivity|].
    destruct (Ha _ Hi) as [_ Hv]. congruence.
Qed.
Print Assumptions C60_laplacian.

Theorem C60_without_marking : forall (V SV SW : Type) (fl : floats V) (ar : arith V V SV SW) rows cols ip st_result
    value result defined defined_as_floats sum_of_weights multiplied zero area cell_area m,
  tells_weights_apart fl ar ->
  laplacian_arguments fl rows cols ip value result defined defined_as_floats sum_of_weights multiplied zero area cell_area m ->
  stored (rows * cols) st_result result m -> fresh (rows * cols) st_result multiplied m ->
  zeros fl (rows * cols) multiplied m -> zeros fl (rows * cols) sum_of_weights m ->
  exists m1, leaves (laplacian_calls fl rows cols ar st_result ip DontMarkNoData
      value result defined defined_as_floats sum_of_weights multiplied zero area) m m1 /\
    changes_buffers [result; defined; defined_as_floats; sum_of_weights; multiplied] m m1 /\
    forall f old, in_image rows cols f = true ->
      let i := linear cols f in mval m result i = Some old ->
      mmsk m1 result i = mmsk m result i /\
      mval m1 result i = Some (
        match st_result, mmsk m result i with
        | HasMask, Some true => match combined fl ar ip value rows cols m f with Some s => s | None => old end
        | _, _ => laplacian_value fl ar ip value rows cols m cell_area f old
        end).
Proof.
  intros V SV SW fl ar rows cols ip st_result value result defined defined_as_floats sum_of_weights multiplied zero area ca m
    (W0 & W2 & W3) (Hr & Hc & Hd & Hip & Hs & Ha & Ht) Sr Fm Zm Zs.
  destruct (laplacian_plain fl rows cols Hr Hc ar W0 W2 W3 ip value result defined defined_as_floats sum_of_weights
    multiplied zero area ca m Hd Hip Hs Ha Ht st_result Sr Fm Zm Zs) as (m1 & L & [_ T] & H).
  exists m1. split; [exact L|]. split; [exact T|]. intros f old Hf i Ho. destruct (cell_of rows cols f Hf) as [Hi E].
  destruct (H i old Hi Ho) as [H1 H2]. unfold i in *. rewrite E in H2. split; [exact H1|]. rewrite H2.
  destruct st_result; cbn; [reflexivity|]. destruct (mmsk m result (linear cols f)) as [[|]|]; reflexivity.
Qed.
Print Assumptions C60_without_marking.

(** In exact arithmetic: the sum of the weighted differences with the valid values around the cell, divided by
    the area of a cell; so zero if they are all the same, and zero in the middle of a plane. *)
Theorem C60_differences : forall root ip value rows cols m area f v,
  value_at ip value cols m f = Some v -> around (exact root) ip value rows cols m f <> [] -> area <> Q2Qc 0 ->
  laplacian_at (exact root) (exact_sums false) ip value rows cols m area f =
  Some (fold_right (fun x s => snd x * (fst x - v) + s) (Q2Qc 0) (around (exact root) ip value rows cols m f) / area)%Qc.
Proof. intros. rewrite (laplacian_exact root ip value rows cols m area f v); auto. Qed.
Print Assumptions C60_differences.

Theorem C60_flat : forall root ip value rows cols m area f v,
  raster_is ip value rows cols m (fun _ => v) -> in_image rows cols f = true ->
  value_at ip value cols m f <> None -> around (exact root) ip value rows cols m f <> [] -> area <> Q2Qc 0 ->
  laplacian_at (exact root) (exact_sums false) ip value rows cols m area f = Some (Q2Qc 0).
Proof. intros root ip value rows cols m area f v. apply laplacian_flat. Qed.
Print Assumptions C60_flat.

Theorem C60_plane : forall root ip value rows cols m area a b e f,
  1 <= fst f < rows - 1 -> 1 <= snd f < cols - 1 -> area <> Q2Qc 0 ->
  (forall i j, Z.abs (i - fst f) <= 1 -> Z.abs (j - snd f) <= 1 ->
     value_at ip value cols m (i, j) = Some (a * Q2Qc (inject_Z j) + b * Q2Qc (inject_Z i) + e)%Qc) ->
  laplacian_at (exact root) (exact_sums false) ip value rows cols m area f = Some (Q2Qc 0).
Proof.
  intros root ip value rows cols m area a b e f F1 F2 Hn Hz.
  apply (laplacian_plane root ip value rows cols m a b e area f); auto.
  intros d Hd.
  assert (B : Z.abs (fst d) <= 1 /\ Z.abs (snd d) <= 1).
  { cbn in Hd. repeat destruct Hd as [<- | Hd]; cbn; try lia; destruct Hd. }
  destruct B as [B1 B2]. split; [apply in_image_spec; cbn [fst snd]; lia|]. apply Hz; cbn [fst snd]; lia.
Qed.
Print Assumptions C60_plane.

(** ** C61: lax *)

(** Whether no-data is marked in the mask of the result or not at all.  The value of the result is calculated
    even if it is marked. *)
Theorem C61_lax : forall (V SV SW : Type) (fl : floats V) (ar : arith V V SV SW) rows cols ip op
    value result multiplied fraction rest fr m,
  tells_weights_apart fl ar ->
  lax_arguments fl rows cols ip value result multiplied fraction rest fr m ->
  op = DontMarkNoData \/ op = MarkByMask result true ->
  (forall i, 0 <= i < rows * cols -> result_exists op result m i) ->
  exists m1, leaves (lax_calls fl rows cols ar ip op value result multiplied fraction rest) m m1 /\
    changes_buffers [result; multiplied] m m1 /\
    forall f v old, in_image rows cols f = true ->
      let i := linear cols f in mval m value i = Some v -> mval m result i = Some old ->
      mval m1 result i = Some (match value_at ip value cols m f with
        | Some v => lax_value fl ar ip value rows cols m fr f v old
        | None => old end) /\
      (op = MarkByMask result true ->
         seen result m1 i = also (seen result m i) (fun _ => lax_at fl ar ip value rows cols m fr f)).
Proof.
  intros V SV SW fl ar rows cols ip op value result multiplied fraction rest fr m
    (W0 & W2 & W3) (Hr & Hc & Hd & Hip & Hs & Ha) Hop Hres.
  assert (Hex : forall i, 0 <= i < rows * cols ->
    arg_exists ip value m i /\ result_exists op result m i /\ mval m multiplied i <> None).
  { intros i Hi. destruct (Ha i Hi). auto. }
  destruct (lax_steps fl rows cols Hr Hc ar W0 W2 W3 ip op value result multiplied fraction rest fr m Hd Hip Hop Hs Hex)
    as (m1 & L & [_ T] & H).
  exists m1. split; [exact L|]. split; [exact T|]. intros f v old Hf i Hv Ho.
  destruct (cell_of rows cols f Hf) as [Hi E]. destruct (H i v old Hi Hv Ho) as [H1 H2]. unfold i in *. rewrite E in H1, H2.
  split.
  - rewrite H1. unfold value_at, arg_at. rewrite Hv. destruct (nd_at ip m (linear cols f)); reflexivity.
  - intros Eo. specialize (H2 Eo). destruct (Hres _ Hi) as [_ R]. rewrite Eo in R. cbn in R.
    destruct (mmsk m result (linear cols f)) as [x|] eqn:Ex; [|congruence]. specialize (H2 x eq_refl).
    unfold seen, arg_at. cbn [nd_at]. rewrite H2, H1, Ex, Ho. destruct x; [reflexivity|]. cbn [orb Bool.eqb also].
    unfold lax_at, lax_value, value_at, arg_at. rewrite Hv.
    destruct (combined fl ar ip value rows cols m f) as [s|] eqn:Ec; [|reflexivity]. cbn [also].
    destruct (nd_at ip m (linear cols f)); [reflexivity|]. cbn [also]. unfold checked.
    repeat (match goal with |- context[if finite fl ?x then _ else _] => destruct (finite fl x) end; cbn [also Bool.eqb]); reflexivity.
Qed.
Print Assumptions C61_lax.

(** In exact arithmetic: with a fraction between 0 and 1 the result lies between the smallest and the largest
    valid value of the cell and those around it. *)
Theorem C61_between : forall root ip value rows cols m fraction f lo hi,
  in_image rows cols f = true -> value_at ip value cols m f <> None ->
  around (exact root) ip value rows cols m f <> [] -> (Q2Qc 0 <= fraction)%Qc -> (fraction <= Q2Qc 1)%Qc ->
  (forall c v, in_image rows cols c = true -> Z.abs (fst c - fst f) <= 1 -> Z.abs (snd c - snd f) <= 1 ->
     value_at ip value cols m c = Some v -> (lo <= v)%Qc /\ (v <= hi)%Qc) ->
  exists r, lax_at (exact root) (exact_sums true) ip value rows cols m fraction f = Some r /\
    (lo <= r)%Qc /\ (r <= hi)%Qc.
Proof. intros. apply lax_between; auto. Qed.
Print Assumptions C61_between.

(** With fraction 0 nothing changes, and with fraction 1 the result is the weighted average. *)
Theorem C61_extremes : forall root ip value rows cols m f v,
  value_at ip value cols m f = Some v -> around (exact root) ip value rows cols m f <> [] ->
  lax_at (exact root) (exact_sums true) ip value rows cols m (Q2Qc 0) f = Some v /\
  lax_at (exact root) (exact_sums true) ip value rows cols m (Q2Qc 1) f =
    Some (fold_right (fun x s => fst x * snd x + s) (Q2Qc 0) (around (exact root) ip value rows cols m f) /
          fold_right (fun x s => snd x + s) (Q2Qc 0) (around (exact root) ip value rows cols m f))%Qc.
Proof.
  intros root ip value rows cols m f v Hv Ha.
  rewrite !(lax_exact root ip value rows cols m _ f v Hv Ha). split; f_equal; unfold sum, Qcdiv; ring.
Qed.
Print Assumptions C61_extremes.

(** A cell without valid values around it is no-data. *)
Theorem C61_lonely : forall (V SV SW : Type) (fl : floats V) (ar : arith V V SV SW) ip value rows cols m area fraction f,
  around fl ip value rows cols m f = [] ->
  laplacian_at fl ar ip value rows cols m area f = None /\ lax_at fl ar ip value rows cols m fraction f = None.
Proof.
  intros V SV SW fl ar ip value rows cols m area fraction f H. unfold laplacian_at, lax_at, combined. rewrite H.
  destruct (value_at ip value cols m f); split; reflexivity.
Qed.
Print Assumptions C61_lonely.

(** ** Examples *)

(** Whole numbers; what exceeds a million is not finite. *)
Definition whole : floats Z :=
  {| lit := fun z => z; fadd := Z.add; fsub := Z.sub; fmul := Z.mul; fdiv := Z.div; fpow := Z.pow;
     fsqrt := Z.sqrt; finite := fun v => Z.abs v <=? 1000000; is_zero := fun v => v =? 0 |}.
Definition whole_sums (divide : bool) : arith Z Z Z Z :=
  {| zero_v := 0; zero_w := 0; add := Z.add; add_scaled := fun s v w => s + v * w;
     add_weight := Z.add; add_one := fun s => s + 1; nonzero := fun w => negb (w =? 0);
     average := fun s n => s / n; in_range := fun s => Z.abs s <=? 100000;
     normalize := fun s w => if divide then s / w else s |}.

(** Buffer 0 is the argument, with its mask, buffer 1 the result, and then there are four temporaries and three
    scalars. *)
Definition raster (vs : list Z) (ms : list bool) (olds : list bool) (scalars : list Z) : mem Z :=
  let none := map (fun _ => false) vs in
  let null := map (fun _ => 0) vs in
  mem_of ([vs; map (fun _ => 7) vs; null; null; null; null] ++ map (fun s => [s]) scalars)
    [ms; olds; none; none; none; none].

Definition by_mask : inpol Z := DetectByMask 0%nat true.
Definition to_mask : outpol Z := MarkByMask 1%nat true.

Lemma index_exists {X} (l : list X) n i : length l = n -> 0 <= i < Z.of_nat n -> at_index l i <> None.
Proof.
  intros Hl Hi. unfold at_index. destruct (Z.ltb_spec i 0); [lia|]. apply nth_error_Some. lia.
Qed.

Definition heights : list Z :=
  [10; 20; 30; 40;  10; 20; 35; 40;  10; 0; 30; 40;  10; 20; 30; 44].
Definition missing : list bool :=
  [false; false; false; false;  false; false; false; false;  false; true; false; false;  false; false; false; false].
Definition scene : mem Z := raster heights missing (map (fun _ => false) heights) [16; 8; 2].

Definition slope_of st_value st_result ip op rows cols m :=
  run (in_order (slope_calls whole rows cols (whole_sums false) st_value st_result ip op 0%nat 1%nat 2%nat 3%nat 6%nat 7%nat 8%nat)) m.

Example C59_arguments_case :
  slope_arguments whole 4 4 by_mask 0%nat 1%nat 2%nat 3%nat 6%nat 7%nat 8%nat (fun d => if d =? 0 then 2 else 1) scene /\
  stored 16 HasMask 1%nat scene /\ fresh 16 HasMask 2%nat scene /\ fresh 16 HasMask 3%nat scene /\
  zeros whole 16 2%nat scene /\ zeros whole 16 3%nat scene.
Proof.
  assert (I16 : forall i, 0 <= i < 16 -> In i [0;1;2;3;4;5;6;7;8;9;10;11;12;13;14;15]) by (cbn; lia).
  split; [|split; [|split; [|split; [|split]]]].
  - split; [lia|]. split; [lia|]. split.
    { repeat (constructor; [cbn; intuition discriminate|]). constructor. }
    split; [cbn; intuition (subst; discriminate)|]. split; [vm_compute; auto|].
    intros i Hi. apply I16 in Hi. cbn in Hi. repeat destruct Hi as [<- | Hi]; try (split; vm_compute; discriminate). destruct Hi.
  - intros i Hi. apply I16 in Hi. cbn in Hi. repeat destruct Hi as [<- | Hi]; try (split; [|intros _]; vm_compute; discriminate). destruct Hi.
  - intros i Hi. apply I16 in Hi. cbn in Hi. repeat destruct Hi as [<- | Hi]; try (split; [|intros _]; vm_compute; [discriminate|reflexivity]). destruct Hi.
  - intros i Hi. apply I16 in Hi. cbn in Hi. repeat destruct Hi as [<- | Hi]; try (split; [|intros _]; vm_compute; [discriminate|reflexivity]). destruct Hi.
  - intros i Hi. apply I16 in Hi. cbn in Hi. repeat destruct Hi as [<- | Hi]; try (vm_compute; reflexivity). destruct Hi.
  - intros i Hi. apply I16 in Hi. cbn in Hi. repeat destruct Hi as [<- | Hi]; try (vm_compute; reflexivity). destruct Hi.
Qed.

Example C59_case :
  values_of (slope_of HasMask HasMask by_mask to_mask 4 4 scene) 1%nat 16 =
    map Some [3; 5; 5; 3;  3; 6; 5; 2;  3; 7; 6; 3;  3; 5; 6; 3] /\
  mask_of (slope_of HasMask HasMask by_mask to_mask 4 4 scene) 1%nat 16 = map Some missing.
Proof. vm_compute. auto. Qed.

(** The tasks of two threads, executed one after the other *)
Example C59_parallel_case :
  match submitted 2 (slope_calls whole 4 4 (whole_sums false) HasMask HasMask by_mask to_mask 0%nat 1%nat 2%nat 3%nat 6%nat 7%nat 8%nat) with
  | Some l => length l = 8%nat /\
      values_of (run (fold_right (fun c p => seq (seq_all (fst c)) (seq (snd c) p)) skip l) scene) 1%nat 16 =
      values_of (slope_of HasMask HasMask by_mask to_mask 4 4 scene) 1%nat 16
  | None => False
  end.
Proof. vm_compute. auto. Qed.

(** A plane over Q: 3 x 3 cells of 2 x 1 *)
Definition q (z : Z) : Qc := Q2Qc (inject_Z z).
Definition exact_raster (vs : list Z) : mem Qc :=
  let none := map (fun _ => false) vs in
  let null := map (fun _ => q 0) vs in
  mem_of [map q vs; null; null; null; [q 16]; [q 8]; [q 2]] [none; none; none; none].
Definition plane : mem Qc := exact_raster [1; 7; 13;  5; 11; 17;  9; 15; 21].
Definition by_mask_q : inpol Qc := DetectByMask 0%nat true.

Lemma exact_arguments vs : length vs = 9%nat ->
  slope_arguments (exact (fun x => x)) 3 3 by_mask_q 0%nat 1%nat 2%nat 3%nat 4%nat 5%nat 6%nat
    (fun d => if d =? 0 then q 2 else q 1) (exact_raster vs) /\
  stored 9 HasMask 1%nat (exact_raster vs) /\ fresh 9 HasMask 2%nat (exact_raster vs) /\
  fresh 9 HasMask 3%nat (exact_raster vs).
Proof.
  intros Hl. do 9 (destruct vs as [|? vs]; [discriminate|]). destruct vs; [|discriminate].
  assert (I9 : forall i, 0 <= i < 9 -> In i [0;1;2;3;4;5;6;7;8]) by (cbn; lia).
  split; [|split; [|split]].
  - split; [lia|]. split; [lia|]. split.
    { repeat (constructor; [cbn; intuition discriminate|]). constructor. }
    split; [cbn; intuition (subst; discriminate)|]. split.
    { split; [|split]; cbn [mval exact_raster mem_of nth_error at_index Z.ltb Z.compare Z.to_nat]; f_equal;
        apply Qc_is_canon; vm_compute; reflexivity. }
    intros i Hi. apply I9 in Hi. cbn in Hi. repeat destruct Hi as [<- | Hi]; try (split; cbn; discriminate). destruct Hi.
  - intros i Hi. apply I9 in Hi. cbn in Hi. repeat destruct Hi as [<- | Hi]; try (split; [|intros _]; cbn; discriminate). destruct Hi.
  - intros i Hi. apply I9 in Hi. cbn in Hi. repeat destruct Hi as [<- | Hi]; try (split; [|intros _]; cbn; [discriminate|reflexivity]). destruct Hi.
  - intros i Hi. apply I9 in Hi. cbn in Hi. repeat destruct Hi as [<- | Hi]; try (split; [|intros _]; cbn; [discriminate|reflexivity]). destruct Hi.
Qed.

Example C59_flat_case : raster_is by_mask_q 0%nat 3 3 (exact_raster [5; 5; 5; 5; 5; 5; 5; 5; 5]) (fun _ => q 5).
Proof.
  intros [i j] v Hi Hv. apply in_image_spec in Hi. cbn [fst snd] in Hi.
  assert (H : 0 <= linear 3 (i, j) < 9) by (unfold linear; cbn; lia).
  unfold value_at in Hv. generalize dependent (linear 3 (i, j)). intros p Hv Hp.
  assert (I9 : In p [0;1;2;3;4;5;6;7;8]) by (cbn; lia).
  cbn in I9. repeat destruct I9 as [<- | I9]; try (cbn in Hv; injection Hv as <-; reflexivity). destruct I9.
Qed.

(** It rises by 3 per unit to the right and by 4 per unit down; [C59_plane] applies. *)
Example C59_plane_case : forall i j, Z.abs (i - 1) <= 1 -> Z.abs (j - 1) <= 1 ->
  value_at by_mask_q 0%nat 3 plane (i, j) = Some (q 3 * (q 2 * q j) + q 4 * (q 1 * q i) + q 1)%Qc.
Proof.
  intros i j Hi Hj.
  assert (Ii : In i [0; 1; 2]) by (cbn; lia). assert (Ij : In j [0; 1; 2]) by (cbn; lia).
  cbn in Ii, Ij. repeat destruct Ii as [<- | Ii]; try destruct Ii; repeat destruct Ij as [<- | Ij]; try destruct Ij;
    cbn [value_at arg_at nd_at linear fst snd]; unfold value_at, arg_at; cbn [nd_at by_mask_q plane exact_raster mem_of mmsk mval linear fst snd];
    vm_compute; f_equal; apply Qc_is_canon; reflexivity.
Qed.

(** *** Laplacian *)
Definition laplacian_of st_result ip op rows cols m :=
  run (in_order (laplacian_calls whole rows cols (whole_sums false) st_result ip op 0%nat 1%nat 2%nat 3%nat 4%nat 5%nat 6%nat 7%nat)) m.
Definition laplacian_scene : mem Z := raster heights missing (map (fun _ => false) heights) [0; 2].

Example C60_arguments_case :
  tells_weights_apart whole (whole_sums false) /\
  laplacian_arguments whole 4 4 by_mask 0%nat 1%nat 2%nat 3%nat 4%nat 5%nat 6%nat 7%nat 2 laplacian_scene /\
  stored 16 HasMask 1%nat laplacian_scene /\ fresh 16 HasMask 5%nat laplacian_scene /\
  zeros whole 16 5%nat laplacian_scene /\ zeros whole 16 4%nat laplacian_scene.
Proof.
  assert (I16 : forall i, 0 <= i < 16 -> In i [0;1;2;3;4;5;6;7;8;9;10;11;12;13;14;15]) by (cbn; lia).
  split; [vm_compute; auto|]. split; [|split; [|split; [|split]]].
  - split; [lia|]. split; [lia|]. split.
    { repeat (constructor; [cbn; intuition discriminate|]). constructor. }
    split; [cbn; intuition (subst; discriminate)|]. split; [vm_compute; auto|]. split.
    + intros i Hi. apply I16 in Hi. cbn in Hi. repeat destruct Hi as [<- | Hi]; try (split; vm_compute; discriminate). destruct Hi.
    + intros b i Hb Hi. apply I16 in Hi. cbn in Hi, Hb.
      repeat destruct Hb as [<- | Hb]; try destruct Hb; repeat destruct Hi as [<- | Hi]; try (vm_compute; discriminate); destruct Hi.
  - intros i Hi. apply I16 in Hi. cbn in Hi. repeat destruct Hi as [<- | Hi]; try (split; [|intros _]; vm_compute; discriminate). destruct Hi.
  - intros i Hi. apply I16 in Hi. cbn in Hi. repeat destruct Hi as [<- | Hi]; try (split; [|intros _]; vm_compute; [discriminate|reflexivity]). destruct Hi.
  - intros i Hi. apply I16 in Hi. cbn in Hi. repeat destruct Hi as [<- | Hi]; try (vm_compute; reflexivity). destruct Hi.
  - intros i Hi. apply I16 in Hi. cbn in Hi. repeat destruct Hi as [<- | Hi]; try (vm_compute; reflexivity). destruct Hi.
Qed.

(** *** Lax *)
Definition lax_of ip op rows cols m :=
  run (in_order (lax_calls whole rows cols (whole_sums true) ip op 0%nat 1%nat 2%nat 6%nat 7%nat)) m.
Definition lax_scene : mem Z := raster heights missing (map (fun _ => false) heights) [3; -2].

Example C61_arguments_case :
  tells_weights_apart whole (whole_sums true) /\
  lax_arguments whole 4 4 by_mask 0%nat 1%nat 2%nat 6%nat 7%nat 3 lax_scene /\
  (forall i, 0 <= i < 16 -> result_exists to_mask 1%nat lax_scene i).
Proof.
  assert (I16 : forall i, 0 <= i < 16 -> In i [0;1;2;3;4;5;6;7;8;9;10;11;12;13;14;15]) by (cbn; lia).
  split; [vm_compute; auto|]. split.
  - split; [lia|]. split; [lia|]. split.
    { repeat (constructor; [cbn; intuition discriminate|]). constructor. }
    split; [cbn; intuition (subst; discriminate)|]. split; [vm_compute; auto|].
    intros i Hi. apply I16 in Hi. cbn in Hi. repeat destruct Hi as [<- | Hi]; try (split; [split|]; vm_compute; discriminate). destruct Hi.
  - intros i Hi. apply I16 in Hi. cbn in Hi. repeat destruct Hi as [<- | Hi]; try (split; vm_compute; discriminate). destruct Hi.
Qed.

Example C60_case :
  values_of (laplacian_of HasMask by_mask to_mask 4 4 laplacian_scene) 1%nat 16 =
    map Some [25; 5; 7; -20;  25; 7; -35; -28;  20; 7; 26; -24;  15; 0; 16; -41] /\
  mask_of (laplacian_of HasMask by_mask to_mask 4 4 laplacian_scene) 1%nat 16 = map Some missing.
Proof. vm_compute. auto. Qed.

Example C61_case :
  values_of (lax_of by_mask to_mask 4 4 lax_scene) 1%nat 16 =
    map Some [28; 20; 33; 25;  22; 20; 23; 25;  22; 7; 39; 28;  25; 20; 36; 11] /\
  mask_of (lax_of by_mask to_mask 4 4 lax_scene) 1%nat 16 = map Some missing.
Proof. vm_compute. auto. Qed.

(** In the middle of the plane, C60 and C61 in exact arithmetic. *)
Example C60_exact_case : exists v, value_at by_mask_q 0%nat 3 plane (1, 1) = Some v /\
  length (around (exact (fun x => x)) by_mask_q 0%nat 3 3 plane (1, 1)) = 8%nat /\
  length (around (exact (fun x => x)) by_mask_q 0%nat 3 3 plane (0, 0)) = 3%nat.
Proof. eexists. vm_compute. auto. Qed.

(** ** Where the code deviates *)

(** If the types of the collections do not have a mask but the policies that are passed in do, then the
    temporaries are not marked: the slope at a no-data cell becomes zero and valid. *)
Theorem C59_unmasked_type_refuted :
  exists m1, value_at by_mask 0%nat 4 scene (2, 1) = None /\
    slope_of Unmasked Unmasked by_mask to_mask 4 4 scene = Some (tt, m1) /\
    seen 1%nat m1 (linear 4 (2, 1)) = Some 0.
Proof. eexists. split; [vm_compute; reflexivity|]. split; [vm_compute; reflexivity|]. vm_compute. reflexivity. Qed.
Print Assumptions C59_unmasked_type_refuted.

(** If no-data is marked by a value in a result that has a mask, too, the square root of the mark is taken. *)
Theorem C59_mark_by_value_refuted :
  exists m1, value_at by_mask 0%nat 4 scene (2, 1) = None /\
    slope_of HasMask HasMask by_mask (MarkByValue 1%nat 99) 4 4 scene = Some (tt, m1) /\
    mval m1 1%nat (linear 4 (2, 1)) = Some 9 /\ mmsk m1 1%nat (linear 4 (2, 1)) = Some false.
Proof. eexists. split; [vm_compute; reflexivity|]. split; [vm_compute; reflexivity|]. vm_compute. auto. Qed.
Print Assumptions C59_mark_by_value_refuted.

(** Without an output no-data policy a mark that is still in the mask of the result decides whether the
    square root is taken. *)
Theorem C59_stale_mark_refuted :
  let m := raster heights missing (map (fun _ => true) heights) [16; 8; 2] in
  exists m1 m2, slope_of HasMask HasMask by_mask DontMarkNoData 4 4 scene = Some (tt, m1) /\
    slope_of HasMask HasMask by_mask DontMarkNoData 4 4 m = Some (tt, m2) /\
    mval m1 1%nat 5 = Some 6 /\ mval m2 1%nat 5 = Some 36.
Proof.
  eexists. eexists. split; [vm_compute; reflexivity|]. split; [vm_compute; reflexivity|]. vm_compute. auto.
Qed.
Print Assumptions C59_stale_mark_refuted.

(** Without an output no-data policy a sum that is out of range looks like a slope of zero. *)
Theorem C59_out_of_range_refuted :
  exists m m1, (forall i, 0 <= i < 9 -> nd_at by_mask m i = false) /\
    slope_of HasMask HasMask by_mask DontMarkNoData 3 3 m = Some (tt, m1) /\
    seen 1%nat m1 4 = Some 0 /\
    weighted_sum whole by_mask 0%nat 3 3 m (whole_sums false) horn_x (1, 1) = None /\
    fold_right Z.add 0 (map (fun p => fst p * snd p)
      (combine [0; 0; 50000; 0; 0; 50000; 0; 0; 50000] horn_x)) = -200000.
Proof.
  exists (raster [0; 0; 50000; 0; 0; 50000; 0; 0; 50000] (repeat false 9) (repeat false 9) [16; 8; 2]).
  eexists. split.
  - intros i Hi. assert (I9 : In i [0;1;2;3;4;5;6;7;8]) by (cbn; lia). cbn in I9.
    repeat destruct I9 as [<- | I9]; try (vm_compute; reflexivity). destruct I9.
  - split; [vm_compute; reflexivity|]. vm_compute. auto.
Qed.
Print Assumptions C59_out_of_range_refuted.

(** A raster with two rows or columns is read out of bounds. *)
Theorem C59_two_rows_refuted : forall rows cols, In (rows, cols) [(2, 2); (2, 3); (3, 2)] ->
  let n := Z.to_nat (rows * cols) in
  slope_of HasMask HasMask by_mask to_mask rows cols (raster (repeat 1 n) (repeat false n) (repeat false n) [16; 8; 2]) = None.
Proof.
  intros rows cols H. repeat destruct H as [H|H]; inversion H; subst; vm_compute; reflexivity.
Qed.
Print Assumptions C59_two_rows_refuted.

(** Marks by value of laplacian and lax are calculated with: a cell without valid values around it. *)
Definition lonely : mem Z :=
  raster [1; 2; 3; 4; 5; 6; 7; 8; 9] [true; true; true; true; false; true; true; true; true] (repeat false 9) [0; 2].
Definition lonely' : mem Z :=
  raster [1; 2; 3; 4; 5; 6; 7; 8; 9] [true; true; true; true; false; true; true; true; true] (repeat false 9) [3; -2].

Theorem C60_mark_by_value_refuted :
  exists m1, laplacian_at whole (whole_sums false) by_mask 0%nat 3 3 lonely 2 (1, 1) = None /\
    laplacian_of HasMask by_mask (MarkByValue 1%nat 99) 3 3 lonely = Some (tt, m1) /\
    mval m1 1%nat 4 = Some 49 /\ mmsk m1 1%nat 4 = Some false.
Proof. eexists. split; [vm_compute; reflexivity|]. split; [vm_compute; reflexivity|]. vm_compute. auto. Qed.
Print Assumptions C60_mark_by_value_refuted.

Theorem C61_mark_by_value_refuted :
  exists m1, lax_at whole (whole_sums true) by_mask 0%nat 3 3 lonely' 3 (1, 1) = None /\
    lax_of by_mask (MarkByValue 1%nat 99) 3 3 lonely' = Some (tt, m1) /\
    mval m1 1%nat 4 = Some (3 * 99 + -2 * 5).
Proof. eexists. split; [vm_compute; reflexivity|]. split; [vm_compute; reflexivity|]. vm_compute. auto. Qed.
Print Assumptions C61_mark_by_value_refuted.
