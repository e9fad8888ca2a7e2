(** * Proofs about accumulators of floating point numbers *)
From Coq Require Import ZArith List Bool Lia SpecFloat.
From Verif Require Import LangModel LangProofs ConcModel IndexSpec LoopModel LoopSpec PolicyModel LocalSpec IntsModel FloatModel
  IeeeSpec IeeeProofs FloatSpec FloatProofs FloatProps AccumModel AggModel AggSpec AggProps FloatAccumModel FloatAccumSpec.
Import ListNotations.
Open Scope Z_scope.

Section Everywhere.
Context {V A : Type}.
Variables (acc : accu V A) (ip : inpol V) (op : outpol V) (a rb : buf) (m : mem V) (size : Z).
Hypothesis Hres : result_exists op rb m 0.
Hypothesis Hmark : marks_result op rb.
Hypothesis Hsize : 0 <= size < 2 ^ 64.
Hypothesis Hex : forall i, 0 <= i < size -> arg_exists ip a m i.
Let vs := valid_values ip a m (zrange 0 size).
Hypothesis HM : mergeable acc vs.

Lemma one_element v : size = 1 -> vs = [v] -> arg_at ip a m 0 = Some v.
Proof.
  intros E. unfold vs, valid_values. rewrite E. change (zrange 0 1) with [0]. cbn [flat_map app].
  destruct (arg_at ip a m 0) as [w|]; cbn [app]; intros H; [congruence|discriminate].
Qed.

Lemma everywhere_nothing : vs = [] -> aggregates_to acc ip op a rb m size NoData.
Proof.
  intros E. split; [|split; [|split; [|split]]].
  - intros E1. destruct (C20_aggregate_0d acc ip op a rb m Hres Hmark (Hex 0 ltac:(lia))) as (P & _). apply P.
    unfold vs, valid_values in E. rewrite E1 in E. change (zrange 0 1) with [0] in E. cbn [flat_map] in E.
    destruct (arg_at ip a m 0) as [w|]; cbn [app] in E; [discriminate|auto].
  - destruct (C20_aggregate_1d acc ip op a rb m Hres Hmark size ltac:(lia) Hex) as (P & _). exact (P E).
  - intros rows cols Hr Hc E1. subst size.
    destruct (C20_aggregate_2d acc ip op a rb m Hres Hmark rows cols ltac:(lia) Hc Hex) as (P & _). exact (P E).
  - intros n Hn. destruct (C21_parallel_1d acc ip op a rb m Hres Hmark n size Hn Hsize Hex HM) as (t & T & P & _). exists t. auto.
  - intros n rows cols Hn Hr Hc E1. subst size.
    destruct (C21_parallel_2d acc ip op a rb m Hres Hmark n rows cols Hn Hr Hc Hex HM) as (t & T & P & _). exists t. auto.
Qed.

Lemma everywhere_value x r : vs <> [] -> accumulates acc (a_init acc) vs x -> a_result acc x = Some r ->
  aggregates_to acc ip op a rb m size (Value r).
Proof.
  intros N X R. split; [|split; [|split; [|split]]].
  - intros E1. destruct (C20_aggregate_0d acc ip op a rb m Hres Hmark (Hex 0 ltac:(lia))) as (_ & P & _).
    assert (L : exists v, vs = [v]).
    { revert N. unfold vs, valid_values. rewrite E1. change (zrange 0 1) with [0]. cbn [flat_map].
      destruct (arg_at ip a m 0) as [v|]; cbn [app]; intros N; [eauto|congruence]. }
    destruct L as [v L]. assert (AT := one_element v E1 L). rewrite L in X. inversion X as [|x0 v0 y vs0 z0 F G]. inversion G as [z1|]. subst z1 z0 x0 v0 vs0 y.
    exact (P v x r AT F R).
  - destruct (C20_aggregate_1d acc ip op a rb m Hres Hmark size ltac:(lia) Hex) as (_ & P & _). eapply P; eauto.
  - intros rows cols Hr Hc E. subst size.
    destruct (C20_raster_as_array acc ip op a rb m Hres Hmark rows cols ltac:(lia) Hc Hex) as (_ & P & _). eapply P; eauto.
  - intros n Hn. destruct (C21_parallel_1d acc ip op a rb m Hres Hmark n size Hn Hsize Hex HM) as (t & T & _ & P). exists t. split; auto. eapply P; eauto.
  - intros n rows cols Hn Hr Hc E1. subst size.
    destruct (C21_parallel_2d acc ip op a rb m Hres Hmark n rows cols Hn Hr Hc Hex HM) as (t & T & _ & P). exists t. split; auto. eapply P; eauto.
Qed.
End Everywhere.

(** ** The order *)
Lemma ltb_below f x y : is_float (fprec f) (femax f) x -> is_float (fprec f) (femax f) y -> is_nan x = false -> is_nan y = false ->
  SFltb x y = true <-> below f x y.
Proof.
  intros X Y NX NY. destruct (compare_order f x y X Y NX NY) as (c & C & O). unfold SFltb. rewrite C.
  destruct (order_exclusive f x y) as (O1 & O2 & O3). destruct c; split; intros H; try discriminate; auto; exfalso; tauto.
Qed.
Lemma below_trans f x y z : below f x y -> below f y z -> below f x z.
Proof. unfold below. lia. Qed.
Lemma below_neg f x y z : ~ below f y x -> ~ below f z y -> ~ below f z x.
Proof.
  unfold below. intros. assert (-1 <= rank x <= 1) by (destruct x as [|[]| |]; cbn; lia). lia.
Qed.
Lemma ltb_nan_l x : SFltb S754_nan x = false. Proof. destruct x as [|[]| |[]]; reflexivity. Qed.
Lemma ltb_nan_r x : SFltb x S754_nan = false. Proof. destruct x as [|[]| |[]]; reflexivity. Qed.
Lemma nan_is x : is_nan x = true -> x = S754_nan. Proof. destruct x; try discriminate; auto. Qed.

(** ** The first of the best values, for an order [lt] *)
Section Pick.
Variable (f : fmt) (lt : spec_float -> spec_float -> bool) (Lt : spec_float -> spec_float -> Prop).
Notation is_float := (IeeeSpec.is_float (fprec f) (femax f)).
Hypothesis lt_Lt : forall x y, is_float x -> is_float y -> is_nan x = false -> is_nan y = false -> lt x y = true <-> Lt x y.
Hypothesis lt_nan_l : forall x, lt S754_nan x = false.
Hypothesis Lt_trans : forall x y z, Lt x y -> Lt y z -> Lt x z.
Hypothesis Lt_neg : forall x y z, ~ Lt y x -> ~ Lt z y -> ~ Lt z x.
Hypothesis Lt_irrefl : forall x, ~ Lt x x.
Definition pick (a b : spec_float) := if lt b a then b else a.

Lemma pick_nan x : pick x S754_nan = x. Proof. unfold pick. rewrite lt_nan_l. auto. Qed.
Lemma lt_false x y : is_float x -> is_float y -> is_nan x = false -> is_nan y = false -> lt x y = false <-> ~ Lt x y.
Proof. intros. rewrite <- (lt_Lt x y) by auto. destruct (lt x y); split; intros; congruence. Qed.

Definition good x := is_float x /\ is_nan x = false.
Lemma pick_good x v : good x -> is_float v -> good (pick x v).
Proof.
  intros X V. destruct (is_nan v) eqn:N; [rewrite (nan_is _ N), pick_nan; auto|]. unfold pick. destruct (lt v x); auto. split; auto.
Qed.

Lemma pick_assoc x c v : good x -> good c -> is_float v -> pick (pick x c) v = pick x (pick c v).
Proof.
  intros [X NX] [C NC] V. destruct (is_nan v) eqn:N; [rewrite (nan_is _ N), !pick_nan; auto|].
  unfold pick. destruct (lt c x) eqn:E1, (lt v c) eqn:E2, (lt v x) eqn:E3; rewrite ?E1, ?E2, ?E3; auto; exfalso.
  - rewrite lt_Lt in E1, E2 by auto. rewrite lt_false in E3 by auto. apply E3. eapply Lt_trans; eauto.
  - rewrite lt_false in E1, E2 by auto. rewrite lt_Lt in E3 by auto. exact (Lt_neg x c v E1 E2 E3).
Qed.

Lemma fold_good vs x : good x -> floats f vs -> good (fold_left pick vs x).
Proof. revert x. induction vs; intros x X H; inversion H; subst; cbn; auto. apply IHvs; auto. apply pick_good; auto. Qed.

Lemma fold_pick vs x c : good x -> good c -> floats f vs -> fold_left pick vs (pick x c) = pick x (fold_left pick vs c).
Proof.
  revert c. induction vs as [|v vs IH]; intros c X C H; inversion H; subst; cbn; auto.
  rewrite pick_assoc by auto. apply IH; auto. apply pick_good; auto.
Qed.

Lemma fold_best vs x : good x -> floats f vs -> let r := fold_left pick vs x in
  (r = x \/ In r vs) /\ forall v, In v (x :: vs) -> is_nan v = false -> ~ Lt v r.
Proof.
  cbv zeta. revert x. induction vs as [|v vs IH]; intros x X H; cbn [fold_left].
  - split; auto. intros v [<-|[]] _. apply Lt_irrefl.
  - inversion H; subst. assert (G := pick_good x v X ltac:(auto)). destruct (IH (pick x v) G ltac:(auto)) as [I1 I2]. split.
    + destruct I1 as [I1|I1]; [|right; right; auto]. rewrite I1. unfold pick. destruct (lt v x); [right; left|left]; auto.
    + intros w [<-|[<-|Hw]] N.
      * assert (~ Lt x (pick x v)).
        { destruct (is_nan v) eqn:NV; [rewrite (nan_is _ NV), pick_nan; apply Lt_irrefl|]. unfold pick. destruct X.
          destruct (lt v x) eqn:E; [|apply Lt_irrefl]. rewrite lt_Lt in E by auto. intros L. apply (Lt_irrefl x). eapply Lt_trans; eauto. }
        eapply Lt_neg; [|exact H0]. apply (I2 (pick x v)); [left; auto|apply G].
      * assert (~ Lt v (pick x v)).
        { unfold pick. destruct X. destruct (lt v x) eqn:E; [apply Lt_irrefl|]. apply lt_false; auto. }
        eapply Lt_neg; [|exact H0]. apply (I2 (pick x v)); [left; auto|apply G].
      * apply I2; auto. right. auto.
Qed.

Lemma fold_first vs x : good x -> floats f vs -> let r := fold_left pick vs x in
  (r = x /\ forall v, In v vs -> is_nan v = false -> ~ Lt v x) \/
  (Lt r x /\ exists us ws, vs = us ++ r :: ws /\ forall u, In u us -> is_nan u = false -> Lt r u).
Proof.
  cbv zeta. revert x. induction vs as [|v vs IH]; intros x X H; cbn [fold_left]; [left; split; auto; intros ? []|].
  inversion H as [|v0 vs0 HV HVS]; subst. assert (G := pick_good x v X HV). assert (FG := fold_good vs _ G HVS).
  destruct (is_nan v) eqn:NV.
  { assert (v = S754_nan) by (apply nan_is; auto). subst v. rewrite pick_nan in *. destruct (IH x X HVS) as [[E B]|(L & us & ws & E & B)].
    - left. split; auto. intros w [<-|W] N; [discriminate|auto].
    - right. split; auto. exists (S754_nan :: us), ws. rewrite E at 1. split; auto. intros u [<-|U] N; [discriminate|auto]. }
  destruct X as [X1 X2]. destruct (lt v x) eqn:E.
  - assert (P : pick x v = v) by (unfold pick; rewrite E; auto). rewrite P in *. apply lt_Lt in E; auto.
    destruct (IH v G HVS) as [[Q B]|(L & us & ws & Q & B)].
    + right. rewrite Q. split; auto. exists [], vs. split; auto. intros u [].
    + right. split; [eapply Lt_trans; eauto|]. exists (v :: us), ws. rewrite Q at 1. split; auto. intros u [<-|U] N; auto.
  - assert (P : pick x v = x) by (unfold pick; rewrite E; auto). rewrite P in *. apply lt_false in E; auto.
    destruct (IH x G HVS) as [[Q B]|(L & us & ws & Q & B)].
    + left. split; auto. intros w [<-|W] N; auto.
    + right. split; auto. exists (v :: us), ws. rewrite Q at 1. split; auto. intros u [<-|U] N; auto.
      destruct FG as [F1 F2]. destruct (lt (fold_left pick vs x) v) eqn:K; [apply lt_Lt in K; auto|].
      exfalso. apply lt_false in K; auto. exact (Lt_neg _ _ _ E K L).
Qed.

(** An accumulator that does this *)
Variable acc : accu spec_float spec_float.
Hypothesis acc_add : forall x v, a_add acc x v = Some (pick x v, true).
Hypothesis acc_merge : forall x v, a_merge acc x v = Some (pick x v, true).
Hypothesis acc_init : good (a_init acc).

Lemma pick_accumulates vs x y : accumulates acc x vs y <-> y = fold_left pick vs x.
Proof.
  split.
  - induction 1 as [|x v y vs z E _ IH]; cbn; auto. rewrite acc_add in E. inversion E; subst. auto.
  - intros ->. revert x. induction vs; intros; cbn; econstructor; eauto.
Qed.

Lemma pick_mergeable vs : floats f vs -> mergeable acc vs.
Proof.
  intros H. split.
  - intros us xs ws _. eexists. apply pick_accumulates. reflexivity.
  - intros xs ys ws x y E X Y. rewrite pick_accumulates in X, Y. subst. unfold floats in H. rewrite !Forall_app in H. destruct H as (H1 & H2 & _).
    eexists. split; [apply acc_merge|]. apply pick_accumulates. rewrite fold_left_app.
    assert (G := fold_good xs _ acc_init H1). rewrite <- fold_pick by auto. f_equal.
    destruct (fold_best xs _ acc_init H1) as [_ B].
    set (r := fold_left pick xs (a_init acc)) in *. destruct acc_init as [I1 I2], G as [G1 G2].
    unfold pick. replace (lt (a_init acc) r) with false; auto. symmetry. apply lt_false; auto. apply B; auto. left. auto.
Qed.
End Pick.

Lemma numeric_max_largest f : is_largest f (numeric_max f).
Proof. split; [split; destruct f; reflexivity|]. destruct f; vm_compute; reflexivity. Qed.
Lemma numeric_lowest_lowest f : is_lowest f (numeric_lowest f).
Proof. split; [split; destruct f; reflexivity|]. destruct f; vm_compute; reflexivity. Qed.

Lemma largest_is f x : is_float (fprec f) (femax f) x -> is_nan x = false -> x <> plus_infinity -> ~ below f (numeric_max f) x.
Proof.
  intros X N P. destruct (numeric_max_largest f) as [L1 L2]. assert (R : rank (numeric_max f) = 0) by (destruct f; reflexivity).
  unfold below. rewrite R, L2. destruct x as [s|[]| |s mx ex]; try discriminate; cbn [rank]; try lia.
  - cbn. assert (0 < largest f) by (destruct f; reflexivity). lia.
  - exfalso. auto.
  - assert (B := number_below (fprec f) (femax f) (fprec_gt f) (fprec_lt f) _ (conj X eq_refl)).
    assert (U := number_units (fprec f) (femax f) (fprec_gt f) (fprec_lt f) _ (conj X eq_refl)).
    unfold fvalue. destruct U as (a & k & Ha & Hk & E).
    assert (LS : largest f = (2 ^ fprec f - 1) * 2 ^ (femax f - fprec f - emin (fprec f) (femax f)) * step f) by (destruct f; vm_compute; reflexivity).
    assert (S := step_pos f). rewrite LS. intros [C|(_ & _ & C)]; [lia|]. revert C. apply Zle_not_lt. apply Z.mul_le_mono_nonneg_r; [lia|].
    apply Z.le_trans with (Z.abs (units (fprec f) (femax f) (S754_finite s mx ex))); [lia|]. rewrite E.
    assert (2 ^ k <= 2 ^ (femax f - fprec f - emin (fprec f) (femax f))) by (apply Z.pow_le_mono_r; lia).
    assert (0 < 2 ^ k) by (apply pow2_pos; lia). apply Z.mul_le_mono_nonneg; lia.
Qed.
Lemma lowest_is f x : is_float (fprec f) (femax f) x -> is_nan x = false -> x <> minus_infinity -> ~ below f x (numeric_lowest f).
Proof.
  intros X N P H. apply (largest_is f (SFopp x)).
  - destruct x; auto.
  - destruct x; auto.
  - intros E. apply P. destruct x as [|[]| |]; cbn in E; try discriminate; auto.
  - destruct (numeric_max_largest f) as [L1 L2]. destruct (numeric_lowest_lowest f) as [M1 M2].
    assert (R : rank (numeric_max f) = 0) by (destruct f; reflexivity). assert (R' : rank (numeric_lowest f) = 0) by (destruct f; reflexivity).
    unfold below in *. rewrite R, L2. rewrite R', M2 in H. assert (rank (SFopp x) = - rank x) by (destruct x as [|[]| |]; reflexivity).
    assert (fvalue f (SFopp x) = - fvalue f x) by (unfold fvalue; destruct x as [| | |[]]; cbn [SFopp negb units]; lia). lia.
Qed.

(** ** Floating point numbers with the same value are the same, except zeros *)
Lemma units_inj f x y : is_number (fprec f) (femax f) x -> is_number (fprec f) (femax f) y ->
  units (fprec f) (femax f) x = units (fprec f) (femax f) y -> units (fprec f) (femax f) x <> 0 -> x = y.
Proof.
  intros [X NX] [Y NY] E N. destruct x as [sx|sx| |sx mx ex]; try discriminate; [exfalso; apply N; reflexivity|].
  destruct y as [sy|sy| |sy my ey]; try discriminate; [exfalso; apply N; rewrite E; reflexivity|].
  assert (FX := finite_exponent _ _ _ _ _ X). assert (FY := finite_exponent _ _ _ _ _ Y). cbn [units] in E.
  set (em := emin (fprec f) (femax f)) in *. assert (PX := pow2_pos (ex - em) ltac:(lia)). assert (PY := pow2_pos (ey - em) ltac:(lia)).
  assert (sx = sy) by (destruct sx, sy; auto; exfalso; nia). subst sy.
  assert (E' : Z.pos mx * 2 ^ (ex - em) = Z.pos my * 2 ^ (ey - em)) by (destruct sx; lia).
  assert (D : Zdigits2 (Z.pos mx) + (ex - em) = Zdigits2 (Z.pos my) + (ey - em)) by (rewrite <- !digits_shift, E' by lia; reflexivity).
  unfold is_float, valid_binary, bounded, canonical_mantissa in X, Y. apply andb_prop in X, Y. destruct X as [X _], Y as [Y _].
  apply Zeq_bool_eq in X, Y. cbn [Zdigits2] in D. assert (ex = ey) by (rewrite <- X, <- Y; f_equal; lia). subst ey.
  f_equal. apply Z.mul_reg_r in E'; lia.
Qed.
Lemma number_inj f x y : is_number (fprec f) (femax f) x -> is_number (fprec f) (femax f) y -> fvalue f x = fvalue f y -> fvalue f x <> 0 -> x = y.
Proof.
  intros X Y E N. unfold fvalue in *. assert (S := step_pos f). apply (units_inj f); auto; nia.
Qed.

(** ** The two accumulators *)
Lemma min_pick a b : std_min a b = pick (fun x y => SFltb x y) a b.
Proof. reflexivity. Qed.
Lemma max_pick a b : std_max a b = pick (fun x y => SFltb y x) a b.
Proof. reflexivity. Qed.

Lemma below_irrefl f x : ~ below f x x.
Proof. unfold below. lia. Qed.
Lemma max_good f : good f (numeric_max f). Proof. destruct f; split; reflexivity. Qed.
Lemma lowest_good f : good f (numeric_lowest f). Proof. destruct f; split; reflexivity. Qed.

Lemma min_mergeable f vs : floats f vs -> mergeable (fmin_accu f) vs.
Proof.
  exact (pick_mergeable f (fun x y => SFltb x y) (below f) (ltb_below f) ltb_nan_l (below_trans f) (below_neg f) (below_irrefl f)
    (fmin_accu f) (fun _ _ => eq_refl) (fun _ _ => eq_refl) (max_good f) vs).
Qed.
Lemma max_mergeable f vs : floats f vs -> mergeable (fmax_accu f) vs.
Proof.
  exact (pick_mergeable f (fun x y => SFltb y x) (fun x y => below f y x) (fun x y X Y NX NY => ltb_below f y x Y X NY NX) ltb_nan_r
    (fun x y z A B => below_trans f z y x B A) (fun x y z A B C => below_neg f z y x B A C) (below_irrefl f)
    (fmax_accu f) (fun _ _ => eq_refl) (fun _ _ => eq_refl) (lowest_good f) vs).
Qed.

Lemma alike_max f v : is_float (fprec f) (femax f) v -> is_nan v = false -> v <> plus_infinity -> ~ below f v (numeric_max f) -> v = numeric_max f.
Proof.
  intros V N P B. assert (C := largest_is f v V N P). destruct (numeric_max_largest f) as [L1 L2].
  assert (R : rank (numeric_max f) = 0) by (destruct f; reflexivity). unfold below in *. rewrite R in *.
  assert (rank v = 0) by lia. assert (is_finite v = true) by (destruct v as [|[]| |]; cbn in *; auto; lia).
  assert (0 < largest f) by (destruct f; reflexivity). apply (number_inj f); auto; try (split; auto); lia.
Qed.
Lemma alike_lowest f v : is_float (fprec f) (femax f) v -> is_nan v = false -> v <> minus_infinity -> ~ below f (numeric_lowest f) v -> v = numeric_lowest f.
Proof.
  intros V N P B. assert (C := lowest_is f v V N P). destruct (numeric_lowest_lowest f) as [L1 L2].
  assert (R : rank (numeric_lowest f) = 0) by (destruct f; reflexivity). unfold below in *. rewrite R in *.
  assert (rank v = 0) by lia. assert (is_finite v = true) by (destruct v as [|[]| |]; cbn in *; auto; lia).
  assert (0 < largest f) by (destruct f; reflexivity). apply (number_inj f); auto; try (split; auto); lia.
Qed.

Lemma min_result f vs : floats f vs -> let r := fold_left std_min vs (numeric_max f) in
  is_float (fprec f) (femax f) r /\
  ((exists v, In v vs /\ is_nan v = false /\ v <> plus_infinity) -> smallest f vs r) /\
  ((forall v, In v vs -> is_nan v = true \/ v = plus_infinity) -> is_largest f r).
Proof.
  intros H r.
  assert (G : good f r) by (apply (fold_good f (fun x y => SFltb x y)); auto using ltb_nan_l, max_good).
  assert (F := fold_first f (fun x y => SFltb x y) (below f) (ltb_below f) ltb_nan_l (below_trans f) (below_neg f) vs _ (max_good f) H).
  assert (B := fold_best f (fun x y => SFltb x y) (below f) (ltb_below f) ltb_nan_l (below_trans f) (below_neg f) (below_irrefl f) vs _ (max_good f) H).
  cbv zeta in F, B. change (fold_left (pick _) vs (numeric_max f)) with r in F, B. destruct B as [_ B]. destruct G as [G1 G2].
  unfold floats in H. rewrite Forall_forall in H. split; auto. split.
  - intros (v & V & N & P). split; auto. split.
    + destruct F as [[E Q]|(L & us & ws & E & Q)].
      * assert (v = r). { rewrite E. apply alike_max; auto. } subst v. destruct (in_split _ _ V) as (us & ws & S). exists us, ws. split; auto.
        intros u U NU. destruct (SFltb r u) eqn:K; [right; apply ltb_below; auto; apply H; rewrite S; apply in_or_app; auto|].
        left. rewrite E. assert (UV : In u vs) by (rewrite S; apply in_or_app; auto).
        apply alike_max; auto. intros ->. rewrite E in K. destruct f; discriminate.
      * exists us, ws. split; auto.
    + intros w W NW. apply B; auto. right. auto.
  - intros A. destruct F as [[E Q]|(L & us & ws & E & Q)]; [rewrite E; apply numeric_max_largest|].
    exfalso. destruct (A r) as [A1|A1]; [rewrite E; apply in_or_app; right; left; auto|congruence|].
    rewrite A1 in L. assert (R : rank (numeric_max f) = 0) by (destruct f; reflexivity).
    unfold below in L. rewrite R in L. cbn [rank plus_infinity] in L. lia.
Qed.

Lemma max_result f vs : floats f vs -> let r := fold_left std_max vs (numeric_lowest f) in
  is_float (fprec f) (femax f) r /\
  ((exists v, In v vs /\ is_nan v = false /\ v <> minus_infinity) -> greatest f vs r) /\
  ((forall v, In v vs -> is_nan v = true \/ v = minus_infinity) -> is_lowest f r).
Proof.
  intros H r. set (lt := fun x y => SFltb y x). set (Lt := fun x y => below f y x).
  assert (P1 : forall x y, is_float (fprec f) (femax f) x -> is_float (fprec f) (femax f) y -> is_nan x = false -> is_nan y = false -> lt x y = true <-> Lt x y)
    by (intros; apply ltb_below; auto).
  assert (P2 : forall x, lt S754_nan x = false) by (intros; apply ltb_nan_r).
  assert (P3 : forall x y z, Lt x y -> Lt y z -> Lt x z) by (unfold Lt; eauto using below_trans).
  assert (P4 : forall x y z, ~ Lt y x -> ~ Lt z y -> ~ Lt z x) by (unfold Lt; intros x y z Q1 Q2 Q3; exact (below_neg f z y x Q2 Q1 Q3)).
  assert (P5 : forall x, ~ Lt x x) by (intros; apply below_irrefl).
  assert (G : good f r) by (apply (fold_good f lt); auto using lowest_good).
  assert (F := fold_first f lt Lt P1 P2 P3 P4 vs _ (lowest_good f) H).
  assert (B := fold_best f lt Lt P1 P2 P3 P4 P5 vs _ (lowest_good f) H).
  cbv zeta in F, B. change (fold_left (pick _) vs (numeric_lowest f)) with r in F, B. destruct B as [_ B]. destruct G as [G1 G2].
  unfold floats in H. rewrite Forall_forall in H. split; auto. split.
  - intros (v & V & N & P). split; auto. split.
    + destruct F as [[E Q]|(L & us & ws & E & Q)].
      * assert (v = r). { rewrite E. apply alike_lowest; auto. apply Q; auto. } subst v. destruct (in_split _ _ V) as (us & ws & S). exists us, ws. split; auto.
        intros u U NU. destruct (SFltb u r) eqn:K; [right; apply ltb_below; auto; apply H; rewrite S; apply in_or_app; auto|].
        left. rewrite E. assert (UV : In u vs) by (rewrite S; apply in_or_app; auto).
        apply alike_lowest; auto; [|apply Q; auto]. intros ->. rewrite E in K. destruct f; discriminate.
      * exists us, ws. split; auto. intros u U NU. right. exact (Q u U NU).
    + intros w W NW. exact (B w (or_intror W) NW).
  - intros A. destruct F as [[E Q]|(L & us & ws & E & Q)]; [rewrite E; apply numeric_lowest_lowest|].
    exfalso. destruct (A r) as [A1|A1]; [rewrite E; apply in_or_app; right; left; auto|congruence|].
    unfold Lt in L. rewrite A1 in L. assert (R : rank (numeric_lowest f) = 0) by (destruct f; reflexivity).
    unfold below in L. rewrite R in L. cbn [rank minus_infinity] in L. lia.
Qed.

(** ** Range *)
Lemma range_accumulates f vs x y : accumulates (frange_accu f) x vs y <-> y = (fold_left std_min vs (fst x), fold_left std_max vs (snd x)).
Proof.
  split.
  - induction 1 as [x|x v y vs z E _ IH]; cbn; [destruct x; auto|]. cbn in E. inversion E; subst. auto.
  - intros ->. revert x. induction vs as [|v vs IH]; intros x; cbn [fold_left].
    + destruct x. constructor.
    + econstructor; [reflexivity|]. specialize (IH (std_min (fst x) v, std_max (snd x) v)). exact IH.
Qed.
Lemma range_mergeable f vs : floats f vs -> mergeable (frange_accu f) vs.
Proof.
  intros H. destruct (min_mergeable f vs H) as [_ M1]. destruct (max_mergeable f vs H) as [_ M2]. split.
  - intros us xs ws _. eexists. apply range_accumulates. reflexivity.
  - intros xs ys ws x y E X Y. rewrite range_accumulates in X, Y. subst x y. eexists. split; [reflexivity|].
    apply range_accumulates. cbn [fst snd a_init frange_accu].
    assert (A1 := fun vs x y => pick_accumulates (fun x y => SFltb x y) (fmin_accu f) (fun _ _ => eq_refl) vs x y).
    assert (A2 := fun vs x y => pick_accumulates (fun x y => SFltb y x) (fmax_accu f) (fun _ _ => eq_refl) vs x y).
    destruct (M1 xs ys ws _ _ E (proj2 (A1 _ _ _) eq_refl) (proj2 (A1 _ _ _) eq_refl)) as (z1 & Z1 & Z2).
    destruct (M2 xs ys ws _ _ E (proj2 (A2 _ _ _) eq_refl) (proj2 (A2 _ _ _) eq_refl)) as (w1 & W1 & W2).
    rewrite A1 in Z2. rewrite A2 in W2. cbn in Z1, W1. inversion Z1; inversion W1; subst. f_equal; auto.
Qed.
