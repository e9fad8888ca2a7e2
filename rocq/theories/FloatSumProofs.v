(** * Proofs about sums of floating point numbers *)
From Coq Require Import ZArith List Bool Lia SpecFloat.
From Verif Require Import LangModel LangProofs ConcModel IndexSpec LoopModel LoopSpec PolicyModel LocalSpec IntsModel FloatModel
  IeeeSpec IeeeProofs FloatSpec FloatProofs FloatProps AccumModel AggModel AggSpec AggProps FloatAccumModel FloatAccumSpec FloatAccumProofs FloatSumSpec.
Import ListNotations.
Open Scope Z_scope.

Section Sequential.
Context {V A : Type}.
Variables (acc : accu V A) (ip : inpol V) (op : outpol V) (a rb : buf) (m : mem V) (size : Z).
Hypothesis Hres : result_exists op rb m 0.
Hypothesis Hmark : marks_result op rb.
Hypothesis Hsize : 0 <= size.
Hypothesis Hex : forall i, 0 <= i < size -> arg_exists ip a m i.
Let vs := valid_values ip a m (zrange 0 size).

Lemma one_valid : size = 1 -> vs = match arg_at ip a m 0 with Some v => [v] | None => [] end.
Proof.
  intros E. unfold vs, valid_values. rewrite E. change (zrange 0 1) with [0]. cbn [flat_map].
  destruct (arg_at ip a m 0); reflexivity.
Qed.

Lemma seq_nothing : vs = [] -> sequentially_to acc ip op a rb m size NoData.
Proof.
  intros E. split; [|split].
  - intros E1. destruct (C20_aggregate_0d acc ip op a rb m Hres Hmark (Hex 0 ltac:(lia))) as (P & _). apply P.
    assert (O := one_valid E1). rewrite E in O. destruct (arg_at ip a m 0) as [w|]; [discriminate|auto].
  - destruct (C20_aggregate_1d acc ip op a rb m Hres Hmark size ltac:(lia) Hex) as (P & _). exact (P E).
  - intros rows cols Hr Hc E1. subst size.
    destruct (C20_aggregate_2d acc ip op a rb m Hres Hmark rows cols ltac:(lia) Hc Hex) as (P & _). exact (P E).
Qed.

Lemma seq_value x r : vs <> [] -> accumulates acc (a_init acc) vs x -> a_result acc x = Some r ->
  sequentially_to acc ip op a rb m size (Value r).
Proof.
  intros N X R. split; [|split].
  - intros E1. destruct (C20_aggregate_0d acc ip op a rb m Hres Hmark (Hex 0 ltac:(lia))) as (_ & P & _).
    assert (O := one_valid E1). destruct (arg_at ip a m 0) as [v|] eqn:AT; [|congruence]. rewrite O in X.
    inversion X as [|x0 v0 y vs0 z0 F G]. inversion G as [z1|]. subst z1 z0 x0 v0 vs0 y. exact (P v x r eq_refl F R).
  - destruct (C20_aggregate_1d acc ip op a rb m Hres Hmark size ltac:(lia) Hex) as (_ & P & _). eapply P; eauto.
  - intros rows cols Hr Hc E. subst size.
    destruct (C20_raster_as_array acc ip op a rb m Hres Hmark rows cols ltac:(lia) Hc Hex) as (_ & P & _). eapply P; eauto.
Qed.

(** Out of range, and out of range ever after *)
Lemma seq_out : leaves_range acc (a_init acc) vs ->
  (forall v w y, a_add acc (a_init acc) v = Some (y, false) -> exists z, a_add acc y w = Some (z, false)) ->
  sequentially_to acc ip op a rb m size NoData.
Proof.
  intros L S. split; [|split].
  - intros E1. destruct (C20_aggregate_0d acc ip op a rb m Hres Hmark (Hex 0 ltac:(lia))) as (_ & _ & P).
    assert (O := one_valid E1). destruct L as (us & v & ws & y & z & E & G & F). rewrite O in E.
    destruct (arg_at ip a m 0) as [w|] eqn:AT; [|destruct us; discriminate].
    destruct us as [|u us]; [|destruct us; discriminate]. inversion E. subst v ws. inversion G as [y0|]. subst y0 y. eapply P; eauto.
  - destruct (C20_aggregate_1d acc ip op a rb m Hres Hmark size ltac:(lia) Hex) as (_ & _ & P). apply P. exact L.
  - intros rows cols Hr Hc E. subst size.
    destruct (C20_aggregate_2d acc ip op a rb m Hres Hmark rows cols ltac:(lia) Hc Hex) as (_ & _ & P3 & _ & P5).
    destruct L as (us & v & ws & y & z & E & G & F). destruct us as [|u us].
    + inversion G as [y0|]. subst y0 y. destruct ws as [|w ws].
      * eapply P3; eauto.
      * eapply P5; [exact E|exact F|]. destruct (S v w z F) as (z' & Z'). exists [], w, ws, z, z'. repeat split; auto. constructor.
    + inversion G as [|x0 v0 y' vs0 z0 F' G']. subst z0 x0 v0 vs0. eapply P5; [exact E|exact F'|].
      exists us, v, ws, y, z. auto.
Qed.
End Sequential.

Section Format.
Variable f : fmt.
Notation prec := (fprec f).
Notation emax := (femax f).
Notation plus := (SFadd prec emax).
Notation is_number := (IeeeSpec.is_number prec emax).
Notation is_float := (IeeeSpec.is_float prec emax).

Lemma plus_step s v : is_number s -> is_float v -> 
  if is_finite (plus s v) then is_number (plus s v) /\ is_finite v = true /\ nearest f (fvalue f s + fvalue f v) 1 (plus s v) /\ ~ overflows f (fvalue f s + fvalue f v) 1
  else is_finite v = false \/ overflows f (fvalue f s + fvalue f v) 1.
Proof.
  intros S V. destruct (is_finite v) eqn:FV.
  - assert (R := add_rounding f s v S (conj V FV)). assert (O := rounding_outcome f _ _ _ R). rewrite isfinite_eq in O.
    destruct (is_finite (plus s v)) eqn:FP; [|right; auto]. destruct O as [O1 O2]. split; [split; auto; apply R|]. auto.
  - rewrite add_not_finite; [left; auto|]. rewrite FV. apply andb_false_r.
Qed.

Lemma within_true s v r : sum_within f true s v r = is_finite r.
Proof. unfold sum_within. cbn. apply isfinite_eq. Qed.

(** *** With the policy *)
Lemma sum_cases vs s : is_number s -> floats f vs ->
  (exists t, is_number t /\ rounded_sum f s vs t /\ accumulates (fsum_accu f true) s vs t /\
     forall n, accumulates (fmean_accu f true) (s, n) vs (t, n + Z.of_nat (length vs))) \/
  (no_sum f s vs /\ leaves_range (fsum_accu f true) s vs /\ forall n, leaves_range (fmean_accu f true) (s, n) vs).
Proof.
  revert s. induction vs as [|v vs IH]; intros s S H.
  - left. exists s. split; auto. split; [constructor|]. split; [constructor|]. intros n. cbn. replace (n + 0) with n by lia. constructor.
  - inversion H; subst. assert (P := plus_step s v S ltac:(auto)). destruct (is_finite (plus s v)) eqn:F.
    + destruct P as (P1 & P2 & P3 & P4). destruct (IH (plus s v) P1 ltac:(auto)) as [(t & T1 & T2 & T3 & T4)|(E1 & E2 & E3)].
      * left. exists t. split; auto. split; [econstructor; eauto|]. split.
        -- econstructor; eauto. cbn -[SFadd sum_within]. rewrite within_true, F. reflexivity.
        -- intros n. econstructor; [cbn -[SFadd sum_within]; rewrite within_true, F; reflexivity|].
           replace (n + Z.of_nat (length (v :: vs))) with (n + 1 + Z.of_nat (length vs)) by (cbn [length]; lia). apply T4.
      * right. split; [|split].
        -- destruct E1 as (us & w & ws & t & Q1 & Q2 & Q3). exists (v :: us), w, ws, t. subst vs. repeat split; auto. econstructor; eauto.
        -- destruct E2 as (us & w & ws & y & z & Q1 & Q2 & Q3). exists (v :: us), w, ws, y, z. subst vs. repeat split; auto. econstructor; eauto.
           cbn -[SFadd sum_within]. rewrite within_true, F. reflexivity.
        -- intros n. destruct (E3 (n + 1)) as (us & w & ws & y & z & Q1 & Q2 & Q3). exists (v :: us), w, ws, y, z. subst vs. repeat split; auto. econstructor; eauto.
           cbn -[SFadd sum_within]. rewrite within_true, F. reflexivity.
    + right. split; [|split].
      * exists [], v, vs, s. repeat split; auto. constructor.
      * exists [], v, vs, s, (plus s v). repeat split; [constructor|]. cbn -[SFadd sum_within]. rewrite within_true, F. reflexivity.
      * intros n. exists [], v, vs, (s, n), (plus s v, n + 1). repeat split; [constructor|]. cbn -[SFadd sum_within]. rewrite within_true, F. reflexivity.
Qed.

Lemma sum_stays v w y : a_add (fsum_accu f true) zero v = Some (y, false) -> exists z, a_add (fsum_accu f true) y w = Some (z, false).
Proof.
  cbn -[SFadd sum_within]. rewrite within_true. intros E. assert (E1 : y = plus zero v) by congruence. assert (E2 : is_finite (plus zero v) = false) by congruence.
  eexists. rewrite within_true, add_not_finite; [reflexivity|]. rewrite E1, E2. reflexivity.
Qed.
Lemma mean_stays v w y : a_add (fmean_accu f true) (zero, 0) v = Some (y, false) -> exists z, a_add (fmean_accu f true) y w = Some (z, false).
Proof.
  cbn -[SFadd sum_within]. rewrite within_true. intros E. assert (E1 : y = (plus zero v, 1)) by congruence. assert (E2 : is_finite (plus zero v) = false) by congruence.
  eexists. rewrite within_true, add_not_finite; [reflexivity|]. rewrite E1. cbn [fst]. rewrite E2. reflexivity.
Qed.

(** *** Without *)
Lemma sum_plain vs s : accumulates (fsum_accu f false) s vs (fold_left plus vs s).
Proof. revert s. induction vs; intros s; cbn [fold_left]; econstructor; eauto. reflexivity. Qed.
Lemma mean_plain vs s n : accumulates (fmean_accu f false) (s, n) vs (fold_left plus vs s, n + Z.of_nat (length vs)).
Proof.
  revert s n. induction vs as [|v vs IH]; intros s n; cbn [fold_left].
  - cbn. replace (n + 0) with n by lia. constructor.
  - econstructor; [reflexivity|]. cbn [fst snd]. replace (n + Z.of_nat (length (v :: vs))) with (n + 1 + Z.of_nat (length vs)) by (cbn [length]; lia). apply IH.
Qed.
Lemma not_finite_stays vs s : is_finite s = false -> is_finite (fold_left plus vs s) = false.
Proof. revert s. induction vs; intros s H; cbn [fold_left]; auto. apply IHvs. apply add_not_finite. rewrite H. reflexivity. Qed.
Lemma fold_cases vs s : is_number s -> floats f vs ->
  (is_number (fold_left plus vs s) /\ rounded_sum f s vs (fold_left plus vs s)) \/
  (no_sum f s vs /\ is_finite (fold_left plus vs s) = false).
Proof.
  revert s. induction vs as [|v vs IH]; intros s S H; cbn [fold_left].
  - left. split; auto. constructor.
  - inversion H; subst. assert (P := plus_step s v S ltac:(auto)). destruct (is_finite (plus s v)) eqn:F.
    + destruct P as (P1 & P2 & P3 & P4). destruct (IH (plus s v) P1 ltac:(auto)) as [[T1 T2]|[E1 E2]].
      * left. split; auto. econstructor; eauto.
      * right. split; auto. destruct E1 as (us & w & ws & t & Q1 & Q2 & Q3). exists (v :: us), w, ws, t. subst vs. repeat split; auto. econstructor; eauto.
    + right. split; [|apply not_finite_stays; auto]. exists [], v, vs, s. repeat split; auto. constructor.
Qed.

(** *** The mean *)
Lemma number_bound x : is_number x -> ~ overflows f (fvalue f x) 1.
Proof.
  intros X O. apply overflows_iff in O. apply (number_not_too_large prec emax (fprec_gt f) (fprec_lt f) x (step f)); auto.
  - apply step_pos.
  - unfold fvalue in O. rewrite Z.mul_1_l in O. exact O.
Qed.

Lemma one_number : exists w, is_number w /\ fvalue f w = one.
Proof.
  destruct f; [exists (S754_finite false 8388608 (-23))|exists (S754_finite false 4503599627370496 (-52))]; split; try (split; reflexivity); vm_compute; reflexivity.
Qed.

Lemma count_converted n : 1 <= n < 2 ^ 64 -> is_number (to_format f (NInt U64 n)) /\ nearest f (n * one) 1 (to_format f (NInt U64 n)) /\ one <= fvalue f (to_format f (NInt U64 n)).
Proof.
  intros H. assert (H' : imin U64 <= n <= imax U64) by (cbn; lia).
  destruct (to_format_converted f (NInt U64 n) H' eq_refl) as [_ [C _]]; [discriminate|]. cbn [value] in C.
  split; [apply C|]. split; auto. destruct C as [C1 C2]. destruct one_number as (w & W1 & W2). specialize (C2 w W1). rewrite W2 in C2.
  assert (P := one_pos). rewrite !Z.mul_1_r in C2. assert (one <= n * one) by nia. lia.
Qed.

Lemma mean_value t n : is_number t -> 1 <= n < 2 ^ 64 ->
  exists r, fmean_result f (t, n) = Some r /\ is_number r /\ rounded_mean f t n r.
Proof.
  intros T H. destruct (count_converted n H) as (C1 & C2 & C3). set (c := to_format f (NInt U64 n)) in *.
  unfold fmean_result. cbn [fst snd]. replace (n =? 0) with false by (symmetry; apply Z.eqb_neq; lia). fold c.
  eexists. split; [reflexivity|]. assert (P := one_pos). assert (R := div_rounding f t c T C1 ltac:(lia)).
  rewrite (Z.sgn_pos (fvalue f c)), (Z.abs_eq (fvalue f c)), Z.mul_1_l in R by lia. assert (O := rounding_outcome f _ _ _ R). rewrite isfinite_eq in O.
  destruct (is_finite (SFdiv prec emax t c)) eqn:F.
  - split; [split; auto; apply R|]. exists c. split; auto. apply O.
  - exfalso. apply (number_bound t T). unfold overflows in *. rewrite Z.abs_mul, (Z.abs_eq one) in O by lia. rewrite Z.mul_1_r.
    assert (0 < 2 * largest f + largest_step f) by (destruct f; vm_compute; reflexivity). nia.
Qed.
End Format.

Lemma valid_length {V} (ip : inpol V) a m l : (length (valid_values ip a m l) <= length l)%nat.
Proof.
  induction l as [|i l IH]; [cbn; lia|]. unfold valid_values in *. cbn [flat_map length]. rewrite app_length. destruct (arg_at ip a m i); cbn [length]; lia.
Qed.

(** ** Exact sums *)
Section Exact.
Variable f : fmt.
Notation prec := (fprec f).
Notation emax := (femax f).
Notation plus := (SFadd prec emax).
Notation is_number := (IeeeSpec.is_number prec emax).

(** The number with value [z] that a sum can have: zero is positive *)
Definition canon (x : spec_float) (z : Z) : Prop := is_number x /\ fvalue f x = z /\ x <> S754_zero true.

Lemma finite_nonzero s m e : is_number (S754_finite s m e) -> fvalue f (S754_finite s m e) <> 0.
Proof.
  intros [X _]. assert (B := finite_exponent _ _ _ _ _ X). unfold fvalue. cbn [units]. assert (S := step_pos f).
  assert (P := pow2_pos (e - emin prec emax) ltac:(lia)). destruct s; nia.
Qed.

Lemma canon_unique x y z : canon x z -> canon y z -> x = y.
Proof.
  intros (X1 & X2 & X3) (Y1 & Y2 & Y3). destruct (Z.eq_dec z 0) as [->|N].
  - destruct x as [[]|s| |s m e]; try (destruct X1; discriminate); [congruence| |exfalso; eapply finite_nonzero; eauto].
    destruct y as [[]|s| |s m e]; try (destruct Y1; discriminate); [congruence|auto|exfalso; eapply finite_nonzero; eauto].
  - apply (number_inj f); auto; congruence.
Qed.

Lemma plus_zero x y : is_number x -> is_number y -> x <> S754_zero true -> fvalue f x + fvalue f y = 0 -> plus x y = S754_zero false.
Proof.
  intros X Y N E. destruct x as [sx|s| |sx mx ex]; try (destruct X; discriminate); destruct y as [sy|s| |sy my ey]; try (destruct Y; discriminate).
  - destruct sx; [congruence|]. destruct sy; reflexivity.
  - exfalso. apply (finite_nonzero _ _ _ Y). unfold fvalue in *. cbn [units] in *. lia.
  - exfalso. apply (finite_nonzero _ _ _ X). unfold fvalue in *. cbn [units] in *. lia.
  - cbn [SFadd]. destruct X as [X _], Y as [Y _]. assert (BX := finite_exponent _ _ _ _ _ X). assert (BY := finite_exponent _ _ _ _ _ Y).
    set (ez := Z.min ex ey). assert (UX := units_aligned prec emax sx mx ex ez ltac:(unfold ez; lia)). assert (UY := units_aligned prec emax sy my ey ez ltac:(unfold ez; lia)).
    set (a := cond_Zopp sx (Z.pos (fst (shl_align mx ex ez)))) in *. set (b := cond_Zopp sy (Z.pos (fst (shl_align my ey ez)))) in *.
    assert (P := pow2_pos (ez - emin prec emax) ltac:(unfold ez; lia)). assert (S := step_pos f). unfold fvalue in E. rewrite <- UX, <- UY in E.
    assert (Q : (a + b) * (2 ^ (ez - emin prec emax) * step f) = 0) by (rewrite <- E; ring).
    apply Z.mul_eq_0 in Q. assert (a + b = 0) as -> by nia. reflexivity.
Qed.

Lemma plus_exact g x a v b : grain f g -> canon x (a * g) -> is_number v -> fvalue f v = b * g -> Z.abs (a + b) < 2 ^ prec ->
  canon (plus x v) ((a + b) * g).
Proof.
  intros (k & K & G) (X1 & X2 & X3) V1 V2 B. assert (S := step_pos f). assert (P := pow2_pos k ltac:(lia)).
  assert (E : fvalue f x + fvalue f v = (a + b) * g) by (rewrite X2, V2; ring).
  destruct (representable_signed prec emax (fprec_gt f) (fprec_lt f) ((a + b) * 2 ^ k) (Z.abs (a + b)) k) as (w & W1 & W2); [lia|lia| |].
  { rewrite Z.abs_mul, (Z.abs_eq (2 ^ k)) by lia. reflexivity. }
  assert (FW : fvalue f w = (a + b) * g) by (unfold fvalue; rewrite W2, G; ring).
  assert (R := add_rounding f x v X1 V1).
  destruct (rounding_exact prec emax (fprec_gt f) (fprec_lt f) _ (1 * step f) _ w ltac:(lia) R W1) as [R1 R2].
  { rewrite E, <- FW. unfold fvalue. ring. }
  assert (FR : fvalue f (plus x v) = (a + b) * g) by (rewrite <- FW; unfold fvalue; rewrite R2; reflexivity).
  split; auto. split; auto. intros C. destruct (Z.eq_dec ((a + b) * g) 0) as [Z0|NZ].
  - rewrite (plus_zero x v) in C by (auto; congruence). discriminate.
  - apply NZ. rewrite <- FR, C. reflexivity.
Qed.

Lemma total_cons z zs : total (z :: zs) = z + total zs. Proof. reflexivity. Qed.
Lemma magnitude_cons z zs : magnitude (z :: zs) = Z.abs z + magnitude zs. Proof. reflexivity. Qed.
Lemma magnitude_nonneg zs : 0 <= magnitude zs.
Proof. induction zs; [reflexivity|]. rewrite magnitude_cons. lia. Qed.
Lemma magnitude_total zs : Z.abs (total zs) <= magnitude zs.
Proof. induction zs; [reflexivity|]. rewrite magnitude_cons, total_cons. lia. Qed.
Lemma magnitude_app xs ys : magnitude (xs ++ ys) = magnitude xs + magnitude ys.
Proof. induction xs; [reflexivity|]. cbn [app]. rewrite !magnitude_cons. lia. Qed.
Lemma total_app xs ys : total (xs ++ ys) = total xs + total ys.
Proof. induction xs; [reflexivity|]. cbn [app]. rewrite !total_cons. lia. Qed.

Lemma sum_within_finite policy s v r : is_finite r = true -> sum_within f policy s v r = true.
Proof. intros F. destruct policy; [rewrite within_true; auto|reflexivity]. Qed.

(** The sums, with and without the policy, and the counts *)
Lemma exact_accumulates policy g vs zs x a n : grain f g -> multiples f g vs zs -> canon x (a * g) -> Z.abs a + magnitude zs < 2 ^ prec ->
  exists t, canon t ((a + total zs) * g) /\ accumulates (fsum_accu f policy) x vs t /\
    accumulates (fmean_accu f policy) (x, n) vs (t, n + Z.of_nat (length vs)).
Proof.
  intros G M. revert x a n. induction M as [|v z vs zs [V1 V2] M IH]; intros x a n X B.
  - exists x. cbn [total fold_right length]. replace (a + 0) with a by lia. split; auto. split; [constructor|]. cbn. replace (n + 0) with n by lia. constructor.
  - assert (MN := magnitude_nonneg zs). assert (MC : magnitude (z :: zs) = Z.abs z + magnitude zs) by reflexivity.
    assert (C := plus_exact g x a v z G X V1 V2 ltac:(lia)).
    destruct (IH (plus x v) (a + z) (n + 1) C ltac:(lia)) as (t & T1 & T2 & T3). exists t.
    assert (F : is_finite (plus x v) = true) by apply C. split; [|split].
    + rewrite total_cons, Z.add_assoc. auto.
    + econstructor; eauto. cbn -[SFadd sum_within]. rewrite sum_within_finite by auto. reflexivity.
    + econstructor; [cbn -[SFadd sum_within]; rewrite sum_within_finite by auto; reflexivity|].
      replace (n + Z.of_nat (length (v :: vs))) with (n + 1 + Z.of_nat (length vs)) by (cbn [length]; lia). auto.
Qed.

Lemma acc_det {V A} (acc : accu V A) x vs y z : accumulates acc x vs y -> accumulates acc x vs z -> y = z.
Proof. induction 1 as [|x v y vs z' E _ IH]; intros H; inversion H; subst; auto. apply IH. congruence. Qed.

Lemma zero_canon : canon (S754_zero false) (0 * 1). Proof. split; [split; reflexivity|]. split; [reflexivity|discriminate]. Qed.

Lemma multiples_split g vs zs xs ys : multiples f g vs zs -> vs = xs ++ ys ->
  exists zx zy, zs = zx ++ zy /\ multiples f g xs zx /\ multiples f g ys zy.
Proof. intros M ->. apply Forall2_app_inv_l in M. destruct M as (zx & zy & M1 & M2 & ->). eauto. Qed.

Lemma exact_mergeable policy g vs zs : grain f g -> multiples f g vs zs -> magnitude zs < 2 ^ prec ->
  mergeable (fsum_accu f policy) vs /\ mergeable (fmean_accu f policy) vs.
Proof.
  intros G M B. assert (Z0 : canon (S754_zero false) (0 * g)) by exact zero_canon.
  assert (ACC : forall xs us ws, vs = us ++ xs ++ ws -> exists zx, multiples f g xs zx /\ magnitude zx < 2 ^ prec).
  { intros xs us ws E. destruct (multiples_split g vs zs us (xs ++ ws) M E) as (z1 & z2 & E1 & _ & M2).
    destruct (multiples_split g _ z2 xs ws M2 eq_refl) as (z3 & z4 & E2 & M3 & _). exists z3. split; auto. subst zs z2.
    rewrite !magnitude_app in B. assert (A1 := magnitude_nonneg z1). assert (A2 := magnitude_nonneg z4). lia. }
  assert (MER : forall xs ys ws, vs = xs ++ ys ++ ws -> exists t1 t2,
     accumulates (fsum_accu f policy) (S754_zero false) xs t1 /\ accumulates (fsum_accu f policy) (S754_zero false) ys t2 /\
     accumulates (fmean_accu f policy) (S754_zero false, 0) xs (t1, Z.of_nat (length xs)) /\ accumulates (fmean_accu f policy) (S754_zero false, 0) ys (t2, Z.of_nat (length ys)) /\
     is_finite (plus t1 t2) = true /\
     accumulates (fsum_accu f policy) (S754_zero false) (xs ++ ys) (plus t1 t2) /\
     accumulates (fmean_accu f policy) (S754_zero false, 0) (xs ++ ys) (plus t1 t2, Z.of_nat (length xs) + Z.of_nat (length ys))).
  { intros xs ys ws E. destruct (multiples_split g vs zs xs (ys ++ ws) M E) as (z1 & z2 & E1 & M1 & M2).
    destruct (multiples_split g _ z2 ys ws M2 eq_refl) as (z3 & z4 & E2 & M3 & _). subst zs z2. rewrite !magnitude_app in B.
    assert (A1 := magnitude_nonneg z1). assert (A2 := magnitude_nonneg z4). assert (A3 := magnitude_nonneg z3).
    destruct (exact_accumulates policy g xs z1 _ 0 0 G M1 Z0 ltac:(lia)) as (t1 & T1 & T2 & T3).
    destruct (exact_accumulates policy g ys z3 _ 0 0 G M3 Z0 ltac:(lia)) as (t2 & U1 & U2 & U3).
    assert (M13 : multiples f g (xs ++ ys) (z1 ++ z3)) by (apply Forall2_app; auto).
    destruct (exact_accumulates policy g (xs ++ ys) (z1 ++ z3) _ 0 0 G M13 Z0) as (t3 & S1 & S2 & S3); [rewrite magnitude_app; lia|].
    assert (C : canon (plus t1 t2) ((0 + total z1 + (0 + total z3)) * g)).
    { apply plus_exact; auto; try apply U1. assert (D1 := magnitude_total z1). assert (D2 := magnitude_total z3). lia. }
    assert (EQ : t3 = plus t1 t2).
    { eapply canon_unique; [exact S1|]. rewrite total_app. replace (0 + (total z1 + total z3)) with (0 + total z1 + (0 + total z3)) by lia. exact C. }
    exists t1, t2. rewrite EQ in *. rewrite app_length, Nat2Z.inj_add in S3. rewrite !Z.add_0_l in *. repeat split; auto. apply C. }
  split; split.
  - intros us xs ws E. destruct (ACC xs us ws E) as (zx & M1 & B1).
    destruct (exact_accumulates policy g xs zx _ 0 0 G M1 Z0 ltac:(lia)) as (t1 & T1 & T2 & T3). eauto.
  - intros xs ys ws x y E X Y. destruct (MER xs ys ws E) as (t1 & t2 & H1 & H2 & _ & _ & F & H3 & _).
    assert (x = t1) as -> by (eapply acc_det; eauto). assert (y = t2) as -> by (eapply acc_det; eauto).
    eexists. split; [|exact H3]. cbn -[SFadd sum_within]. rewrite sum_within_finite by auto. reflexivity.
  - intros us xs ws E. destruct (ACC xs us ws E) as (zx & M1 & B1).
    destruct (exact_accumulates policy g xs zx _ 0 0 G M1 Z0 ltac:(lia)) as (t1 & T1 & T2 & T3). eauto.
  - intros xs ys ws x y E X Y. destruct (MER xs ys ws E) as (t1 & t2 & _ & _ & H1 & H2 & F & _ & H3).
    assert (x = (t1, Z.of_nat (length xs))) as -> by (eapply acc_det; eauto). assert (y = (t2, Z.of_nat (length ys))) as -> by (eapply acc_det; eauto).
    eexists. split; [|exact H3]. cbn -[SFadd sum_within Z.of_nat]. rewrite sum_within_finite by auto. reflexivity.
Qed.
End Exact.

(** ** What is not negative *)
Section Sign.
Variable f : fmt.
Notation prec := (fprec f).
Notation emax := (femax f).

(** Without a sign and not NaN *)
Definition unsigned (x : spec_float) : Prop :=
  match x with S754_zero s => s = false | S754_infinity s => s = false | S754_nan => False | S754_finite s _ _ => s = false end.

Lemma shr_1_nonneg r : 0 <= shr_m r -> 0 <= shr_m (shr_1 r).
Proof. destruct r as [m r s]. cbn [shr_m]. intros H. unfold shr_1. destruct m as [|[p|p|]|[p|p|]]; cbn; lia. Qed.
Lemma iter_shr_nonneg p r : 0 <= shr_m r -> 0 <= shr_m (iter_pos shr_1 p r).
Proof. revert r. induction p; intros r H; cbn [iter_pos]; auto using shr_1_nonneg. Qed.
Lemma shr_fexp_nonneg m e l : 0 <= m -> 0 <= shr_m (fst (shr_fexp prec emax m e l)).
Proof.
  intros H. unfold shr_fexp, shr. destruct (loc_record m l) as [_ E].
  destruct (fexp prec emax (Zdigits2 m + e) - e); cbn [fst]; try (rewrite E; auto). apply iter_shr_nonneg. rewrite E. auto.
Qed.
Lemma rne_nonneg m l : 0 <= m -> 0 <= round_nearest_even m l.
Proof. intros H. unfold round_nearest_even. destruct l as [|[]]; try lia. destruct (Z.even m); lia. Qed.

Lemma round_aux_unsigned m e l : 0 <= m -> unsigned (binary_round_aux prec emax false m e l).
Proof.
  intros H. unfold binary_round_aux. assert (A := shr_fexp_nonneg m e l H). destruct (shr_fexp prec emax m e l) as [r1 e1]. cbn [fst] in A.
  assert (B := shr_fexp_nonneg _ e1 loc_Exact (rne_nonneg (shr_m r1) (loc_of_shr_record r1) A)).
  destruct (shr_fexp prec emax (round_nearest_even (shr_m r1) (loc_of_shr_record r1)) e1 loc_Exact) as [r2 e2]. cbn [fst] in B.
  destruct (shr_m r2); [reflexivity| |lia]. destruct (Zle_bool e2 (emax - prec)); reflexivity.
Qed.
Lemma normalize_unsigned m e : 0 <= m -> unsigned (binary_normalize prec emax m e false).
Proof.
  intros H. destruct m as [|p|p]; cbn [binary_normalize]; [reflexivity| |lia]. unfold binary_round.
  destruct (shl_align p e (fexp prec emax (Z.pos (digits2_pos p) + e))) as [mz ez]. apply round_aux_unsigned. lia.
Qed.

Lemma square_unsigned x : is_nan x = false -> unsigned (SFmul prec emax x x).
Proof.
  intros N. destruct x as [s|s| |s m e]; try discriminate; cbn [SFmul]; rewrite xorb_nilpotent; try reflexivity. apply round_aux_unsigned. lia.
Qed.
Lemma plus_unsigned x y : unsigned x -> unsigned y -> unsigned (SFadd prec emax x y).
Proof.
  intros X Y. destruct x as [s|s| |s m e], y as [t|t| |t n d]; try contradiction; cbn [unsigned] in *; subst; cbn [SFadd Bool.eqb]; try reflexivity.
  apply normalize_unsigned. cbn [cond_Zopp]. lia.
Qed.
Lemma div_core_nonneg m e n d : let '(q, _, _) := SFdiv_core_binary prec emax (Z.pos m) e (Z.pos n) d in 0 <= q.
Proof.
  unfold SFdiv_core_binary. set (e' := Z.min _ _). set (s := _ - e').
  set (m' := match s with Zpos _ => _ | Z0 => _ | _ => _ end).
  assert (0 <= m').
  { unfold m'. destruct s; try lia. apply Z.shiftl_nonneg. lia. }
  assert (E := Z.div_eucl_eq m' (Z.pos n) ltac:(lia)). assert (D : fst (Z.div_eucl m' (Z.pos n)) = m' / Z.pos n) by reflexivity.
  destruct (Z.div_eucl m' (Z.pos n)) as [q r]. cbn [fst] in D. rewrite D. apply Z.div_pos; lia.
Qed.
Lemma div_unsigned x m e : unsigned x -> unsigned (SFdiv prec emax x (S754_finite false m e)).
Proof.
  intros X. destruct x as [s|s| |s n d]; try contradiction; cbn [unsigned] in *; subst; cbn [SFdiv xorb]; try reflexivity.
  assert (Q := div_core_nonneg n d m e). destruct (SFdiv_core_binary prec emax (Z.pos n) d (Z.pos m) e) as [[q eq] l]. apply round_aux_unsigned. auto.
Qed.
Lemma sqrt_unsigned x : unsigned x -> unsigned (SFsqrt prec emax x).
Proof.
  intros X. destruct x as [s|s| |s n d]; try contradiction; cbn [unsigned] in *; subst; cbn [SFsqrt]; try reflexivity.
  unfold SFsqrt_core_binary. set (e' := Z.min _ _). set (s := _ - _).
  match goal with |- context [Z.sqrtrem ?a] => set (a' := a) end.
  assert (E : fst (Z.sqrtrem a') = Z.sqrt a') by apply Z.sqrtrem_sqrt. destruct (Z.sqrtrem a') as [q r]. cbn [fst] in E.
  apply round_aux_unsigned. rewrite E. apply Z.sqrt_nonneg.
Qed.
Lemma unsigned_nonnegative x : unsigned x -> nonnegative f x.
Proof.
  intros U. destruct x as [s|s| |s m e]; try contradiction; cbn [unsigned] in U; subst; [right|left; reflexivity|right]; split; auto.
  - unfold fvalue. cbn [units]. lia.
  - unfold fvalue. cbn [units]. assert (S := step_pos f). assert (P : 0 <= 2 ^ (e - emin prec emax)) by (apply Z.pow_nonneg; lia). nia.
Qed.

(** Sums of finite numbers are not NaN, nor are differences with one *)
Lemma plus_not_nan x v : is_nan x = false -> is_float prec emax x -> is_number prec emax v -> is_nan (SFadd prec emax x v) = false /\ is_float prec emax (SFadd prec emax x v).
Proof.
  intros N X V. destruct (is_finite x) eqn:F.
  - destruct (add_rounding f x v (conj X F) V) as [RF [[_ E]|[_ [[_ C] _]]]]; split; auto; [rewrite E; reflexivity|].
    destruct (SFadd prec emax x v); auto; discriminate.
  - destruct x as [s|s| |s m e]; try discriminate. destruct V as [V1 V2]. destruct v; try discriminate; split; reflexivity.
Qed.
Lemma minus_not_nan x v : is_nan x = false -> is_float prec emax x -> is_number prec emax v -> is_nan (SFsub prec emax x v) = false.
Proof.
  intros N X V. destruct (is_finite x) eqn:F.
  - destruct (sub_rounding f x v (conj X F) V) as [RF [[_ E]|[_ [[_ C] _]]]]; [rewrite E; reflexivity|].
    destruct (SFsub prec emax x v); auto; discriminate.
  - destruct x as [s|s| |s m e]; try discriminate. destruct V as [V1 V2]. destruct v; try discriminate; reflexivity.
Qed.
Lemma fold_not_nan vs x : is_nan x = false -> is_float prec emax x -> Forall (is_number prec emax) vs ->
  is_nan (fold_left (SFadd prec emax) vs x) = false /\ is_float prec emax (fold_left (SFadd prec emax) vs x).
Proof.
  revert x. induction vs as [|v vs IH]; intros x N X H; cbn [fold_left]; auto. inversion H; subst.
  destruct (plus_not_nan x v N X ltac:(auto)). apply IH; auto.
Qed.
Lemma squares_unsigned mean vs r : is_nan mean = false -> is_float prec emax mean -> Forall (is_number prec emax) vs -> unsigned r ->
  unsigned (fold_left (fun r v => SFadd prec emax r (fsquare_dev f mean v)) vs r).
Proof.
  intros N X. revert r. induction vs as [|v vs IH]; intros r H U; cbn [fold_left]; auto. inversion H; subst.
  apply IH; auto. apply plus_unsigned; auto. apply square_unsigned. apply minus_not_nan; auto.
Qed.

Lemma variance_accumulates vs x n l : accumulates (fvariance_accu f) ((x, n), l) vs ((fold_left (SFadd prec emax) vs x, n + Z.of_nat (length vs)), l ++ vs).
Proof.
  revert x n l. induction vs as [|v vs IH]; intros x n l; cbn [fold_left].
  - rewrite app_nil_r. cbn. replace (n + 0) with n by lia. constructor.
  - econstructor; [reflexivity|]. cbn [fst snd]. replace (n + Z.of_nat (length (v :: vs))) with (n + 1 + Z.of_nat (length vs)) by (cbn [length]; lia).
    replace (l ++ v :: vs) with ((l ++ [v]) ++ vs) by (rewrite <- app_assoc; reflexivity). apply IH.
Qed.
Lemma deviation_accumulates vs x y : accumulates (fvariance_accu f) x vs y -> accumulates (fdeviation_accu f) x vs y.
Proof. induction 1; econstructor; eauto. Qed.

Lemma div_not_nan x n : is_nan x = false -> is_float prec emax x -> 1 <= n < 2 ^ 64 ->
  is_nan (SFdiv prec emax x (to_format f (NInt U64 n))) = false /\ is_float prec emax (SFdiv prec emax x (to_format f (NInt U64 n))).
Proof.
  intros N X H. destruct (is_finite x) eqn:F.
  - destruct (mean_value f x n (conj X F) H) as (r & R & RN & _). unfold fmean_result in R. cbn [fst snd] in R.
    replace (n =? 0) with false in R by (symmetry; apply Z.eqb_neq; lia). assert (E : SFdiv prec emax x (to_format f (NInt U64 n)) = r) by congruence. rewrite E. destruct RN as [R1 R2]. split; auto. destruct r; auto; discriminate.
  - destruct (count_converted f n H) as (C1 & _ & C3). destruct x as [s|s| |s m e]; try discriminate.
    assert (P := one_pos). destruct (to_format f (NInt U64 n)) as [s1|s1| |s1 m1 e1]; try (destruct C1; discriminate).
    + unfold fvalue in C3. cbn [units] in C3. lia.
    + split; reflexivity.
Qed.
Lemma count_finite n : 1 <= n < 2 ^ 64 -> exists m e, to_format f (NInt U64 n) = S754_finite false m e.
Proof.
  intros H. destruct (count_converted f n H) as (C1 & _ & C3). assert (P := one_pos).
  destruct (to_format f (NInt U64 n)) as [s1|s1| |s1 m1 e1]; try (destruct C1; discriminate).
  - unfold fvalue in C3. cbn [units] in C3. lia.
  - destruct s1; eauto. exfalso. destruct C1 as [C1 _]. assert (B := finite_exponent _ _ _ _ _ C1). unfold fvalue in C3. cbn [units] in C3.
    assert (Q := pow2_pos (e1 - emin prec emax) ltac:(lia)). assert (S := step_pos f). nia.
Qed.

Lemma variance_value vs : vs <> [] -> Z.of_nat (length vs) < 2 ^ 64 -> Forall (is_number prec emax) vs ->
  exists v, fvariance_result f ((fold_left (SFadd prec emax) vs (S754_zero false), Z.of_nat (length vs)), vs) = Some v /\ unsigned v.
Proof.
  intros N L H. assert (LN : 1 <= Z.of_nat (length vs) < 2 ^ 64) by (destruct vs; [congruence|cbn [length] in *; lia]).
  destruct (fold_not_nan vs (S754_zero false) eq_refl eq_refl H) as [S1 S2].
  destruct (div_not_nan _ _ S1 S2 LN) as [M1 M2]. destruct (count_finite _ LN) as (cm & ce & C).
  unfold fvariance_result, fmean_result. cbn [fst snd]. replace (Z.of_nat (length vs) =? 0) with false by (symmetry; apply Z.eqb_neq; lia).
  cbn [obind]. eexists. split; [destruct vs; [congruence|reflexivity]|]. rewrite C in *. apply div_unsigned. apply squares_unsigned; auto. reflexivity.
Qed.

(** ** Each step of the variance *)
Lemma unsigned_infinity x : unsigned x -> is_finite x = false -> x = S754_infinity false.
Proof. destruct x as [s|s| |s m e]; cbn [unsigned is_finite]; intros; try discriminate; try contradiction. congruence. Qed.
Lemma not_nan_infinity x : is_nan x = false -> is_finite x = false -> exists s, x = S754_infinity s.
Proof. destruct x as [s|s| |s m e]; cbn [is_nan is_finite]; intros; try discriminate. eauto. Qed.

Lemma square_step mean v : is_number prec emax mean -> is_number prec emax v ->
  (is_number prec emax (fsquare_dev f mean v) /\ exists d, nearest f (fvalue f mean - fvalue f v) 1 d /\ ~ overflows f (fvalue f mean - fvalue f v) 1 /\
     nearest f (fvalue f d * fvalue f d) one (fsquare_dev f mean v) /\ ~ overflows f (fvalue f d * fvalue f d) one) \/
  (fsquare_dev f mean v = S754_infinity false /\
     (overflows f (fvalue f mean - fvalue f v) 1 \/ exists d, nearest f (fvalue f mean - fvalue f v) 1 d /\ overflows f (fvalue f d * fvalue f d) one)).
Proof.
  intros M V. assert (R := sub_rounding f mean v M V). assert (O := rounding_outcome f _ _ _ R). rewrite isfinite_eq in O.
  assert (NN := rounding_not_nan prec emax _ _ _ R). unfold fsquare_dev. set (d := SFsub prec emax mean v) in *. destruct (is_finite d) eqn:F.
  - destruct O as [O1 O2]. assert (D : is_number prec emax d) by apply O1. assert (R2 := mul_rounding f d d D D). assert (P := rounding_outcome f _ _ _ R2). rewrite isfinite_eq in P.
    assert (U := square_unsigned d NN). destruct (is_finite (SFmul prec emax d d)) eqn:F2.
    + left. destruct P as [P1 P2]. split; [apply P1|]. exists d. auto.
    + right. split; [apply unsigned_infinity; auto|]. right. exists d. auto.
  - right. destruct (not_nan_infinity d NN F) as [s ->]. split; [destruct s; reflexivity|auto].
Qed.

Lemma infinity_stays mean vs : is_nan mean = false -> is_float prec emax mean -> Forall (is_number prec emax) vs ->
  fold_left (fun r v => SFadd prec emax r (fsquare_dev f mean v)) vs (S754_infinity false) = S754_infinity false.
Proof.
  intros N X. induction vs as [|v vs IH]; intros H; cbn [fold_left]; auto. inversion H; subst.
  assert (U : unsigned (fsquare_dev f mean v)) by (apply square_unsigned, minus_not_nan; auto).
  replace (SFadd prec emax (S754_infinity false) (fsquare_dev f mean v)) with (S754_infinity false); auto.
  destruct (fsquare_dev f mean v) as [s|s| |s m e]; cbn [unsigned] in U; try contradiction; subst; reflexivity.
Qed.

Lemma squares_cases mean vs s : is_number prec emax mean -> is_number prec emax s -> unsigned s -> Forall (is_number prec emax) vs ->
  let t := fold_left (fun r v => SFadd prec emax r (fsquare_dev f mean v)) vs s in
  (is_number prec emax t /\ rounded_squares f mean s vs t) \/ (t = S754_infinity false /\ squares_overflow f mean s vs).
Proof.
  intros M. assert (NM : is_nan mean = false) by (destruct M as [_ M]; destruct mean; auto; discriminate).
  revert s. induction vs as [|v vs IH]; intros s S U H; cbn [fold_left]; [left; split; auto; constructor|]. inversion H as [|? ? V H']; subst.
  assert (UQ : unsigned (fsquare_dev f mean v)) by (apply square_unsigned, minus_not_nan; auto; apply M).
  destruct (square_step mean v M V) as [(Q & d & D1 & D2 & D3 & D4)|(Q & D)].
  - assert (P := plus_step f s _ S (proj1 Q)). assert (UP := plus_unsigned s _ U UQ). destruct (is_finite (SFadd prec emax s (fsquare_dev f mean v))) eqn:F.
    + destruct P as (P1 & _ & P2 & P3). destruct (IH _ P1 UP H') as [[T1 T2]|[T1 T2]].
      * left. split; auto. econstructor; eauto.
      * right. split; auto. eapply later_overflows; eauto.
    + right. rewrite (unsigned_infinity _ UP F). split; [apply infinity_stays; auto; apply M|].
      destruct P as [P|P]; [destruct Q; congruence|]. eapply added_overflows; eauto.
  - right. rewrite Q. replace (SFadd prec emax s (S754_infinity false)) with (S754_infinity false) by (destruct s as [|[]| |]; cbn [unsigned] in U; try contradiction; try discriminate; reflexivity).
    split; [apply infinity_stays; auto; apply M|]. destruct D as [D|(d & D1 & D2)]; [apply difference_overflows; auto|eapply square_overflows; eauto].
Qed.

Lemma infinite_mean s vs : vs <> [] -> Forall (is_number prec emax) vs ->
  fold_left (fun r v => SFadd prec emax r (fsquare_dev f (S754_infinity s) v)) vs (S754_zero false) = S754_infinity false.
Proof.
  intros N H. destruct vs as [|v vs]; [congruence|]. inversion H as [|? ? V H']; subst. cbn [fold_left].
  replace (fsquare_dev f (S754_infinity s) v) with (S754_infinity false) by (destruct V as [_ V]; unfold fsquare_dev; destruct v; try discriminate; destruct s; reflexivity).
  apply infinity_stays; auto; reflexivity.
Qed.

Lemma variance_steps vs v : vs <> [] -> Z.of_nat (length vs) < 2 ^ 64 -> Forall (is_number prec emax) vs ->
  fvariance_result f ((fold_left (SFadd prec emax) vs (S754_zero false), Z.of_nat (length vs)), vs) = Some v ->
  (is_number prec emax v /\ rounded_variance f vs v) \/ (v = S754_infinity false /\ variance_overflows f vs).
Proof.
  intros N L H E. assert (LN : 1 <= Z.of_nat (length vs) < 2 ^ 64) by (destruct vs; [congruence|cbn [length] in *; lia]).
  assert (Z0 : is_number prec emax (S754_zero false)) by (split; reflexivity).
  assert (FL : floats f vs) by (eapply Forall_impl; [|exact H]; intros x X; apply X).
  destruct (fold_not_nan vs (S754_zero false) eq_refl eq_refl H) as [S1 S2]. destruct (count_finite _ LN) as (cm & ce & C).
  assert (EV : forall mean, fmean_result f (fold_left (SFadd prec emax) vs (S754_zero false), Z.of_nat (length vs)) = Some mean ->
    v = SFdiv prec emax (fold_left (fun r v => SFadd prec emax r (fsquare_dev f mean v)) vs (S754_zero false)) (to_format f (NInt U64 (Z.of_nat (length vs))))).
  { intros mean EM. unfold fvariance_result in E. cbn [fst snd] in E. rewrite EM in E. cbn [obind] in E. destruct vs; [congruence|]. congruence. }
  destruct (fold_cases f vs _ Z0 FL) as [[T1 T2]|[T1 T2]].
  - destruct (mean_value f _ _ T1 LN) as (mean & M1 & M2 & M3). specialize (EV mean M1).
    destruct (squares_cases mean vs (S754_zero false) M2 Z0 eq_refl H) as [[Q1 Q2]|[Q1 Q2]].
    + destruct (mean_value f _ _ Q1 LN) as (r & R1 & R2 & R3). unfold fmean_result in R1. cbn [fst snd] in R1.
      destruct (Z.of_nat (length vs) =? 0); [discriminate|]. assert (r = v) by congruence. subst r. left. split; auto. eexists. exists mean. eexists. split; [exact T2|]. split; [exact M3|]. split; [exact Q2|exact R3].
    + right. rewrite Q1, C in EV. split; [exact EV|]. right. eauto.
  - right. split; [|left; auto]. destruct (not_nan_infinity _ S1 T2) as [s ES]. rewrite ES in EV.
    assert (EM : fmean_result f (S754_infinity s, Z.of_nat (length vs)) = Some (S754_infinity s)).
    { unfold fmean_result. cbn [fst snd]. rewrite C. destruct (Z.eqb_spec (Z.of_nat (length vs)) 0); [lia|]. destruct s; reflexivity. }
    specialize (EV _ EM). rewrite infinite_mean, C in EV by auto. exact EV.
Qed.

(** ** One value *)
Lemma one_is : to_format f (NInt U64 1) = match f with Single => S754_finite false 8388608 (-23) | Double => S754_finite false 4503599627370496 (-52) end.
Proof. destruct f; vm_compute; reflexivity. Qed.
Lemma one_value : fvalue f (to_format f (NInt U64 1)) = one.
Proof. rewrite one_is. destruct f; vm_compute; reflexivity. Qed.
Lemma div_one x : is_number prec emax x -> fvalue f x <> 0 -> SFdiv prec emax x (to_format f (NInt U64 1)) = x.
Proof.
  intros X NZ. assert (P := one_pos). assert (S := step_pos f).
  assert (C : is_number prec emax (to_format f (NInt U64 1))) by (rewrite one_is; destruct f; split; reflexivity).
  assert (R := div_rounding f x _ X C). rewrite one_value in R. specialize (R ltac:(lia)).
  rewrite (Z.sgn_pos one), (Z.abs_eq one), Z.mul_1_l in R by lia.
  destruct (rounding_exact prec emax (fprec_gt f) (fprec_lt f) _ (one * step f) _ x ltac:(nia) R X) as [R1 R2]; [unfold fvalue; ring|].
  symmetry. apply (units_inj f); auto. unfold fvalue in NZ. intros E. apply NZ. rewrite E. reflexivity.
Qed.
Lemma minus_self x : is_number prec emax x -> SFsub prec emax x x = S754_zero false.
Proof.
  intros [_ F]. destruct x as [s|s| |s m e]; try discriminate; cbn [SFsub].
  - destruct s; reflexivity.
  - rewrite Z.sub_diag. reflexivity.
Qed.
Lemma single_variance v : is_number prec emax v ->
  fvariance_result f ((SFadd prec emax (S754_zero false) v, 1), [v]) = Some (S754_zero false).
Proof.
  intros V. unfold fvariance_result, fmean_result. cbn [fst snd Z.eqb obind length fold_left Z.of_nat Pos.of_succ_nat].
  assert (K : forall x, SFsub prec emax x v = S754_zero false -> forall r, r = SFadd prec emax (S754_zero false) v -> SFdiv prec emax r (to_format f (NInt U64 1)) = x ->
    Some (SFdiv prec emax (SFadd prec emax (S754_zero false) (fsquare_dev f (SFdiv prec emax r (to_format f (NInt U64 1))) v)) (to_format f (NInt U64 1))) = Some (S754_zero false)).
  { intros x D r _ Q. rewrite Q. unfold fsquare_dev. rewrite D. rewrite one_is. destruct f; reflexivity. }
  assert (VV := V). destruct VV as [V1 V2]. destruct v as [s|s| |s m e]; try discriminate.
  - apply (K (S754_zero false)); [destruct s; reflexivity|reflexivity|]. rewrite one_is. destruct s, f; reflexivity.
  - apply (K (S754_finite s m e)); auto; [apply minus_self; auto|]. change (SFadd prec emax (S754_zero false) (S754_finite s m e)) with (S754_finite s m e).
    apply div_one; auto. apply finite_nonzero; auto.
Qed.
End Sign.
