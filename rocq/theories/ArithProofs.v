From Coq Require Import ZArith QArith Qpower Bool Lia ZifyBool.
From Verif Require Import IntsModel ArithModel ArithSpec.
Open Scope Z_scope.

Ltac ifs :=
  repeat match goal with |- context [if ?b then _ else _] => destruct b eqn:? end.
Ltac types := repeat match goal with t : ity |- _ => destruct t end.

Lemma imax_modulus t : imax t - imin t = modulus t - 1.
Proof. destruct t; reflexivity. Qed.
Lemma modulus_pos t : 0 < modulus t.
Proof. destruct t; reflexivity. Qed.

Lemma conv_id t z : fits_in t z -> conv t z = z.
Proof.
  unfold fits_in, conv. intros. pose proof (imax_modulus t).
  rewrite Z.mod_small; lia.
Qed.
Lemma conv_fits t z : fits_in t (conv t z).
Proof.
  unfold fits_in, conv. pose proof (imax_modulus t).
  pose proof (Z.mod_pos_bound (z - imin t) (modulus t) (modulus_pos t)). lia.
Qed.
Lemma conv_shift t z k : conv t (z + k * modulus t) = conv t z.
Proof.
  unfold conv. replace (z + k * modulus t - imin t) with (z - imin t + k * modulus t) by lia.
  rewrite Z.mod_add; [reflexivity|]. pose proof (modulus_pos t). lia.
Qed.
Lemma conv_over t z : imax t < z <= imax t + modulus t -> conv t z = z - modulus t.
Proof.
  intros. rewrite <- (conv_shift t z (-1)), conv_id; [lia|].
  pose proof (imax_modulus t). unfold fits_in. lia.
Qed.
Lemma conv_under t z : imin t - modulus t <= z < imin t -> conv t z = z + modulus t.
Proof.
  intros. rewrite <- (conv_shift t z 1), conv_id; [lia|].
  pose proof (imax_modulus t). unfold fits_in. lia.
Qed.
Lemma conv_conv_promote t z : conv t (conv (promote t) z) = conv t z.
Proof.
  destruct (Z.ltb_spec (width t) 32) as [W|W].
  - assert (exists k, conv (promote t) z = z + k * modulus t) as (k & ->).
    { unfold conv at 1.
      pose proof (Z.div_mod (z - imin (promote t)) (modulus (promote t))) as D.
      pose proof (modulus_pos (promote t)).
      exists (- ((z - imin (promote t)) / modulus (promote t)) *
              (modulus (promote t) / modulus t)).
      specialize (D ltac:(lia)).
      assert (modulus (promote t) = modulus t * (modulus (promote t) / modulus t)) as E
        by (destruct t; vm_compute in W; try discriminate; reflexivity).
      nia. }
    apply conv_shift.
  - replace (promote t) with t by (destruct t; cbn in W; (reflexivity || lia)).
    apply conv_id, conv_fits.
Qed.
Lemma fits_promote t z : fits_in t z -> fits_in (promote t) z.
Proof. destruct t; unfold fits_in; cbn; lia. Qed.

Lemma op_in_fits w op R x y r : op_in w op R x y = Some r -> fits_in R r.
Proof.
  unfold op_in. destruct arith; cbn; [|discriminate]. intros [= <-]. apply conv_fits.
Qed.

Lemma op_in_conv w op R x y r :
  op_in w op R x y = Some r -> r = conv R (op (conv R x) (conv R y)).
Proof.
  unfold op_in, arith. destruct (signed (promote R)).
  - destruct (_ && _); cbn; [now intros [= <-]|].
    destruct w; cbn; [|discriminate]. intros [= <-]. apply conv_conv_promote.
  - cbn. intros [= <-]. apply conv_conv_promote.
Qed.

(** Definedness. *)
Lemma op_in_wrap op R x y : op_in true op R x y <> None.
Proof. unfold op_in, arith. destruct signed; [destruct (_ && _)|]; discriminate. Qed.

Lemma op_in_strict op R x y :
  op_in false op R x y = None <->
  signed (promote R) = true /\ ~ fits_in (promote R) (op (conv R x) (conv R y)).
Proof.
  unfold op_in, arith, fits_in. destruct (signed (promote R)).
  - destruct (_ && _) eqn:E; cbn.
    + split; [discriminate|]. intros [_ H]. exfalso. apply H.
      apply andb_prop in E as [E1 E2]. apply Z.leb_le in E1, E2. auto.
    + split; [|reflexivity]. intros _. split; [reflexivity|]. intros [H1 H2].
      apply Z.leb_le in H1, H2. rewrite H1, H2 in E. discriminate.
  - cbn. split; [discriminate|]. intros [? _]. discriminate.
Qed.

(** Comparisons are exact when both values are representable in the common type. *)
Lemma tv_lt_exact s t x y :
  fits_in (common s t) x -> fits_in (common s t) y -> tv_lt (s, x) (t, y) = (x <? y).
Proof. intros. unfold tv_lt. cbn [fst snd]. now rewrite !conv_id. Qed.
Lemma tv_eq_exact s t x y :
  fits_in (common s t) x -> fits_in (common s t) y -> tv_eq (s, x) (t, y) = (x =? y).
Proof. intros. unfold tv_eq. cbn [fst snd]. now rewrite !conv_id. Qed.

Lemma common_l s t x : signed s = signed t -> fits_in s x -> fits_in (common s t) x.
Proof. types; cbn; intros; try discriminate; unfold fits_in in *; cbn in *; lia. Qed.
Lemma common_r s t x : signed s = signed t -> fits_in t x -> fits_in (common s t) x.
Proof. types; cbn; intros; try discriminate; unfold fits_in in *; cbn in *; lia. Qed.
Lemma common_comm s t : common s t = common t s.
Proof. types; reflexivity. Qed.

Lemma common_imax s t : imax s <= imax (common s t) /\ imin (common s t) <= 0.
Proof. types; cbn; lia. Qed.
Lemma common_nonneg_l s t x : 0 <= x -> fits_in s x -> fits_in (common s t) x.
Proof. unfold fits_in. pose proof (common_imax s t). lia. Qed.
Lemma common_nonneg_r s t x : 0 <= x -> fits_in t x -> fits_in (common s t) x.
Proof. rewrite common_comm. apply common_nonneg_l. Qed.
Lemma imin_signed t : signed t = true -> imin t = - imax t - 1.
Proof. types; cbn; congruence. Qed.
Lemma imin_unsigned t : signed t = false -> imin t = 0.
Proof. types; cbn; congruence. Qed.
Lemma nonneg_unsigned t x : signed t = false -> fits_in t x -> 0 <= x.
Proof. intros H. unfold fits_in. rewrite imin_unsigned by easy. lia. Qed.

Lemma tv_lt_same s t x y :
  signed s = signed t -> fits_in s x -> fits_in t y -> tv_lt (s, x) (t, y) = (x <? y).
Proof. intros. apply tv_lt_exact; auto using common_l, common_r. Qed.
Lemma tv_gt_same s t x y :
  signed s = signed t -> fits_in s x -> fits_in t y -> tv_gt (s, x) (t, y) = (y <? x).
Proof. intros. unfold tv_gt. now apply tv_lt_same. Qed.
Lemma tv_le_same s t x y :
  signed s = signed t -> fits_in s x -> fits_in t y -> tv_le (s, x) (t, y) = (x <=? y).
Proof. intros. unfold tv_le. rewrite tv_lt_same; auto. lia. Qed.
Lemma tv_ge_same s t x y :
  signed s = signed t -> fits_in s x -> fits_in t y -> tv_ge (s, x) (t, y) = (y <=? x).
Proof. intros. unfold tv_ge. rewrite tv_lt_same; auto. lia. Qed.

Lemma tv_gt_zero t x : fits_in t x -> tv_gt (t, x) zero = (0 <? x).
Proof.
  intros. unfold tv_gt, zero. apply tv_lt_exact;
    destruct t; cbn; unfold fits_in in *; cbn in *; lia.
Qed.

Lemma result_same s t : signed s = signed t -> signed (result_int s t) = signed s.
Proof. types; cbn; congruence. Qed.
Lemma result_mixed s t : signed s <> signed t -> signed (result_int s t) = true.
Proof. types; cbn; congruence. Qed.
Lemma result_fits_l s t x : signed s = signed t -> fits_in s x -> fits_in (result_int s t) x.
Proof. types; cbn; intros; try discriminate; unfold fits_in in *; cbn in *; lia. Qed.
Lemma result_fits_r s t x : signed s = signed t -> fits_in t x -> fits_in (result_int s t) x.
Proof. types; cbn; intros; try discriminate; unfold fits_in in *; cbn in *; lia. Qed.
Lemma result_comm s t : result_int s t = result_int t s.
Proof. types; reflexivity. Qed.

(** ** Addition *)

Definition overflow_add (t : ity) (a b r : Z) : Prop :=
  (fits_in t (a + b) /\ r = a + b) \/
  (imax t < a + b /\ r = a + b - modulus t) \/
  (a + b < imin t /\ r = a + b + modulus t).

Lemma conv_add t a b : fits_in t a -> fits_in t b -> overflow_add t a b (conv t (a + b)).
Proof.
  intros A B. unfold overflow_add.
  destruct (Z_le_dec (imin t) (a + b)); [destruct (Z_le_dec (a + b) (imax t))|].
  - left. unfold fits_in. rewrite conv_id; unfold fits_in; lia.
  - right; left. rewrite conv_over; [lia|]. pose proof (imax_modulus t).
    unfold fits_in in *. destruct t; cbn in *; lia.
  - right; right. rewrite conv_under; [lia|]. unfold fits_in in *. destruct t; cbn in *; lia.
Qed.

Lemma conv_sub t a b : fits_in t a -> fits_in t b -> overflow_add t a (-b) (conv t (a - b)).
Proof.
  intros A B. unfold overflow_add. replace (a - b) with (a + - b) by lia.
  destruct (Z_le_dec (imin t) (a + - b)); [destruct (Z_le_dec (a + - b) (imax t))|].
  - left. unfold fits_in. rewrite conv_id; unfold fits_in; lia.
  - right; left. rewrite conv_over; [lia|]. pose proof (imax_modulus t).
    unfold fits_in in *. destruct t; cbn in *; lia.
  - right; right. rewrite conv_under; [lia|]. unfold fits_in in *. destruct t; cbn in *; lia.
Qed.

(** The result is the mathematical one exactly when that is representable. *)
Lemma exact_iff w op R x y r :
  op_in w op R x y = Some r -> fits_in R x -> fits_in R y ->
  (r = op x y <-> fits_in R (op x y)).
Proof.
  intros H X Y. rewrite (op_in_conv _ _ _ _ _ _ H), (conv_id R x), (conv_id R y) by easy.
  split; intros E.
  - rewrite <- E. apply conv_fits.
  - now apply conv_id.
Qed.

Lemma add_same w T1 T2 v1 v2 r :
  signed T1 = signed T2 -> fits_in T1 v1 -> fits_in T2 v2 ->
  add w T1 T2 v1 v2 = Some r ->
  (add_within_range T1 T2 v1 v2 r = true <-> r = v1 + v2).
Proof.
  intros S F1 F2 H. pose proof (op_in_fits _ _ _ _ _ _ H) as FR.
  apply op_in_conv in H.
  pose proof (result_fits_l T1 T2 v1 S F1) as R1. pose proof (result_fits_r T1 T2 v2 S F2) as R2.
  pose proof (result_same _ _ S) as RS.
  rewrite (conv_id _ v1), (conv_id _ v2) in H by easy.
  pose proof (conv_add _ _ _ R1 R2) as D. rewrite <- H in D.
  unfold add_within_range.
  destruct (signed T1) eqn:S1; rewrite <- S.
  - rewrite tv_gt_zero by easy.
    rewrite tv_lt_same, tv_gt_same by congruence.
    unfold overflow_add, fits_in in *. destruct T1, T2; cbn in *; try discriminate; ifs; lia.
  - rewrite tv_lt_same by congruence.
    unfold overflow_add, fits_in in *. destruct T1, T2; cbn in *; try discriminate; ifs; lia.
Qed.

(** Mixed signedness: [s] has signed type [Ts], [u] unsigned type [Tu]. *)
Lemma add_mixed w Ts Tu s u r :
  signed Ts = true -> signed Tu = false -> fits_in Ts s -> fits_in Tu u ->
  add w Ts Tu s u = Some r ->
  (add_within_range Ts Tu s u r = true <->
   (0 < s /\ r = s + u) \/ (s <= 0 /\ (u = 0 \/ (2 ^ 63 <= u /\ 2 ^ 63 <= s + u)))).
Proof.
  intros S1 S2 F1 F2 H. pose proof (op_in_fits _ _ _ _ _ _ H) as FR.
  apply op_in_conv in H.
  unfold add_within_range. rewrite S1, S2.
  rewrite tv_gt_zero by easy.
  assert (signed (result_int Ts Tu) = true) as RS by (apply result_mixed; congruence).
  rewrite tv_le_same, tv_ge_same by congruence.
  assert (fits_in (result_int Ts Tu) s) as R1.
  { destruct Ts, Tu; cbn in *; try discriminate; unfold fits_in in *; cbn in *; lia. }
  rewrite (conv_id _ s) in H by easy.
  assert (D : overflow_add (result_int Ts Tu) s (conv (result_int Ts Tu) u) r)
    by (rewrite H; apply conv_add; auto using conv_fits).
  destruct (Z_le_dec u (imax (result_int Ts Tu))) as [L|L].
  - rewrite (conv_id _ u) in D.
    2: { destruct Ts, Tu; cbn in *; try discriminate; unfold fits_in in *; cbn in *; lia. }
    unfold overflow_add, fits_in in *. change (2 ^ 63) with 9223372036854775808.
    destruct Ts, Tu; cbn in *; try discriminate; ifs; lia.
  - rewrite conv_over in D.
    2: { destruct Ts, Tu; cbn in *; try discriminate; unfold fits_in in *; cbn in *; lia. }
    unfold overflow_add, fits_in in *. change (2 ^ 63) with 9223372036854775808.
    destruct Ts, Tu; cbn in *; try discriminate; ifs; lia.
Qed.
Lemma add_comm w T1 T2 v1 v2 : add w T1 T2 v1 v2 = add w T2 T1 v2 v1.
Proof. unfold add, op_in. now rewrite result_comm, Z.add_comm. Qed.
Lemma add_range_mixed_comm T1 T2 v1 v2 r :
  signed T1 <> signed T2 ->
  add_within_range T1 T2 v1 v2 r = add_within_range T2 T1 v2 v1 r.
Proof.
  intros. unfold add_within_range. rewrite (result_comm T1 T2).
  destruct (signed T1), (signed T2); congruence.
Qed.

(** ** Subtraction *)

Lemma subtract_same w T1 T2 v1 v2 r :
  signed T1 = signed T2 -> fits_in T1 v1 -> fits_in T2 v2 ->
  subtract w T1 T2 v1 v2 = Some r ->
  (subtract_within_range T1 T2 v1 v2 r = true <-> r = v1 - v2).
Proof.
  intros S F1 F2 H. pose proof (op_in_fits _ _ _ _ _ _ H) as FR.
  apply op_in_conv in H.
  pose proof (result_fits_l T1 T2 v1 S F1) as R1. pose proof (result_fits_r T1 T2 v2 S F2) as R2.
  pose proof (result_same _ _ S) as RS.
  rewrite (conv_id _ v1), (conv_id _ v2) in H by easy.
  pose proof (conv_sub _ _ _ R1 R2) as D. rewrite <- H in D.
  unfold subtract_within_range.
  destruct (signed T1) eqn:S1; rewrite <- S.
  - rewrite tv_gt_zero by easy.
    rewrite tv_lt_same, tv_gt_same by congruence.
    unfold overflow_add, fits_in in *. destruct T1, T2; cbn in *; try discriminate; ifs; lia.
  - rewrite tv_gt_same by congruence.
    unfold overflow_add, fits_in in *. destruct T1, T2; cbn in *; try discriminate; ifs; lia.
Qed.

(** Signed minus unsigned. *)
Lemma subtract_s_u w T1 T2 v1 v2 r :
  signed T1 = true -> signed T2 = false -> fits_in T1 v1 -> fits_in T2 v2 ->
  subtract w T1 T2 v1 v2 = Some r ->
  (subtract_within_range T1 T2 v1 v2 r = true <-> r = v1 - v2).
Proof.
  intros S1 S2 F1 F2 H. pose proof (op_in_fits _ _ _ _ _ _ H) as FR.
  apply op_in_conv in H.
  unfold subtract_within_range. rewrite S1, S2.
  assert (signed (result_int T1 T2) = true) as RS by (apply result_mixed; congruence).
  rewrite tv_gt_zero by easy.
  rewrite tv_lt_same, tv_ge_same by auto using conv_fits.
  assert (fits_in (result_int T1 T2) v1) as R1.
  { destruct T1, T2; cbn in *; try discriminate; unfold fits_in in *; cbn in *; lia. }
  rewrite !(conv_id _ v1) in * by easy.
  assert (D : overflow_add (result_int T1 T2) v1 (- (conv (result_int T1 T2) v2)) r)
    by (rewrite H; apply conv_sub; auto using conv_fits).
  destruct (Z_le_dec v2 (imax (result_int T1 T2))) as [L|L].
  - rewrite (conv_id _ v2) in D.
    2: { destruct T1, T2; cbn in *; try discriminate; unfold fits_in in *; cbn in *; lia. }
    unfold overflow_add, fits_in in *. destruct T1, T2; cbn in *; try discriminate; ifs; lia.
  - rewrite conv_over in D.
    2: { destruct T1, T2; cbn in *; try discriminate; unfold fits_in in *; cbn in *; lia. }
    unfold overflow_add, fits_in in *. destruct T1, T2; cbn in *; try discriminate; ifs; lia.
Qed.

(** Unsigned minus signed, operand 1 below 2^63. *)
Lemma subtract_u_s w T1 T2 v1 v2 r :
  signed T1 = false -> signed T2 = true -> fits_in T1 v1 -> fits_in T2 v2 -> v1 < 2 ^ 63 ->
  subtract w T1 T2 v1 v2 = Some r ->
  (subtract_within_range T1 T2 v1 v2 r = true <-> r = v1 - v2).
Proof.
  intros S1 S2 F1 F2 B H. pose proof (op_in_fits _ _ _ _ _ _ H) as FR.
  apply op_in_conv in H.
  unfold subtract_within_range. rewrite S1, S2.
  assert (signed (result_int T1 T2) = true) as RS by (apply result_mixed; congruence).
  rewrite tv_gt_zero by easy.
  rewrite tv_lt_same, tv_ge_same by auto using conv_fits.
  change (2 ^ 63) with 9223372036854775808 in B.
  assert (fits_in (result_int T1 T2) v1) as R1.
  { destruct T1, T2; cbn in *; try discriminate; unfold fits_in in *; cbn in *; lia. }
  assert (fits_in (result_int T1 T2) v2) as R2.
  { destruct T1, T2; cbn in *; try discriminate; unfold fits_in in *; cbn in *; lia. }
  rewrite !(conv_id _ v1) in * by easy. rewrite (conv_id _ v2) in H by easy.
  pose proof (conv_sub _ _ _ R1 R2) as D. rewrite <- H in D.
  unfold overflow_add, fits_in in *. destruct T1, T2; cbn in *; try discriminate; ifs; lia.
Qed.

(** Unsigned minus signed, operand 1 from 2^63 (a uint64): accepted iff there is no
    underflow of the wrongly converted operand; the accepted value is off by 2^64. *)
Lemma subtract_u_s_big w T2 v1 v2 r :
  signed T2 = true -> fits_in U64 v1 -> fits_in T2 v2 -> 2 ^ 63 <= v1 ->
  subtract w U64 T2 v1 v2 = Some r ->
  (subtract_within_range U64 T2 v1 v2 r = true <-> 0 < v2 /\ 2 ^ 63 <= v1 - v2 \/ v2 <= 0 /\ v1 - v2 < 2 ^ 64 + 2 ^ 63) /\
  (subtract_within_range U64 T2 v1 v2 r = true -> r = v1 - v2 - 2 ^ 64).
Proof.
  intros S2 F1 F2 B H. pose proof (op_in_fits _ _ _ _ _ _ H) as FR.
  apply op_in_conv in H.
  unfold subtract_within_range. rewrite S2. cbn [signed].
  replace (result_int U64 T2) with S64 in * by (destruct T2; cbn in *; easy).
  rewrite tv_gt_zero by easy.
  rewrite tv_lt_same, tv_ge_same by auto using conv_fits.
  change (2 ^ 63) with 9223372036854775808 in *.
  change (2 ^ 64) with 18446744073709551616 in *.
  assert (fits_in S64 v2) as R2.
  { destruct T2; cbn in *; try discriminate; unfold fits_in in *; cbn in *; lia. }
  rewrite (conv_id _ v2) in H by easy.
  assert (E : conv S64 v1 = v1 - 18446744073709551616)
    by (apply conv_over; unfold fits_in in *; cbn in *; lia).
  rewrite E in *.
  assert (D : overflow_add S64 (v1 - 18446744073709551616) (- v2) r).
  { rewrite H. apply conv_sub; auto. unfold fits_in in *; cbn in *; lia. }
  unfold overflow_add, fits_in in *. cbn in *. ifs; lia.
Qed.

(** ** Multiplication *)

Lemma div_exact R T a b :
  signed R = signed T -> fits_in (common R T) a -> fits_in T b -> b <> 0 ->
  (signed (common R T) = false \/ imin (common R T) < a) ->
  tv_div (R, a) (T, b) = Some (common R T, Z.quot a b) /\
  fits_in (common R T) (Z.quot a b).
Proof.
  intros S A B N K. pose proof (common_r R T b S B) as B'.
  assert (F : fits_in (common R T) (Z.quot a b)).
  { set (C := common R T) in *.
    assert (Z.abs (Z.quot a b) <= Z.abs a) as Q.
    { rewrite <- Z.quot_abs by easy. apply Z.quot_le_upper_bound; nia. }
    unfold fits_in in *.
    destruct (signed C) eqn:SC.
    - destruct K as [K|K]; [discriminate|]. destruct C; cbn in *; try discriminate; lia.
    - assert (0 <= Z.quot a b) by (apply Z.quot_pos; destruct C; cbn in *; try discriminate; lia).
      destruct C; cbn in *; try discriminate; lia. }
  split; [|exact F].
  unfold tv_div. cbn [fst snd]. rewrite (conv_id _ a A), (conv_id _ b B').
  destruct (Z.eqb_spec b 0); [contradiction|].
  unfold opt_tv, arith. destruct (signed (common R T)).
  - unfold fits_in in F. replace (_ && _) with true by lia. reflexivity.
  - now rewrite conv_id.
Qed.

Lemma neg_exact w t a :
  signed (promote t) = true -> fits_in (promote t) (- a) ->
  tv_neg w (t, a) = Some (promote t, - a).
Proof.
  intros S F. unfold tv_neg. cbn [fst snd]. unfold arith. rewrite S.
  unfold fits_in in F. replace (_ && _) with true by lia. reflexivity.
Qed.

Lemma quot_pos_le M a b : 0 <= M -> 0 <= a -> 0 < b -> (a <= Z.quot M b <-> a * b <= M).
Proof.
  intros. pose proof (Z.quot_rem' M b). pose proof (Z.rem_bound_pos M b ltac:(lia) ltac:(lia)).
  nia.
Qed.

Lemma eq0 t x : fits_in t x -> tv_eq (t, x) (t, 0) = (x =? 0).
Proof.
  intros. apply tv_eq_exact; apply common_l; auto.
  destruct t; unfold fits_in; cbn; lia.
Qed.
Lemma fits0 t : fits_in t 0.
Proof. destruct t; unfold fits_in; cbn; lia. Qed.

Lemma common_idem_l R T a : fits_in (common R T) a -> fits_in (common R T) a.
Proof. auto. Qed.

Lemma signed_common R T : signed R = true -> signed T = true -> signed (common R T) = true.
Proof. types; cbn; congruence. Qed.
Lemma signed_promote T : signed T = true -> signed (promote T) = true.
Proof. types; cbn; congruence. Qed.
Lemma imax_fits R : fits_in R (imax R).
Proof. destruct R; unfold fits_in; cbn; lia. Qed.
Lemma common_promote R T : common (promote R) T = common R T.
Proof. types; reflexivity. Qed.
Lemma fits_common_promote_neg_max R T :
  signed R = true -> signed T = true ->
  fits_in (common R T) (- imax R) /\ imin (common R T) < - imax R.
Proof. types; cbn; intros; try discriminate; unfold fits_in; cbn; lia. Qed.
Lemma imin_common R T : signed R = true -> signed T = true -> imin (common R T) < 0.
Proof. types; cbn; intros; (discriminate || lia). Qed.

(** Products: accepted iff the absolute value is at most the maximum of the result type. *)
Lemma multiply_s_s_spec w T1 T2 v1 v2 :
  signed T1 = true -> signed T2 = true -> fits_in T1 v1 -> fits_in T2 v2 ->
  multiply_s_s w (result_int T1 T2) T1 T2 v1 v2 =
  Some (Z.abs (v1 * v2) <=? imax (result_int T1 T2)).
Proof.
  intros S1 S2 F1 F2. set (R := result_int T1 T2).
  assert (SR : signed R = true) by (unfold R; rewrite result_same; congruence).
  assert (P : 0 < imax R) by (destruct R; reflexivity).
  unfold multiply_s_s. rewrite eq0 by easy.
  destruct (Z.eqb_spec v2 0) as [->|N].
  { rewrite Z.mul_0_r. cbn. f_equal. lia. }
  rewrite !tv_gt_same, tv_lt_same by auto using fits0.
  assert (FM : fits_in (common R T2) (imax R)) by (apply common_l; [congruence|apply imax_fits]).
  destruct (div_exact R T2 (imax R) v2 ltac:(congruence) FM F2 N) as [D1 D1'].
  { right. pose proof (imin_common R T2 SR S2). lia. }
  destruct (fits_common_promote_neg_max R T2 SR S2) as [G1 G2].
  destruct (div_exact (promote R) T2 (- imax R) v2) as [D2 D2']; auto.
  { rewrite signed_promote; congruence. }
  { now rewrite common_promote. }
  { right. now rewrite common_promote. }
  rewrite common_promote in D2, D2'.
  assert (SC : signed (common R T2) = true) by now apply signed_common.
  destruct (Z.ltb_spec 0 v1); destruct (Z.ltb_spec 0 v2); destruct (Z.ltb_spec v2 0);
    try lia.
  - rewrite D1. cbn [bind_tv]. rewrite tv_le_same by (auto; congruence).
    f_equal. apply eq_true_iff_eq. rewrite !Z.leb_le, quot_pos_le by lia. nia.
  - rewrite (neg_exact w T1 v1).
    2: now apply signed_promote.
    2: { destruct T1; cbn in *; try discriminate; unfold fits_in in *; cbn in *; lia. }
    rewrite D1. cbn [bind_tv].
    rewrite tv_ge_same.
    2: { rewrite signed_promote; congruence. }
    2: { destruct T1; cbn in *; try discriminate; unfold fits_in in *; cbn in *; lia. }
    2: easy.
    f_equal. apply eq_true_iff_eq. rewrite !Z.leb_le.
    replace v2 with (- (- v2)) at 1 by lia. rewrite Z.quot_opp_r by lia.
    pose proof (quot_pos_le (imax R) v1 (- v2) ltac:(lia) ltac:(lia) ltac:(lia)). lia.
  - rewrite (neg_exact w R (imax R)).
    2: now apply signed_promote.
    2: { destruct R; cbn in *; try discriminate; unfold fits_in in *; cbn in *; lia. }
    cbn [bind_tv]. rewrite D2. cbn [bind_tv].
    rewrite tv_ge_same by (auto; congruence).
    f_equal. apply eq_true_iff_eq. rewrite !Z.leb_le.
    rewrite Z.quot_opp_l by lia.
    pose proof (quot_pos_le (imax R) (- v1) v2 ltac:(lia) ltac:(lia) ltac:(lia)). lia.
  - rewrite D1. cbn [bind_tv]. rewrite tv_ge_same by (auto; congruence).
    f_equal. apply eq_true_iff_eq. rewrite !Z.leb_le.
    replace v2 with (- (- v2)) at 1 by lia. rewrite Z.quot_opp_r by lia.
    pose proof (quot_pos_le (imax R) (- v1) (- v2) ltac:(lia) ltac:(lia) ltac:(lia)). lia.
Qed.

Lemma multiply_u_u_spec T1 T2 v1 v2 :
  signed T1 = false -> signed T2 = false -> fits_in T1 v1 -> fits_in T2 v2 ->
  multiply_u_u (result_int T1 T2) T1 T2 v1 v2 =
  Some (Z.abs (v1 * v2) <=? imax (result_int T1 T2)).
Proof.
  intros S1 S2 F1 F2. set (R := result_int T1 T2).
  assert (SR : signed R = false) by (unfold R; rewrite result_same; congruence).
  assert (P : 0 < imax R) by (destruct R; reflexivity).
  unfold multiply_u_u. rewrite eq0 by easy.
  destruct (Z.eqb_spec v2 0) as [->|N].
  { rewrite Z.mul_0_r. cbn. f_equal. lia. }
  assert (FM : fits_in (common R T2) (imax R)) by (apply common_l; [congruence|apply imax_fits]).
  destruct (div_exact R T2 (imax R) v2 ltac:(congruence) FM F2 N) as [D1 D1'].
  { clearbody R. destruct R, T2; cbn in *; try discriminate; auto. }
  rewrite D1. cbn [bind_tv].
  assert (0 <= v1) by (destruct T1; try discriminate; unfold fits_in in *; cbn in *; lia).
  assert (0 <= v2) by (destruct T2; try discriminate; unfold fits_in in *; cbn in *; lia).
  unfold tv_le. rewrite tv_lt_exact.
  - f_equal. apply eq_true_iff_eq.
    pose proof (quot_pos_le (imax R) v1 v2 ltac:(lia) ltac:(lia) ltac:(lia)). lia.
  - apply common_nonneg_l; [|easy]. apply Z.quot_pos; lia.
  - now apply common_nonneg_r.
Qed.

Lemma multiply_u_s_spec w T1 T2 v1 v2 :
  signed T1 = false -> signed T2 = true -> fits_in T1 v1 -> fits_in T2 v2 ->
  multiply_u_s w (result_int T1 T2) T1 T2 v1 v2 =
  Some (Z.abs (v1 * v2) <=? imax (result_int T1 T2)).
Proof.
  intros S1 S2 F1 F2. set (R := result_int T1 T2).
  assert (SR : signed R = true) by (unfold R; rewrite result_mixed; congruence).
  assert (P : 0 < imax R) by (destruct R; reflexivity).
  unfold multiply_u_s. rewrite eq0 by easy.
  destruct (Z.eqb_spec v2 0) as [->|N].
  { rewrite Z.mul_0_r. cbn. f_equal. lia. }
  rewrite tv_gt_zero by easy.
  assert (FM : fits_in (common R T2) (imax R)) by (apply common_l; [congruence|apply imax_fits]).
  destruct (div_exact R T2 (imax R) v2 ltac:(congruence) FM F2 N) as [D1 D1'].
  { right. pose proof (imin_common R T2 SR S2). lia. }
  destruct (fits_common_promote_neg_max R T2 SR S2) as [G1 G2].
  destruct (div_exact (promote R) T2 (- imax R) v2) as [D2 D2']; auto.
  { rewrite signed_promote; congruence. }
  { now rewrite common_promote. }
  { right. now rewrite common_promote. }
  rewrite common_promote in D2, D2'.
  assert (0 <= v1) by (destruct T1; try discriminate; unfold fits_in in *; cbn in *; lia).
  (* comparison of an unsigned value with a non-negative signed one is exact *)
  assert (C : forall q, 0 <= q -> fits_in (common R T2) q ->
              tv_le (T1, v1) (common R T2, q) = (v1 <=? q)).
  { intros q Q F. unfold tv_le. rewrite tv_lt_exact.
    - lia.
    - now apply common_nonneg_l.
    - now apply common_nonneg_r. }
  destruct (Z.ltb_spec 0 v2).
  - rewrite D1. cbn [bind_tv]. rewrite C; auto.
    2: { apply Z.quot_pos; lia. }
    f_equal. apply eq_true_iff_eq. rewrite !Z.leb_le, quot_pos_le by lia. nia.
  - rewrite (neg_exact w R (imax R)).
    2: now apply signed_promote.
    2: { destruct R; cbn in *; try discriminate; unfold fits_in in *; cbn in *; lia. }
    cbn [bind_tv]. rewrite D2. cbn [bind_tv].
    assert (Q : Z.quot (- imax R) v2 = Z.quot (imax R) (- v2)).
    { replace v2 with (- (- v2)) at 1 by lia. rewrite Z.quot_opp_opp; lia. }
    rewrite C; auto.
    2: { rewrite Q. apply Z.quot_pos; lia. }
    rewrite Q. f_equal. apply eq_true_iff_eq. rewrite !Z.leb_le, quot_pos_le by lia. nia.
Qed.

Lemma multiply_range_spec w T1 T2 v1 v2 :
  fits_in T1 v1 -> fits_in T2 v2 ->
  multiply_within_range w T1 T2 v1 v2 =
  Some (Z.abs (v1 * v2) <=? imax (result_int T1 T2)).
Proof.
  intros F1 F2. unfold multiply_within_range.
  destruct (signed T1) eqn:S1, (signed T2) eqn:S2.
  - now apply multiply_s_s_spec.
  - rewrite (result_comm T1 T2), multiply_u_s_spec by easy. now rewrite Z.mul_comm.
  - now apply multiply_u_s_spec.
  - now apply multiply_u_u_spec.
Qed.

(** A product of at most the maximum: both operands are representable, or one is zero and
    the conversion of the other does not matter. *)
Lemma multiply_correct w T1 T2 v1 v2 r :
  fits_in T1 v1 -> fits_in T2 v2 -> multiply w T1 T2 v1 v2 = Some r ->
  Z.abs (v1 * v2) <= imax (result_int T1 T2) -> r = v1 * v2.
Proof.
  intros F1 F2 H A. apply op_in_conv in H. set (R := result_int T1 T2) in *.
  assert (Z1 : v1 = 0 \/ v2 = 0 \/ (v1 <> 0 /\ v2 <> 0)) by lia.
  destruct Z1 as [->|[->|[N1 N2]]].
  - rewrite (conv_id R 0) in H by apply fits0. cbn in H. rewrite conv_id in H by apply fits0. lia.
  - rewrite (conv_id R 0), Z.mul_0_r in H by apply fits0.
    rewrite conv_id in H by apply fits0. lia.
  - assert (Z.abs v1 <= imax R) by nia. assert (Z.abs v2 <= imax R) by nia.
    assert (fits_in R v1 /\ fits_in R v2 /\ fits_in R (v1 * v2)) as (A1 & A2 & A3).
    { destruct (signed R) eqn:S.
      - assert (imin R <= - imax R) by (destruct R; cbn in *; try discriminate; lia).
        unfold fits_in. lia.
      - assert (0 <= v1 /\ 0 <= v2) as [].
        { subst R. unfold fits_in in *. destruct T1, T2; cbn in *; try discriminate; ifs; lia. }
        assert (imin R = 0) by (destruct R; cbn in *; try discriminate; lia).
        unfold fits_in. nia. }
    rewrite (conv_id R v1), (conv_id R v2) in H by easy. now rewrite conv_id in H.
Qed.

(** ** Division *)

Lemma divide_spec T1 T2 v1 v2 :
  fits_in (result_int T1 T2) v1 -> fits_in (result_int T1 T2) v2 -> v2 <> 0 ->
  ~ (signed (result_int T1 T2) = true /\ v1 = imin (result_int T1 T2) /\ v2 = -1) ->
  divide T1 T2 v1 v2 = Some (Z.quot v1 v2).
Proof.
  intros F1 F2 N X. unfold divide. set (R := result_int T1 T2) in *.
  destruct (Z.eqb_spec v2 0); [contradiction|].
  rewrite (conv_id R v1), (conv_id R v2) by easy.
  assert (F : fits_in R (Z.quot v1 v2)).
  { destruct (Z.eq_dec v2 (-1)) as [->|N1].
    - change (-1) with (- (1)). rewrite Z.quot_opp_r, Z.quot_1_r by lia.
      destruct (signed R) eqn:S.
      + assert (v1 <> imin R) by tauto. unfold fits_in in *.
        destruct R; cbn in *; try discriminate; lia.
      + unfold fits_in in *. destruct R; cbn in *; try discriminate; lia.
    - assert (Z.abs (Z.quot v1 v2) <= Z.abs v1) as Q.
      { rewrite <- Z.quot_abs by easy. apply Z.quot_le_upper_bound; nia. }
      destruct (Z.eq_dec v2 1) as [->|N2].
      { now rewrite Z.quot_1_r. }
      assert (2 * Z.abs (Z.quot v1 v2) <= Z.abs v1) as Q2.
      { rewrite <- Z.quot_abs by easy.
        pose proof (Z.mul_quot_le (Z.abs v1) (Z.abs v2) ltac:(lia) ltac:(lia)).
        pose proof (Z.quot_pos (Z.abs v1) (Z.abs v2) ltac:(lia) ltac:(lia)). nia. }
      unfold fits_in in *. destruct (signed R) eqn:S.
      + rewrite imin_signed in * by easy. lia.
      + rewrite imin_unsigned in * by easy.
        assert (0 <= Z.quot v1 v2) by (apply Z.quot_pos; lia). lia. }
  assert (C : fits_in (common R R) v1) by now apply common_l.
  assert (C2 : fits_in (common R R) v2) by now apply common_l.
  assert (C3 : fits_in (common R R) (Z.quot v1 v2)) by now apply common_l.
  unfold tv_div. cbn [fst snd]. rewrite (conv_id _ v1 C), (conv_id _ v2 C2).
  destruct (Z.eqb_spec v2 0); [contradiction|].
  unfold opt_tv, arith. destruct (signed (common R R)).
  - unfold fits_in in C3. replace (_ && _) with true by lia. cbn. now rewrite conv_id.
  - cbn. rewrite !(conv_id _ (Z.quot v1 v2)) by easy. reflexivity.
Qed.

(** ** Absolute value *)

Lemma absolute_range T v :
  fits_in T v -> (absolute_within_range T v = true <-> fits_in T (Z.abs v)).
Proof.
  intros F. unfold absolute_within_range. destruct (signed T) eqn:S.
  - rewrite tv_eq_exact.
    2-3: apply common_l; auto; destruct T; unfold fits_in; cbn; lia.
    unfold fits_in in *. destruct T; cbn in *; try discriminate; lia.
  - unfold fits_in in *. destruct T; cbn in *; try discriminate; split; lia.
Qed.
Lemma absolute_value w T v :
  fits_in T v -> fits_in T (Z.abs v) -> absolute w T v = Some (Z.abs v).
Proof.
  intros F A. unfold absolute. destruct (signed T) eqn:S.
  - unfold arith. rewrite signed_promote by easy. pose proof (fits_promote _ _ A) as P.
    unfold fits_in in P. replace (_ && _) with true by lia. cbn. now rewrite conv_id.
  - rewrite Z.abs_eq; [reflexivity|]. unfold fits_in in F.
    destruct T; cbn in F, S; try discriminate; lia.
Qed.

(** ** Result types *)

Lemma div_defined_wrap T1 T2 v1 v2 :
  fits_in T1 v1 -> fits_in T2 v2 -> divide T1 T2 v1 v2 = None -> v2 = 0 \/
  (wide_signed (result_int T1 T2) /\ conv (result_int T1 T2) v1 = imin (result_int T1 T2) /\
   conv (result_int T1 T2) v2 = -1) \/ conv (result_int T1 T2) v2 = 0.
Proof.
  intros F1 F2. unfold divide. set (R := result_int T1 T2).
  destruct (Z.eqb_spec v2 0); [auto|]. intros H. right.
  assert (C1 := common_l R R _ eq_refl (conv_fits R v1)).
  assert (C2 := common_l R R _ eq_refl (conv_fits R v2)).
  unfold tv_div in H. cbn [fst snd] in H. rewrite (conv_id _ _ C1), (conv_id _ _ C2) in H.
  destruct (Z.eqb_spec (conv R v2) 0) as [|N]; [auto|]. left.
  pose proof (conv_fits R v1) as A. pose proof (conv_fits R v2) as B.
  set (x := conv R v1) in *. set (y := conv R v2) in *. clearbody x y.
  unfold arith in H. destruct (signed (common R R)) eqn:S; [|discriminate].
  destruct (_ && _) eqn:E; [discriminate|]. clear H.
  assert (SR : signed R = true -> imin R = - imax R - 1) by apply imin_signed.
  assert (SU : signed R = false -> imin R = 0) by apply imin_unsigned.
  assert (Q : Z.abs (Z.quot x y) <= Z.abs x).
  { rewrite <- Z.quot_abs by easy. apply Z.quot_le_upper_bound; nia. }
  assert (K : Z.quot x y < imin (common R R) \/ imax (common R R) < Z.quot x y).
  { apply andb_false_iff in E as [E|E]; apply Z.leb_gt in E; lia. }
  assert (y <> -1 -> y <> 1 -> 2 * Z.abs (Z.quot x y) <= Z.abs x) as Q2.
  { intros. rewrite <- Z.quot_abs by easy.
    pose proof (Z.mul_quot_le (Z.abs x) (Z.abs y) ltac:(lia) ltac:(lia)).
    pose proof (Z.quot_pos (Z.abs x) (Z.abs y) ltac:(lia) ltac:(lia)). nia. }
  assert (y = 1 -> Z.quot x y = x) as Q3 by (intros ->; apply Z.quot_1_r).
  assert (y = -1 -> Z.quot x y = - x) as Q4.
  { intros ->. change (-1) with (- (1)). rewrite Z.quot_opp_r, Z.quot_1_r; lia. }
  set (q := Z.quot x y) in *. clearbody q R. unfold fits_in in *.
  assert (W : wide_signed R /\ common R R = R \/ ~ wide_signed R /\
     imax R + 1 <= imax (common R R) /\ imin (common R R) <= - imax R - 1).
  { clear - S. unfold wide_signed. destruct R; cbn in *; try discriminate;
      first [left; now auto | right; split; [now intros [|]|lia]]. }
  destruct W as [[W CR]|(W & W1 & W2)].
  - rewrite CR in K. split; [exact W|].
    assert (imin R = - imax R - 1) by (apply imin_signed; destruct W; subst; reflexivity). lia.
  - exfalso. destruct (signed R).
    + specialize (SR eq_refl). clear SU. lia.
    + specialize (SU eq_refl). clear SR. lia.
Qed.

Lemma float_int_cases m e z :
  (inject_Z z == inject_Z m * (2 # 1) ^ e)%Q ->
  (0 <= e /\ z = m * 2 ^ e) \/ (e < 0 /\ m = z * 2 ^ (- e)).
Proof.
  intros H. destruct (Z_le_dec 0 e) as [P|P].
  - left. split; [easy|].
    assert (E : ((2 # 1) ^ e == inject_Z (2 ^ e))%Q) by (symmetry; apply (Zpower_Qpower 2); exact P).
    rewrite E, <- inject_Z_mult in H. apply (proj1 (inject_Z_injective _ _)) in H. exact H.
  - right. split; [lia|].
    assert (N : ~ (2 # 1 == 0)%Q) by (intros X; discriminate X).
    assert (E : ((2 # 1) ^ (- e) == inject_Z (2 ^ (- e)))%Q)
      by (symmetry; apply (Zpower_Qpower 2); lia).
    assert (H2 : (inject_Z z * (2 # 1) ^ (- e) == inject_Z m)%Q).
    { rewrite H, <- Qmult_assoc, <- Qpower_plus by easy.
      replace (e + - e) with 0 by lia. cbn. ring. }
    rewrite E, <- inject_Z_mult in H2. apply (proj1 (inject_Z_injective _ _)) in H2. symmetry. exact H2.
Qed.

Lemma int_is_float p emin emax z :
  Z.abs z < 2 ^ p -> emin <= 0 <= emax -> is_float p emin emax (inject_Z z).
Proof. intros. exists z, 0. split; [easy|]. split; [easy|]. cbn. ring. Qed.

Lemma odd_not_float p emin emax k :
  0 < p -> k = 2 ^ p + 1 -> ~ is_float p emin emax (inject_Z k).
Proof.
  intros P K (m & e & A & _ & E). apply float_int_cases in E.
  assert (1 < 2 ^ p) by (apply Z.pow_gt_1; lia).
  destruct E as [[E1 E2]|[E1 E2]].
  - destruct (Z.eq_dec e 0) as [->|N].
    + rewrite Z.mul_1_r in E2. lia.
    + assert (2 ^ e = 2 * 2 ^ (e - 1)) by (rewrite <- Z.pow_succ_r by lia; f_equal; lia).
      assert (2 ^ p = 2 * 2 ^ (p - 1)) by (rewrite <- Z.pow_succ_r by lia; f_equal; lia).
      nia.
  - assert (1 <= 2 ^ (- e)) by (pose proof (Z.pow_pos_nonneg 2 (- e)); lia). nia.
Qed.

Lemma float_widen q : is_float 24 (-149) 104 q -> is_float 53 (-1074) 971 q.
Proof.
  intros (m & e & A & B & C). exists m, e. split; [|split]; [|lia|easy].
  change (2 ^ 24) with 16777216 in A. change (2 ^ 53) with 9007199254740992. lia.
Qed.

Lemma is_float_comp p emin emax q q' : (q == q')%Q -> is_float p emin emax q' -> is_float p emin emax q.
Proof. intros E (m & e & A & B & C). exists m, e. rewrite E. auto. Qed.

Definition lossyb1 (a b : vty) : bool :=
  match a, b with
  | VInt U64, VInt t => signed t
  | VInt s, VFloat32 => 32 <=? width s
  | VInt s, VFloat64 => width s =? 64
  | _, _ => false
  end.
Lemma lossyb1_spec a b : lossyb1 a b = true <-> lossy1 a b.
Proof.
  destruct a as [|s| |], b as [|t| |]; cbn; try (destruct s; cbn);
    split; try discriminate; try tauto; try lia; try reflexivity;
    intros [? ?]; (discriminate || auto).
Qed.

(** An integer pair that is not lossy. *)
Lemma result_int_fits s t z :
  lossyb1 (VInt s) (VInt t) = false -> lossyb1 (VInt t) (VInt s) = false ->
  fits_in s z -> fits_in (result_int s t) z.
Proof. types; cbn; intros; try discriminate; unfold fits_in in *; cbn in *; lia. Qed.

Lemma int_in_float32 t z : width t < 32 -> fits_in t z -> is_float 24 (-149) 104 (inject_Z z).
Proof.
  intros W F. apply int_is_float; [|lia]. change (2 ^ 24) with 16777216.
  destruct t; cbn in W; try lia; unfold fits_in in F; cbn in F; lia.
Qed.
Lemma int_in_float64 t z : width t <> 64 -> fits_in t z -> is_float 53 (-1074) 971 (inject_Z z).
Proof.
  intros W F. apply int_is_float; [|lia]. change (2 ^ 53) with 9007199254740992.
  destruct t; cbn in W; try lia; unfold fits_in in F; cbn in F; lia.
Qed.

Lemma represent_l a b r q :
  result_value a b = Some r -> ~ lossy a b -> has_value a q -> has_value r q.
Proof.
  intros H L. unfold lossy in L. rewrite <- !lossyb1_spec in L.
  destruct a as [|s| |], b as [|t| |]; cbn in H; try discriminate; injection H as <-;
    cbn [has_value]; auto using float_widen.
  - intros (z & F & E). exists z. split; [|easy].
    apply result_int_fits; auto; apply not_true_iff_false; tauto.
  - intros (z & F & E). eapply is_float_comp; [exact E|]. apply int_in_float32 with s; auto.
    cbn in L. assert (32 <=? width s = false) by (apply not_true_iff_false; destruct s; tauto). lia.
  - intros (z & F & E). eapply is_float_comp; [exact E|]. apply int_in_float64 with s; auto.
    cbn in L. assert (width s =? 64 = false) by (apply not_true_iff_false; destruct s; tauto). lia.
Qed.
Lemma result_value_comm a b : result_value a b = result_value b a.
Proof. destruct a, b; cbn; try reflexivity. now rewrite result_comm. Qed.

Lemma lossy1_witness a b r :
  result_value a b = Some r -> lossy1 a b -> exists q, has_value a q /\ ~ has_value r q.
Proof.
  intros H L. destruct a as [|s| |], b as [|t| |]; cbn in H; try discriminate;
    injection H as <-; cbn in L; try tauto.
  - destruct L as [-> L].
    exists (inject_Z 9223372036854775808). split.
    + exists 9223372036854775808. split; [unfold fits_in; cbn; lia|reflexivity].
    + intros (z & F & E). apply (proj1 (inject_Z_injective _ _)) in E. subst z.
      unfold fits_in in F. destruct t; cbn in *; try discriminate; lia.
  - exists (inject_Z 16777217). split.
    + exists 16777217. split; [|reflexivity].
      unfold fits_in. destruct s; cbn in *; lia.
    + apply odd_not_float; [lia|reflexivity].
  - exists (inject_Z 9007199254740993). split.
    + exists 9007199254740993. split; [|reflexivity].
      unfold fits_in. destruct s; cbn in *; lia.
    + apply odd_not_float; [lia|reflexivity].
Qed.

Lemma lossy1_dec a b : {lossy1 a b} + {~ lossy1 a b}.
Proof.
  destruct (lossyb1 a b) eqn:E; [left|right]; rewrite <- lossyb1_spec; congruence.
Qed.
