(** * Proofs about rounding to whole numbers *)
From Coq Require Import ZArith Bool Lia SpecFloat.
From Verif Require Import LangModel PolicyModel LocalSpec IntsModel FloatModel IeeeSpec IeeeProofs FloatSpec FloatProofs FloatAccumProofs
  WholeModel WholeSpec.
Open Scope Z_scope.

Section Format.
Variable f : fmt.
Notation prec := (fprec f).
Notation emax := (femax f).
Notation is_number := (is_number prec emax).
Notation units := (units prec emax).

Lemma finite_value_nonzero s m e : is_number (S754_finite s m e) -> fvalue f (S754_finite s m e) <> 0.
Proof.
  intros [X _]. assert (B := finite_exponent _ _ _ _ _ X). unfold fvalue. cbn [IeeeSpec.units]. assert (S := step_pos f).
  assert (P := pow2_pos (e - emin prec emax) ltac:(lia)). destruct s; nia.
Qed.
Lemma minus_value x : is_number x -> fvalue f x <> 0 -> minus x = (fvalue f x <? 0).
Proof.
  intros X N. destruct x as [s|s| |s m e]; try (destruct X; discriminate); [exfalso; apply N; reflexivity|].
  assert (B := finite_exponent _ _ _ _ _ (proj1 X)). unfold fvalue in *. cbn [IeeeSpec.units minus] in *. assert (S := step_pos f).
  assert (P := pow2_pos (e - emin prec emax) ltac:(lia)). symmetry. destruct s; [apply Z.ltb_lt|apply Z.ltb_ge]; nia.
Qed.
Lemma same_number x y : is_number x -> is_number y -> minus x = minus y -> fvalue f x = fvalue f y -> x = y.
Proof.
  intros X Y M E. destruct (Z.eq_dec (fvalue f x) 0) as [Z0|N]; [|apply (number_inj f); auto].
  destruct x as [s|s| |s m e]; try (destruct X; discriminate); [|exfalso; eapply finite_value_nonzero; eauto].
  destruct y as [s'|s'| |s' m' e']; try (destruct Y; discriminate); [|exfalso; eapply finite_value_nonzero; eauto; congruence].
  cbn in M. congruence.
Qed.

Definition signed (s : bool) (z : Z) : Z := if s then - z else z.

Lemma whole_number_spec s q : 0 <= q < 2 ^ prec ->
  is_number (whole_number f s q) /\ fvalue f (whole_number f s q) = signed s q * one /\ minus (whole_number f s q) = s.
Proof.
  intros Q. destruct q as [|p|p]; [|cbn [whole_number]|lia].
  { split; [split; reflexivity|]. split; [destruct s; reflexivity|reflexivity]. }
  assert (EM := emin_neg _ _ (fprec_gt f) (fprec_lt f)). assert (W := wide_enough f). assert (S := step_pos f). assert (ON := one_pos).
  assert (U := pow2_pos (0 - emin prec emax) ltac:(lia)).
  assert (R := binary_round_spec prec emax (fprec_gt f) (fprec_lt f) s p 0 ltac:(lia)). apply (rounded_signed _ _ (fprec_gt f)) in R; [|apply Z.mul_pos_pos; lia].
  destruct (representable_signed prec emax (fprec_gt f) (fprec_lt f) (signed s (Zpos p) * 2 ^ (0 - emin prec emax)) (Zpos p) (0 - emin prec emax)) as (w & W1 & W2);
    [lia|unfold emin in *; lia| |].
  { rewrite Z.abs_mul, (Z.abs_eq (2 ^ _)) by lia. destruct s; cbn [signed]; lia. }
  destruct (rounding_exact prec emax (fprec_gt f) (fprec_lt f) _ 1 _ w ltac:(lia) R W1) as [R1 R2].
  { rewrite W2. destruct s; cbn [signed]; lia. }
  assert (V : fvalue f (binary_round prec emax s p 0) = signed s (Zpos p) * one).
  { unfold fvalue. rewrite R2, W2, <- (emin_unit f). ring. }
  split; auto. split; auto. rewrite minus_value by (auto; rewrite V; destruct s; cbn [signed]; nia). rewrite V.
  destruct s; cbn [signed]; [apply Z.ltb_lt|apply Z.ltb_ge]; nia.
Qed.

(** The quotient of the magnitude and the remainder, or a number that is whole *)
Lemma to_whole_spec away x : is_number x ->
  exists u d q r, 0 < u /\ 1 <= d /\ one = d * u /\ 0 <= q /\ 0 <= r < d /\ (d = 1 -> r = 0) /\
    fvalue f x = signed (minus x) (q * d + r) * u /\ is_number (to_whole f away x) /\ minus (to_whole f away x) = minus x /\
    (fvalue f (to_whole f away x) = signed (minus x) (if away (minus x) r d then q + 1 else q) * one \/
     (r = 0 /\ fvalue f (to_whole f away x) = signed (minus x) q * one)).
Proof.
  intros X. assert (S := step_pos f). assert (ON := one_pos). assert (EM := emin_neg _ _ (fprec_gt f) (fprec_lt f)).
  destruct x as [s|s| |s m e]; try (destruct X; discriminate).
  - exists one, 1, 0, 0. cbn [to_whole minus]. repeat split; try lia; try (apply X); try (destruct s; reflexivity).
    right. split; auto. destruct s; reflexivity.
  - assert (B := finite_exponent _ _ _ _ _ (proj1 X)). destruct B as [B1 B2]. cbn [to_whole minus]. destruct (Z.ltb_spec e 0) as [E|E].
    + set (d := 2 ^ (- e)). set (u := 2 ^ (e - emin prec emax) * step f). assert (P := pow2_pos (e - emin prec emax) ltac:(lia)).
      assert (D : 2 <= d). { unfold d. change 2 with (2 ^ 1) at 1. apply Z.pow_le_mono_r; lia. }
      assert (OU : one = d * u).
      { unfold d, u. rewrite Z.mul_assoc, <- Z.pow_add_r by lia. rewrite <- (emin_unit f). do 2 f_equal. lia. }
      assert (MB : Zpos m < 2 ^ prec).
      { assert (DP := digits_pos m). eapply Z.lt_le_trans; [apply DP|]. apply Z.pow_le_mono_r; [lia|]. destruct X as [F _].
        unfold is_float, valid_binary, bounded, canonical_mantissa in F. apply andb_prop in F. destruct F as [F _]. apply Zeq_bool_eq in F. unfold SpecFloat.fexp in F. lia. }
      assert (DM := Z.div_mod (Zpos m) d ltac:(lia)). assert (RM := Z.mod_pos_bound (Zpos m) d ltac:(lia)).
      set (q := Zpos m / d) in *. set (r := Zpos m mod d) in *. assert (Q0 : 0 <= q) by (apply Z.div_pos; lia).
      assert (P1 : 2 ^ prec = 2 * 2 ^ (prec - 1)) by (rewrite <- Z.pow_succ_r by (assert (T := fprec_gt f); lia); f_equal; lia).
      assert (P2 : 1 < 2 ^ (prec - 1)) by (apply Z.pow_gt_1; assert (T := fprec_gt f); lia).
      assert (QB : q < 2 ^ (prec - 1)) by nia.
      destruct (whole_number_spec s (if away s r d then q + 1 else q)) as (W1 & W2 & W3); [destruct (away s r d); lia|].
      exists u, d, q, r. repeat split; try lia; auto; try (apply W1).
      unfold fvalue. cbn [IeeeSpec.units]. unfold u. replace (q * d + r) with (Zpos m) by lia. destruct s; cbn [signed]; ring.
    + assert (OU : one = 2 ^ (0 - emin prec emax) * step f) by (symmetry; apply emin_unit).
      assert (P := pow2_pos e E).
      assert (V : fvalue f (S754_finite s m e) = signed s (Zpos m * 2 ^ e) * one).
      { rewrite OU. unfold fvalue. cbn [IeeeSpec.units]. replace (e - emin prec emax) with (e + (0 - emin prec emax)) by lia.
        rewrite Z.pow_add_r by lia. destruct s; cbn [signed]; ring. }
      exists one, 1, (Zpos m * 2 ^ e), 0. repeat split; try lia; try (apply X).
      rewrite V. f_equal. f_equal. lia.
Qed.

Lemma algorithm_rounds o x : is_float prec emax x -> rounds_to f o x (algorithm f o x).
Proof.
  intros F. unfold rounds_to. assert (ON := one_pos).
  assert (K : o = OAbsolute \/ (o <> OAbsolute /\ is_finite x = false /\ algorithm f o x = x) \/ (o <> OAbsolute /\ is_finite x = true)).
  { destruct o, x; auto; right; try (left; split; [discriminate|split; reflexivity]); right; split; discriminate || reflexivity. }
  destruct K as [->|[(N & E & A)|(N & E)]].
  - split; [intros ->; reflexivity|]. intros NN. destruct x as [s|s| |s m e]; try congruence; cbn [algorithm SFabs minus SFopp]; split; auto; destruct s; auto.
  - rewrite E. destruct o; try congruence; auto.
  - rewrite E. assert (X : is_number x) by (split; auto).
    destruct o; try congruence; cbn [algorithm].
    + destruct (to_whole_spec (fun s r _ => s && (0 <? r)) x X) as (u & d & q & r & U & D & OU & Q & R & _ & V & N1 & N2 & C).
      split; [exact N1|]. split; [exact N2|]. rewrite V. unfold std_floor. cbn [whole_of].
      destruct (minus x); cbn [andb signed] in *.
      * destruct C as [C|[-> C]]; [|exists (- q); rewrite C; split; [reflexivity|nia]].
        destruct (Z.ltb_spec 0 r); [exists (- (q + 1))|exists (- q)]; rewrite C; split; try reflexivity; nia.
      * exists q. split; [destruct C as [C|[_ C]]; exact C|nia].
    + destruct (to_whole_spec (fun s r _ => negb s && (0 <? r)) x X) as (u & d & q & r & U & D & OU & Q & R & _ & V & N1 & N2 & C).
      split; [exact N1|]. split; [exact N2|]. rewrite V. unfold std_ceil. cbn [whole_of].
      destruct (minus x); cbn [andb negb signed] in *.
      * exists (- q). split; [destruct C as [C|[_ C]]; exact C|nia].
      * destruct C as [C|[-> C]]; [|exists q; rewrite C; split; [reflexivity|nia]].
        destruct (Z.ltb_spec 0 r); [exists (q + 1)|exists q]; rewrite C; split; try reflexivity; nia.
    + destruct (to_whole_spec (fun _ _ _ => false) x X) as (u & d & q & r & U & D & OU & Q & R & _ & V & N1 & N2 & C).
      assert (QD : 0 <= q * d) by (apply Z.mul_nonneg_nonneg; lia). split; [exact N1|]. split; [exact N2|]. rewrite V. unfold std_trunc. cbn [whole_of].
      exists (signed (minus x) q). split; [destruct C as [C|[_ C]]; exact C|].
      assert (A1 : Z.abs (signed (minus x) q) = q) by (destruct (minus x); cbn [signed]; lia).
      assert (A2 : Z.abs (signed (minus x) (q * d + r) * u) = (q * d + r) * u) by (rewrite Z.abs_mul, (Z.abs_eq u) by lia; f_equal; destruct (minus x); cbn [signed]; lia).
      rewrite A1, A2, OU. replace (q * (d * u)) with (q * d * u) by ring. replace ((q + 1) * (d * u)) with ((q + 1) * d * u) by ring. split; [apply Z.mul_le_mono_nonneg_r|apply Z.mul_lt_mono_pos_r]; lia.
    + destruct (to_whole_spec (fun _ r d => d <=? 2 * r) x X) as (u & d & q & r & U & D & OU & Q & R & D1 & V & N1 & N2 & C).
      assert (QD : 0 <= q * d) by (apply Z.mul_nonneg_nonneg; lia). split; [exact N1|]. split; [exact N2|]. rewrite V. unfold std_round. cbn [whole_of].
      assert (K : forall k, fvalue f (to_whole f (fun _ r d => d <=? 2 * r) x) = signed (minus x) k * one -> 0 <= k ->
        2 * Z.abs (k * d - (q * d + r)) <= d -> (2 * Z.abs (k * d - (q * d + r)) = d -> q * d + r < k * d) ->
        exists z, fvalue f (to_whole f (fun _ r d => d <=? 2 * r) x) = z * one /\
          2 * Z.abs (z * one - signed (minus x) (q * d + r) * u) <= one /\
          (2 * Z.abs (z * one - signed (minus x) (q * d + r) * u) = one -> Z.abs (signed (minus x) (q * d + r) * u) < Z.abs (z * one))).
      { intros k E1 K0 K1 K2. exists (signed (minus x) k). split; auto.
        assert (A1 : Z.abs (signed (minus x) k * one - signed (minus x) (q * d + r) * u) = Z.abs (k * d - (q * d + r)) * u).
        { rewrite OU. replace (Z.abs (k * d - (q * d + r)) * u) with (Z.abs ((k * d - (q * d + r)) * u)) by (rewrite Z.abs_mul, (Z.abs_eq u); lia).
          destruct (minus x); cbn [signed].
          - rewrite <- Z.abs_opp. f_equal. ring.
          - f_equal. ring. }
        assert (A2 : Z.abs (signed (minus x) (q * d + r) * u) = (q * d + r) * u) by (rewrite Z.abs_mul, (Z.abs_eq u) by lia; f_equal; destruct (minus x); cbn [signed]; lia).
        assert (A3 : Z.abs (signed (minus x) k * one) = k * d * u) by (rewrite Z.abs_mul, (Z.abs_eq one), OU by lia; replace (Z.abs (signed (minus x) k)) with k by (destruct (minus x); cbn [signed]; lia); ring).
        rewrite A1, A2, A3, OU, Z.mul_assoc. split; [apply Z.mul_le_mono_nonneg_r; lia|]. intros T.
        assert (T' : 2 * Z.abs (k * d - (q * d + r)) = d) by (apply (Z.mul_reg_r _ _ u); [lia|exact T]). specialize (K2 T'). apply Z.mul_lt_mono_pos_r; lia. }
      destruct C as [C|[R0 C]].
      * destruct (Z.leb_spec d (2 * r)).
        -- apply (K (q + 1) C); [lia| |]; replace ((q + 1) * d - (q * d + r)) with (d - r) by ring; intros; lia.
        -- apply (K q C); [lia| |]; replace (q * d - (q * d + r)) with (- r) by ring; intros; lia.
      * apply (K q C); [lia| |]; replace (q * d - (q * d + r)) with (- r) by ring; intros; lia.
Qed.

(** There is one such whole number. *)
Lemma whole_unique o v z z' : o <> OAbsolute -> (o = OTrunc -> 0 <= z * v /\ 0 <= z' * v) -> whole_of o v z -> whole_of o v z' -> z = z'.
Proof.
  intros N T A B. assert (ON := one_pos). destruct o; try congruence; cbn [whole_of] in *.
  - nia.
  - nia.
  - destruct (T eq_refl) as [T1 T2]. assert (Z.abs z = Z.abs z') by nia.
    destruct (Z.eq_dec z 0) as [->|]; [lia|]. destruct (Z.eq_dec v 0) as [->|]; [nia|].
    destruct (Z.lt_trichotomy v 0) as [L|[L|L]]; nia.
  - destruct A as [A1 A2], B as [B1 B2]. destruct (Z.eq_dec z z') as [E|E]; auto. exfalso.
    assert (G : 1 <= Z.abs (z - z')) by lia. assert (Z.abs (z * one - z' * one) = Z.abs (z - z') * one) by (rewrite <- Z.mul_sub_distr_r, Z.abs_mul, (Z.abs_eq one) by lia; reflexivity).
    assert (G2 : one <= Z.abs (z - z') * one) by (rewrite <- (Z.mul_1_l one) at 1; apply Z.mul_le_mono_nonneg_r; lia).
    assert (Z.abs (z * one - v) * 2 = one) by lia. assert (Z.abs (z' * one - v) * 2 = one) by lia.
    assert (Z.abs v < Z.abs (z * one)) by (apply A2; lia). assert (Z.abs v < Z.abs (z' * one)) by (apply B2; lia).
    assert (G3 : Z.abs (z - z') <= 1) by (apply (Z.mul_le_mono_pos_r _ _ one); lia).
    assert (AD : z' = z + 1 \/ z' = z - 1) by lia.
    assert (M1 : 0 <= z -> 0 <= z * one) by (intros; apply Z.mul_nonneg_nonneg; lia).
    assert (M2 : z <= 0 -> z * one <= 0) by (intros; apply Z.mul_nonpos_nonneg; lia).
    assert (M3 : 0 < z -> one <= z * one) by (intros; rewrite <- (Z.mul_1_l one) at 1; apply Z.mul_le_mono_nonneg_r; lia).
    assert (M4 : z < 0 -> z * one <= - one) by (intros; replace (- one) with (-1 * one) by ring; apply Z.mul_le_mono_nonneg_r; lia).
    clear A2 B2 G G3. destruct AD as [-> | ->]; rewrite ?Z.mul_add_distr_r, ?Z.mul_sub_distr_r, Z.mul_1_l in *; destruct (Z.lt_trichotomy z 0) as [L|[L|L]]; lia.
Qed.
End Format.
