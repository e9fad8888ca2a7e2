(** * What rounding in [Coq.Floats.SpecFloat] does *)
From Coq Require Import ZArith Bool SpecFloat Lia.
From Verif Require Import IeeeSpec.
Open Scope Z_scope.

(** ** Division with a location *)

Definition loc_of (N D : Z) : location :=
  if N mod D =? 0 then loc_Exact else loc_Inexact (Z.compare (2 * (N mod D)) D).

Lemma shr_1_spec N D : 0 <= N -> 0 < D ->
  shr_1 (shr_record_of_loc (N / D) (loc_of N D)) = shr_record_of_loc (N / (D * 2)) (loc_of N (D * 2)).
Proof.
  intros HN HD.
  assert (Q : 0 <= N / D) by (apply Z.div_pos; lia).
  assert (R := Z.mod_pos_bound N D HD). assert (E := Z.div_mod N D ltac:(lia)).
  set (q := N / D) in *. set (r := N mod D) in *.
  assert (H2 : N / (D * 2) = q / 2 /\ N mod (D * 2) = (q mod 2) * D + r).
  { assert (E2 := Z.div_mod q 2 ltac:(lia)). assert (R2 := Z.mod_pos_bound q 2 ltac:(lia)).
    assert (N = (D * 2) * (q / 2) + ((q mod 2) * D + r)) by nia.
    assert (0 <= (q mod 2) * D + r < D * 2) by nia.
    split; [symmetry; eapply Z.div_unique_pos; eauto | symmetry; eapply Z.mod_unique_pos; eauto]. }
  destruct H2 as [H2 H3]. unfold loc_of. rewrite H2, H3. fold r.
  assert (C : q mod 2 = 0 \/ q mod 2 = 1) by (pose proof (Z.mod_pos_bound q 2 ltac:(lia)); lia).
  assert (S : forall a b, shr_1 {| shr_m := q; shr_r := a; shr_s := b |} =
    {| shr_m := q / 2; shr_r := negb (q mod 2 =? 0); shr_s := a || b |}).
  { intros a b. destruct q as [|[p|p|]|p]; try lia; try reflexivity.
    - cbn [shr_1]. replace (Z.pos p~1 / 2) with (Z.pos p) by (rewrite Pos2Z.inj_xI; apply Z.div_unique_pos with 1; lia).
      replace (Z.pos p~1 mod 2) with 1 by (rewrite Pos2Z.inj_xI; apply Z.mod_unique_pos with (Z.pos p); lia). reflexivity.
    - cbn [shr_1]. replace (Z.pos p~0 / 2) with (Z.pos p) by (rewrite Pos2Z.inj_xO; apply Z.div_unique_pos with 0; lia).
      replace (Z.pos p~0 mod 2) with 0 by (rewrite Pos2Z.inj_xO; apply Z.mod_unique_pos with (Z.pos p); lia). reflexivity. }
  unfold shr_record_of_loc.
  destruct (Z.eqb_spec r 0) as [Z0|Z0]; destruct C as [C|C]; rewrite C.
  - rewrite Z0. cbn [Z.eqb Z.mul Z.add]. rewrite S, C. reflexivity.
  - rewrite Z0. replace (1 * D + 0 =? 0) with false by (symmetry; apply Z.eqb_neq; lia).
    replace (2 * (1 * D + 0) ?= D * 2) with Eq by (symmetry; apply Z.compare_eq_iff; lia). rewrite S, C. reflexivity.
  - replace (0 * D + r =? 0) with false by (symmetry; apply Z.eqb_neq; lia).
    replace (2 * (0 * D + r) ?= D * 2) with Lt by (symmetry; apply Z.compare_lt_iff; lia).
    destruct (2 * r ?= D); rewrite S, C; reflexivity.
  - replace (1 * D + r =? 0) with false by (symmetry; apply Z.eqb_neq; lia).
    replace (2 * (1 * D + r) ?= D * 2) with Gt by (symmetry; apply Z.compare_gt_iff; lia).
    destruct (2 * r ?= D); rewrite S, C; reflexivity.
Qed.

Lemma iter_pos_shr N D p : 0 <= N -> 0 < D ->
  iter_pos shr_1 p (shr_record_of_loc (N / D) (loc_of N D)) =
  shr_record_of_loc (N / (D * 2 ^ Zpos p)) (loc_of N (D * 2 ^ Zpos p)).
Proof.
  intros HN. revert D. induction p as [p IH|p IH|]; intros D HD; cbn [iter_pos].
  - rewrite shr_1_spec by auto. rewrite IH by lia. rewrite IH by (pose proof (Z.pow_pos_nonneg 2 (Z.pos p) ltac:(lia) ltac:(lia)); nia).
    replace (D * 2 * 2 ^ Z.pos p * 2 ^ Z.pos p) with (D * 2 ^ Z.pos p~1); [reflexivity|].
    replace (Z.pos p~1) with (1 + Z.pos p + Z.pos p) by lia. rewrite !Z.pow_add_r by lia. ring.
  - rewrite IH by lia. rewrite IH by (pose proof (Z.pow_pos_nonneg 2 (Z.pos p) ltac:(lia) ltac:(lia)); nia).
    replace (D * 2 ^ Z.pos p * 2 ^ Z.pos p) with (D * 2 ^ Z.pos p~0); [reflexivity|].
    replace (Z.pos p~0) with (Z.pos p + Z.pos p) by lia. rewrite !Z.pow_add_r by lia. ring.
  - rewrite shr_1_spec by auto. replace (2 ^ 1) with 2 by lia. reflexivity.
Qed.

Lemma loc_record m l : loc_of_shr_record (shr_record_of_loc m l) = l /\ shr_m (shr_record_of_loc m l) = m.
Proof. destruct l as [|[]]; split; reflexivity. Qed.

(** ** The closest whole number *)
Definition rne (N D : Z) : Z := round_nearest_even (N / D) (loc_of N D).

Lemma rne_spec N D : 0 <= N -> 0 < D ->
  0 <= rne N D /\ N / D <= rne N D <= N / D + 1 /\ 2 * Z.abs (rne N D * D - N) <= D.
Proof.
  intros HN HD. assert (Q : 0 <= N / D) by (apply Z.div_pos; lia).
  assert (R := Z.mod_pos_bound N D HD). assert (E := Z.div_mod N D ltac:(lia)).
  unfold rne, loc_of. set (q := N / D) in *. set (r := N mod D) in *.
  destruct (Z.eqb_spec r 0); cbn [round_nearest_even]; [nia|].
  destruct (Z.compare_spec (2 * r) D); [destruct (Z.even q)|..]; nia.
Qed.

Lemma rne_closest N D w : 0 <= N -> 0 < D -> Z.abs (rne N D * D - N) <= Z.abs (w * D - N).
Proof.
  intros HN HD. destruct (rne_spec N D HN HD) as (_ & B & C).
  assert (E := Z.div_mod N D ltac:(lia)). assert (R := Z.mod_pos_bound N D HD).
  destruct (Z.eq_dec w (rne N D)) as [->|NE]; [lia|].
  assert (D <= Z.abs ((w - rne N D) * D)) by nia. nia.
Qed.

Lemma loc_of_scale N D k : 0 < k -> 0 < D -> loc_of (N * k) (D * k) = loc_of N D.
Proof.
  intros Hk HD. unfold loc_of. rewrite Z.mul_mod_distr_r by lia.
  destruct (Z.eqb_spec (N mod D) 0) as [->|H]; [reflexivity|].
  replace (N mod D * k =? 0) with false by (symmetry; apply Z.eqb_neq; nia). f_equal.
  destruct (Z.compare_spec (2 * (N mod D)) D) as [E|E|E].
  - apply Z.compare_eq_iff. nia.
  - apply Z.compare_lt_iff. nia.
  - apply Z.compare_gt_iff. nia.
Qed.
Lemma rne_scale N D k : 0 < k -> 0 < D -> rne (N * k) (D * k) = rne N D.
Proof. intros. unfold rne. rewrite loc_of_scale, Z.div_mul_cancel_r by lia. reflexivity. Qed.

(** ** Digits *)
Lemma digits_pos p : 2 ^ (Zpos (digits2_pos p) - 1) <= Zpos p < 2 ^ Zpos (digits2_pos p).
Proof.
  assert (H : forall d, 0 < d -> 2 ^ d = 2 * 2 ^ (d - 1)) by (intros; rewrite <- Z.pow_succ_r by lia; f_equal; lia).
  induction p as [p IH|p IH|]; cbn [digits2_pos].
  - rewrite Pos2Z.inj_succ. rewrite (Pos2Z.inj_xI p). rewrite (H (Z.succ _)) by lia.
    replace (Z.succ (Z.pos (digits2_pos p)) - 1) with (Z.pos (digits2_pos p)) by lia.
    pose proof (H (Z.pos (digits2_pos p)) ltac:(lia)). lia.
  - rewrite Pos2Z.inj_succ. rewrite (Pos2Z.inj_xO p). rewrite (H (Z.succ _)) by lia.
    replace (Z.succ (Z.pos (digits2_pos p)) - 1) with (Z.pos (digits2_pos p)) by lia.
    pose proof (H (Z.pos (digits2_pos p)) ltac:(lia)). lia.
  - cbn. lia.
Qed.
Lemma digits_nonneg n : 0 <= n -> 0 <= Zdigits2 n /\ (n = 0 -> Zdigits2 n = 0) /\ n < 2 ^ Zdigits2 n /\
  (0 < n -> 0 < Zdigits2 n /\ 2 ^ (Zdigits2 n - 1) <= n).
Proof.
  intros H. destruct n as [|p|p]; cbn [Zdigits2]; [cbn; lia| |lia].
  pose proof (digits_pos p). split; [lia|]. split; [lia|]. split; [lia|]. split; lia.
Qed.
Lemma digits_unique n d : 0 < d -> 2 ^ (d - 1) <= n < 2 ^ d -> Zdigits2 n = d.
Proof.
  intros Hd H. assert (0 < 2 ^ (d - 1)) by (apply Z.pow_pos_nonneg; lia).
  destruct (digits_nonneg n ltac:(lia)) as (_ & _ & A & B). destruct (B ltac:(lia)) as [C D].
  assert (d - 1 < Zdigits2 n) by (apply (Z.pow_lt_mono_r_iff 2); lia).
  assert (Zdigits2 n - 1 < d) by (apply (Z.pow_lt_mono_r_iff 2); lia). lia.
Qed.
Lemma digits_upper n k : 0 <= k -> 0 <= n < 2 ^ k -> Zdigits2 n <= k.
Proof.
  intros Hk H. destruct (digits_nonneg n ltac:(lia)) as (_ & Z0 & A & B). destruct (Z.eq_dec n 0) as [E|E]; [rewrite Z0; lia|].
  destruct (B ltac:(lia)) as [C D]. assert (Zdigits2 n - 1 < k) by (apply (Z.pow_lt_mono_r_iff 2); lia). lia.
Qed.

Section Format.
Variables (prec emax : Z).
Hypothesis Hprec : 1 < prec.
Hypothesis Hmax : prec < emax.
Local Notation emin := (emin prec emax).
Local Notation fexp := (fexp prec emax).
Local Notation units := (units prec emax).
Local Notation is_number := (is_number prec emax).
Local Notation is_float := (is_float prec emax).

Lemma emin_neg : emin < 0 /\ emin < emax - prec.
Proof. unfold SpecFloat.emin. lia. Qed.

Lemma shr_fexp_spec N D ex : 0 <= N -> 0 < D -> ex <= fexp (Zdigits2 (N / D) + ex) ->
  shr_fexp prec emax (N / D) ex (loc_of N D) =
  (shr_record_of_loc (N / (D * 2 ^ (fexp (Zdigits2 (N / D) + ex) - ex))) (loc_of N (D * 2 ^ (fexp (Zdigits2 (N / D) + ex) - ex))),
   fexp (Zdigits2 (N / D) + ex)).
Proof.
  intros HN HD He. unfold shr_fexp, shr. set (F := fexp (Zdigits2 (N / D) + ex)) in *.
  destruct (F - ex) as [|p|p] eqn:E; [| |lia].
  - replace (D * 2 ^ 0) with D by lia. f_equal. lia.
  - rewrite iter_pos_shr by auto. f_equal. lia.
Qed.

Lemma shr_fexp_stay m e : 0 <= m -> fexp (Zdigits2 m + e) <= e ->
  shr_fexp prec emax m e loc_Exact = (shr_record_of_loc m loc_Exact, e).
Proof.
  intros H He. unfold shr_fexp, shr. destruct (fexp (Zdigits2 m + e) - e) eqn:E; auto. lia.
Qed.

(** The exponent of the grid that [A / B] units are rounded to *)
Definition is_grid (A B g : Z) : Prop :=
  0 <= g /\ A < B * 2 ^ (g + prec) /\ (0 < g -> B * 2 ^ (g + prec - 1) <= A).

(** What a rounded result is, given the number of units *)
Definition rounds_to (s : bool) (u : Z) (r : spec_float) : Prop :=
  is_float r /\
  if u <? 2 ^ (emax - emin) then is_finite r = true /\ units r = (if s then -1 else 1) * u
  else r = S754_infinity s.

Theorem round_aux_spec s N D ex : 0 <= N -> 0 < D -> ex <= fexp (Zdigits2 (N / D) + ex) ->
  forall A B, 0 <= A -> 0 < B ->
  N * 2 ^ Z.max 0 (ex - emin) * B = A * (D * 2 ^ Z.max 0 (emin - ex)) ->
  exists g, is_grid A B g /\
    rounds_to s (rne A (B * 2 ^ g) * 2 ^ g) (binary_round_aux prec emax s (N / D) ex (loc_of N D)).
Proof.
  intros HN HD He A B HA HB HE. destruct emin_neg as [En1 En2].
  set (d := Zdigits2 (N / D)) in *. set (F := fexp (d + ex)) in *.
  assert (HQ : 0 <= N / D) by (apply Z.div_pos; lia).
  destruct (digits_nonneg (N / D) HQ) as (Hd0 & Hd1 & Hd2 & Hd3). fold d in Hd0, Hd1, Hd2, Hd3.
  assert (HF : F = Z.max (d + ex - prec) emin) by reflexivity.
  assert (Pow : forall k, 0 <= k -> 0 < 2 ^ k) by (intros; apply Z.pow_pos_nonneg; lia).
  exists (F - emin).
  assert (HG : is_grid A B (F - emin)).
  { assert (N < D * 2 ^ d). { assert (E := Z.div_mod N D ltac:(lia)). assert (R := Z.mod_pos_bound N D HD). nia. }
    split; [lia|].
    (* in terms of N, D *)
    assert (T : forall k, ex <= k + emin -> 0 <= k -> (A < B * 2 ^ k <-> N < D * 2 ^ (k + emin - ex)) /\ (B * 2 ^ k <= A <-> D * 2 ^ (k + emin - ex) <= N)).
    { intros k Hk Hk0. set (a := 2 ^ Z.max 0 (ex - emin)) in *. set (b := 2 ^ Z.max 0 (emin - ex)) in *.
      assert (Ha : 0 < a) by (apply Pow; lia). assert (Hb : 0 < b) by (apply Pow; lia).
      assert (X : 2 ^ k * b = 2 ^ (k + emin - ex) * a).
      { unfold a, b. rewrite <- !Z.pow_add_r by lia. f_equal. lia. }
      set (p := 2 ^ k) in *. set (q := 2 ^ (k + emin - ex)) in *.
      assert (X1 : A * (D * b) = N * a * B) by lia.
      assert (X2 : B * p * (D * b) = D * q * a * B) by (replace (B * p * (D * b)) with (B * D * (p * b)) by ring; rewrite X; ring).
      assert (0 < D * b) by nia. assert (0 < a * B) by nia. clear HE. split; split; intros Y.
      - assert (A * (D * b) < B * p * (D * b)) by nia. rewrite X1, X2 in *. nia.
      - assert (N * (a * B) < D * q * (a * B)) by nia. assert (A * (D * b) < B * p * (D * b)) by lia. nia.
      - assert (B * p * (D * b) <= A * (D * b)) by nia. rewrite X1, X2 in *. nia.
      - assert (D * q * (a * B) <= N * (a * B)) by nia. assert (B * p * (D * b) <= A * (D * b)) by lia. nia. }
    split.
    - apply (T (F - emin + prec)); try lia. replace (F - emin + prec + emin - ex) with (F + prec - ex) by lia.
      assert (2 ^ d <= 2 ^ (F + prec - ex)) by (apply Z.pow_le_mono_r; lia). nia.
    - intros G. apply (T (F - emin + prec - 1)); try lia. replace (F - emin + prec - 1 + emin - ex) with (d - 1) by lia.
      assert (0 < N / D). { destruct (Z.eq_dec (N / D) 0) as [Z0|Z0]; [|lia]. rewrite (Hd1 Z0) in *. lia. }
      destruct (Hd3 ltac:(lia)) as [D1 D2]. assert (E := Z.div_mod N D ltac:(lia)). assert (R := Z.mod_pos_bound N D HD). nia. }
  split; auto.
  unfold binary_round_aux. rewrite (shr_fexp_spec N D ex) by auto. fold d. fold F.
  destruct (loc_record (N / (D * 2 ^ (F - ex))) (loc_of N (D * 2 ^ (F - ex)))) as [L1 L2]. rewrite L1, L2.
  fold (rne N (D * 2 ^ (F - ex))).
  assert (R1 : rne N (D * 2 ^ (F - ex)) = rne A (B * 2 ^ (F - emin))).
  { set (a := 2 ^ Z.max 0 (ex - emin)) in *. set (b := 2 ^ Z.max 0 (emin - ex)) in *.
    assert (Ha : 0 < a) by (apply Pow; lia). assert (Hb : 0 < b) by (apply Pow; lia).
    assert (0 < 2 ^ (F - ex)) by (apply Pow; lia). assert (0 < 2 ^ (F - emin)) by (apply Pow; lia).
    assert (X : 2 ^ (F - emin) * b = 2 ^ (F - ex) * a).
    { unfold a, b. rewrite <- !Z.pow_add_r by lia. f_equal. lia. }
    rewrite <- (rne_scale N (D * 2 ^ (F - ex)) (a * B)) by nia.
    rewrite <- (rne_scale A (B * 2 ^ (F - emin)) (D * b)) by nia. f_equal; [lia|].
    replace (B * 2 ^ (F - emin) * (D * b)) with (B * D * (2 ^ (F - emin) * b)) by ring. rewrite X. ring. }
  rewrite R1. set (m1 := rne A (B * 2 ^ (F - emin))) in *.
  assert (G0 : 0 <= F - emin) by lia.
  destruct HG as (_ & G1 & G2). assert (Pg : 0 < 2 ^ (F - emin)) by (apply Pow; lia).
  assert (BD : 0 < B * 2 ^ (F - emin)) by nia.
  destruct (rne_spec A (B * 2 ^ (F - emin)) HA BD) as (M0 & M1 & M2). fold m1 in M0, M1, M2.
  assert (U : A / (B * 2 ^ (F - emin)) < 2 ^ prec).
  { apply Z.div_lt_upper_bound; auto. rewrite <- Z.mul_assoc, <- Z.pow_add_r by lia. auto. }
  assert (Lo : 0 < F - emin -> 2 ^ (prec - 1) <= A / (B * 2 ^ (F - emin))).
  { intros G. apply Z.div_le_lower_bound; auto. rewrite <- Z.mul_assoc, <- Z.pow_add_r by lia.
    replace (F - emin + (prec - 1)) with (F - emin + prec - 1) by lia. auto. }
  assert (Hm1 : m1 <= 2 ^ prec) by lia.
  assert (Pp : 2 ^ prec = 2 * 2 ^ (prec - 1)) by (rewrite <- Z.pow_succ_r by lia; f_equal; lia).
  destruct (Z.eq_dec m1 (2 ^ prec)) as [Top|NTop].
  - (* the next power of two *)
    assert (Dg : Zdigits2 m1 = prec + 1).
    { apply digits_unique; [lia|]. rewrite Top. replace (prec + 1 - 1) with prec by lia. split; [lia|]. apply Z.pow_lt_mono_r; lia. }
    assert (Fx : fexp (Zdigits2 m1 + F) = F + 1) by (rewrite Dg; unfold SpecFloat.fexp; lia).
    pose proof (shr_fexp_spec m1 1 F) as S2. rewrite Z.div_1_r in S2. rewrite Fx in S2.
    assert (LE : loc_of m1 1 = loc_Exact) by (unfold loc_of; rewrite Z.mod_1_r; reflexivity).
    rewrite LE in S2. rewrite S2 by lia. clear S2.
    replace (F + 1 - F) with 1 by lia. replace (1 * 2 ^ 1) with 2 by lia.
    destruct (loc_record (m1 / 2) (loc_of m1 2)) as [_ ->].
    assert (H2 : m1 / 2 = 2 ^ (prec - 1)) by (rewrite Top, Pp, Z.mul_comm; apply Z.div_mul; lia).
    rewrite H2. assert (Pq : 0 < 2 ^ (prec - 1)) by (apply Pow; lia).
    destruct (2 ^ (prec - 1)) as [|p|p] eqn:P1; try lia. rewrite <- P1 in *.
    assert (Dp : Zpos (digits2_pos p) = prec).
    { change (Zpos (digits2_pos p)) with (Zdigits2 (Zpos p)). apply digits_unique; [lia|]. rewrite <- P1. lia. }
    unfold rounds_to. rewrite Top.
    destruct (Z.leb_spec (F + 1) (emax - prec)) as [Lt|Ge].
    + split. { unfold IeeeSpec.is_float, valid_binary, bounded, canonical_mantissa. rewrite Dp. apply andb_true_intro. split; [apply Zeq_is_eq_bool; unfold SpecFloat.fexp; lia|]. apply Z.leb_le. lia. }
      rewrite <- Z.pow_add_r by lia.
      replace (2 ^ (prec + (F - emin)) <? 2 ^ (emax - emin)) with true by (symmetry; apply Z.ltb_lt, Z.pow_lt_mono_r; lia).
      split; [reflexivity|]. cbn [IeeeSpec.units]. rewrite <- P1, <- Z.pow_add_r by lia. do 2 f_equal. lia.
    + split; [reflexivity|]. rewrite <- Z.pow_add_r by lia.
      replace (2 ^ (prec + (F - emin)) <? 2 ^ (emax - emin)) with false by (symmetry; apply Z.ltb_ge, Z.pow_le_mono_r; lia).
      reflexivity.
  - assert (Hm2 : m1 < 2 ^ prec) by lia.
    assert (Dg : Zdigits2 m1 <= prec) by (apply digits_upper; lia).
    rewrite shr_fexp_stay by (auto; unfold SpecFloat.fexp; lia). cbn [shr_m shr_record_of_loc].
    unfold rounds_to. destruct m1 as [|p|p] eqn:M; try lia.
    + split; [reflexivity|]. replace (0 * 2 ^ (F - emin) <? 2 ^ (emax - emin)) with true
        by (symmetry; apply Z.ltb_lt; pose proof (Pow (emax - emin) ltac:(lia)); lia).
      split; [reflexivity|]. cbn. destruct s; lia.
    + assert (Dp : Zpos (digits2_pos p) = Zdigits2 (Zpos p)) by reflexivity.
      assert (Cn : fexp (Zpos (digits2_pos p) + F) = F).
      { rewrite Dp. unfold SpecFloat.fexp. destruct (Z.eq_dec (F - emin) 0) as [E0|E0]; [lia|].
        assert (Zdigits2 (Z.pos p) = prec) by (apply digits_unique; [lia|]; specialize (Lo ltac:(lia)); lia). lia. }
      destruct (Z.leb_spec F (emax - prec)) as [Lt|Ge].
      * split. { unfold IeeeSpec.is_float, valid_binary, bounded, canonical_mantissa. apply andb_true_intro. split; [apply Zeq_is_eq_bool; auto|apply Z.leb_le; auto]. }
        replace (Z.pos p * 2 ^ (F - emin) <? 2 ^ (emax - emin)) with true; [split; reflexivity|].
        symmetry. apply Z.ltb_lt. assert (2 ^ prec * 2 ^ (F - emin) <= 2 ^ (emax - emin)) by (rewrite <- Z.pow_add_r by lia; apply Z.pow_le_mono_r; lia). apply Z.lt_le_trans with (2 ^ prec * 2 ^ (F - emin)); [apply Z.mul_lt_mono_pos_r; auto|auto].
      * split; [reflexivity|]. replace (Z.pos p * 2 ^ (F - emin) <? 2 ^ (emax - emin)) with false; [reflexivity|].
        symmetry. apply Z.ltb_ge. specialize (Lo ltac:(clear - Ge En2; lia)).
        assert (2 ^ (emax - emin) <= 2 ^ (prec - 1) * 2 ^ (F - emin)) by (rewrite <- Z.pow_add_r by lia; apply Z.pow_le_mono_r; lia). apply Z.le_trans with (2 ^ (prec - 1) * 2 ^ (F - emin)); [auto|apply Z.mul_le_mono_nonneg_r; [clear - Pg; lia|clear - Lo M1; lia]].
Qed.

Lemma pow2_pos k : 0 <= k -> 0 < 2 ^ k.
Proof. intros. apply Z.pow_pos_nonneg; lia. Qed.

(** ** The numbers of the format *)
Lemma number_units x : is_number x ->
  exists a k, 0 <= a < 2 ^ prec /\ 0 <= k <= emax - prec - emin /\ Z.abs (units x) = a * 2 ^ k.
Proof.
  intros [F N]. destruct emin_neg as [En1 En2]. destruct x as [s|s| |s m e]; try discriminate N.
  - exists 0, 0. pose proof (pow2_pos prec ltac:(lia)). cbn. repeat split; lia.
  - unfold IeeeSpec.is_float, valid_binary, bounded, canonical_mantissa in F. apply andb_prop in F. destruct F as [F1 F2].
    apply Zeq_bool_eq in F1. apply Z.leb_le in F2. unfold SpecFloat.fexp in F1.
    exists (Zpos m), (e - emin). assert (D := digits_pos m).
    assert (2 ^ Z.pos (digits2_pos m) <= 2 ^ prec) by (apply Z.pow_le_mono_r; lia).
    assert (0 < 2 ^ (e - emin)) by (apply pow2_pos; lia).
    repeat split; try lia. cbn [IeeeSpec.units]. destruct s; nia.
Qed.
Lemma number_below x : is_number x -> Z.abs (units x) < 2 ^ (emax - emin).
Proof.
  intros H. destruct (number_units x H) as (a & k & Ha & Hk & ->).
  replace (emax - emin) with (prec + (emax - prec - emin)) by lia. rewrite Z.pow_add_r by lia.
  assert (2 ^ k <= 2 ^ (emax - prec - emin)) by (apply Z.pow_le_mono_r; lia).
  pose proof (pow2_pos k ltac:(lia)). nia.
Qed.

Lemma grid_closest A B g x : 0 <= A -> 0 < B -> is_grid A B g -> is_number x ->
  Z.abs (rne A (B * 2 ^ g) * 2 ^ g * B - A) <= Z.abs (Z.abs (units x) * B - A).
Proof.
  intros HA HB (G0 & G1 & G2) Hx. destruct (number_units x Hx) as (a & k & Ha & Hk & ->).
  assert (Pg := pow2_pos g G0). assert (C : forall w, Z.abs (rne A (B * 2 ^ g) * 2 ^ g * B - A) <= Z.abs (w * 2 ^ g * B - A)).
  { intros w. pose proof (rne_closest A (B * 2 ^ g) w HA ltac:(nia)).
    replace (rne A (B * 2 ^ g) * 2 ^ g * B) with (rne A (B * 2 ^ g) * (B * 2 ^ g)) by ring.
    replace (w * 2 ^ g * B) with (w * (B * 2 ^ g)) by ring. auto. }
  destruct (Z.le_gt_cases g k) as [L|L].
  - replace (a * 2 ^ k) with (a * 2 ^ (k - g) * 2 ^ g) by (rewrite <- Z.mul_assoc, <- Z.pow_add_r by lia; do 2 f_equal; lia). apply C.
  - specialize (C (2 ^ (prec - 1))). rewrite <- Z.pow_add_r in C by lia.
    replace (prec - 1 + g) with (g + prec - 1) in C by lia. specialize (G2 ltac:(lia)).
    assert (a * 2 ^ k <= 2 ^ (g + prec - 1)).
    { assert (2 ^ prec * 2 ^ k <= 2 ^ (g + prec - 1)) by (rewrite <- Z.pow_add_r by lia; apply Z.pow_le_mono_r; lia).
      pose proof (pow2_pos k ltac:(lia)). nia. }
    nia.
Qed.

Lemma rne_even_lower N D k : 0 <= N -> 0 < D -> Z.even k = true -> (2 * k - 1) * D <= 2 * N -> k <= rne N D.
Proof.
  intros HN HD Ev H. destruct (rne_spec N D HN HD) as (_ & B & _).
  assert (E := Z.div_mod N D ltac:(lia)). assert (R := Z.mod_pos_bound N D HD).
  assert (k - 1 <= N / D) by nia. destruct (Z.eq_dec (N / D) (k - 1)) as [Q|Q]; [|lia].
  unfold rne, loc_of. rewrite Q in *. set (r := N mod D) in *.
  assert (2 * r >= D) by nia.
  replace (r =? 0) with false by (symmetry; apply Z.eqb_neq; lia). cbn [round_nearest_even].
  destruct (Z.compare_spec (2 * r) D); try lia.
  replace (Z.even (k - 1)) with false; [lia|]. rewrite Z.even_sub, Ev. reflexivity.
Qed.

Lemma overflow_iff A B g : 0 <= A -> 0 < B -> is_grid A B g ->
  2 ^ (emax - emin) <= rne A (B * 2 ^ g) * 2 ^ g <-> too_large prec emax A B.
Proof.
  intros HA HB (G0 & G1 & G2). destruct emin_neg as [En1 En2]. unfold too_large. rewrite (Z.abs_eq A) by auto.
  set (G := emax - prec - emin). assert (HG : 0 < G) by (unfold G; lia).
  replace (emax - emin) with (prec + G) by (unfold G; lia). rewrite Z.pow_add_r by lia.
  assert (Pg := pow2_pos g G0). assert (PG := pow2_pos G ltac:(lia)). assert (Pp := pow2_pos (prec - 1) ltac:(lia)).
  assert (P1 : 2 ^ prec = 2 * 2 ^ (prec - 1)) by (rewrite <- Z.pow_succ_r by lia; f_equal; lia).
  assert (P2 : 2 ^ (prec + 1) = 2 * 2 ^ prec) by (rewrite <- Z.pow_succ_r by lia; f_equal; lia).
  assert (BD : 0 < B * 2 ^ g) by nia. destruct (rne_spec A (B * 2 ^ g) HA BD) as (M0 & M1 & M2).
  rewrite Z.pow_add_r in G1 by lia.
  destruct (Z.lt_trichotomy g G) as [L|[->|L]].
  - assert (2 * 2 ^ g <= 2 ^ G) by (rewrite <- Z.pow_succ_r by lia; apply Z.pow_le_mono_r; lia). split; intros H0.
    + exfalso. assert (A / (B * 2 ^ g) < 2 ^ prec) by (apply Z.div_lt_upper_bound; nia). nia.
    + exfalso. assert (2 * A < B * (2 * 2 ^ g) * 2 ^ prec) by nia.
      assert (B * (2 * 2 ^ g) * 2 ^ prec <= B * 2 ^ G * 2 ^ prec) by (apply Z.mul_le_mono_nonneg_r; nia). nia.
  - split; intros H0.
    + assert (2 ^ prec <= rne A (B * 2 ^ G)) by nia. nia.
    + assert (2 ^ prec <= rne A (B * 2 ^ G)); [|nia]. apply rne_even_lower; auto.
      * rewrite P1. rewrite Z.even_mul. reflexivity.
      * nia.
  - specialize (G2 ltac:(lia)). assert (X : 2 ^ prec * 2 ^ G <= 2 ^ (g + prec - 1)) by (rewrite <- Z.pow_add_r by lia; apply Z.pow_le_mono_r; lia).
    split; intros H0.
    + nia.
    + assert (2 ^ (prec - 1) <= A / (B * 2 ^ g)).
      { apply Z.div_le_lower_bound; auto. rewrite <- Z.mul_assoc, <- Z.pow_add_r by lia.
        replace (g + (prec - 1)) with (g + prec - 1) by lia. auto. }
      assert (2 ^ (g + prec - 1) = 2 ^ (prec - 1) * 2 ^ g) by (rewrite <- Z.pow_add_r by lia; f_equal; lia). nia.
Qed.

(** [r] is [a / b] units, rounded *)
Definition rounded (s : bool) (A B : Z) (r : spec_float) : Prop :=
  is_float r /\
  ((too_large prec emax A B /\ r = S754_infinity s) \/
   (~ too_large prec emax A B /\ closest prec emax ((if s then -1 else 1) * A) B r)).

Lemma rounded_intro s A B g r : 0 <= A -> 0 < B -> is_grid A B g ->
  rounds_to s (rne A (B * 2 ^ g) * 2 ^ g) r -> rounded s A B r.
Proof.
  intros HA HB HG [F R]. split; auto. pose proof (overflow_iff A B g HA HB HG) as O.
  destruct (Z.ltb_spec (rne A (B * 2 ^ g) * 2 ^ g) (2 ^ (emax - emin))) as [L|L].
  - right. split; [intros T; apply O in T; lia|]. destruct R as [R1 R2]. split; [split; auto|].
    intros w W. pose proof (grid_closest A B g w HA HB HG W) as C. rewrite R2. destruct s; lia.
  - left. split; auto. apply O; auto.
Qed.

Lemma rounded_aux s N D ex A B : 0 <= N -> 0 < D -> ex <= fexp (Zdigits2 (N / D) + ex) ->
  0 <= A -> 0 < B -> N * 2 ^ Z.max 0 (ex - emin) * B = A * (D * 2 ^ Z.max 0 (emin - ex)) ->
  rounded s A B (binary_round_aux prec emax s (N / D) ex (loc_of N D)).
Proof.
  intros. destruct (round_aux_spec s N D ex) with (A := A) (B := B) as (g & G & R); auto.
  eapply rounded_intro; eauto.
Qed.

Lemma exact_closest x b : 0 < b -> is_number x -> closest prec emax (units x * b) b x.
Proof. intros Hb H. split; auto. intros w W. lia. Qed.

Lemma number_not_too_large x b : 0 < b -> is_number x -> ~ too_large prec emax (units x * b) b.
Proof.
  intros Hb H T. unfold too_large in T. destruct emin_neg as [En1 En2]. destruct (number_units x H) as (a & k & Ha & Hk & E).
  rewrite Z.abs_mul, E, (Z.abs_eq b) in T by lia.
  assert (P2 : 2 ^ (prec + 1) = 2 * 2 ^ prec) by (rewrite <- Z.pow_succ_r by lia; f_equal; lia).
  assert (2 ^ k <= 2 ^ (emax - prec - emin)) by (apply Z.pow_le_mono_r; lia).
  pose proof (pow2_pos k ltac:(lia)).
  assert (2 * (a * 2 ^ k) <= 2 * ((2 ^ prec - 1) * 2 ^ (emax - prec - emin))) by nia.
  assert ((2 * 2 ^ prec - 1) * 2 ^ (emax - prec - emin) <= 2 * (a * 2 ^ k)) by nia. nia.
Qed.

Lemma shl_align_value mx ex ex' : ex' <= ex ->
  Zpos (fst (shl_align mx ex ex')) = Zpos mx * 2 ^ (ex - ex') /\ snd (shl_align mx ex ex') = ex'.
Proof.
  intros H. unfold shl_align. destruct (ex' - ex) as [|p|p] eqn:E; try lia.
  - replace (ex - ex') with 0 by lia. cbn. lia.
  - cbn [fst snd]. split; auto. replace (ex - ex') with (Zpos p) by lia. rewrite shift_pos_correct, Zpower_pos_nat.
    rewrite <- Zpower_nat_Z, positive_nat_Z || idtac. rewrite Z.mul_comm. f_equal. rewrite Zpower_nat_Z, positive_nat_Z. reflexivity.
Qed.

Lemma digits_shift m k : 0 <= k -> 0 < m -> Zdigits2 (m * 2 ^ k) = Zdigits2 m + k.
Proof.
  intros Hk Hm. destruct (digits_nonneg m ltac:(lia)) as (D0 & _ & D1 & D2). destruct (D2 Hm) as [D3 D4].
  apply digits_unique; [lia|]. replace (Zdigits2 m + k - 1) with (Zdigits2 m - 1 + k) by lia.
  rewrite !Z.pow_add_r by lia. pose proof (pow2_pos k Hk). nia.
Qed.

Lemma loc_of_1 n : loc_of n 1 = loc_Exact.
Proof. unfold loc_of. rewrite Z.mod_1_r. reflexivity. Qed.

Lemma binary_round_spec s m e : emin <= e -> rounded s (Zpos m * 2 ^ (e - emin)) 1 (binary_round prec emax s m e).
Proof.
  intros He. unfold binary_round. destruct emin_neg as [En1 En2].
  set (F := fexp (Z.pos (digits2_pos m) + e)).
  destruct (Z.le_gt_cases F e) as [L|L].
  - destruct (shl_align_value m e F L) as [V1 V2]. destruct (shl_align m e F) as [mz ez]. cbn [fst snd] in V1, V2. subst ez.
    rewrite <- (loc_of_1 (Zpos mz)). rewrite <- (Z.div_1_r (Zpos mz)) at 1.
    assert (E1 : F = Z.max (Z.pos (digits2_pos m) + e - prec) emin) by reflexivity.
    apply rounded_aux; try lia.
    + rewrite Z.div_1_r, V1, digits_shift by lia. change (Zdigits2 (Z.pos m)) with (Z.pos (digits2_pos m)).
      replace (Z.pos (digits2_pos m) + (e - F) + F) with (Z.pos (digits2_pos m) + e) by lia. fold F. lia.
    + rewrite V1. rewrite (Z.max_r 0 (F - emin)), (Z.max_l 0 (emin - F)) by lia.
      rewrite <- Z.mul_assoc, <- (Z.mul_assoc (Zpos m)), (Z.mul_assoc (2 ^ _)), <- Z.pow_add_r by lia.
      replace (e - F + (F - emin)) with (e - emin) by lia. lia.
  - unfold shl_align. destruct (F - e) as [|p|p] eqn:E; try lia.
    rewrite <- (loc_of_1 (Zpos m)). rewrite <- (Z.div_1_r (Zpos m)) at 2. apply rounded_aux; try lia.
    + rewrite Z.div_1_r. change (Zdigits2 (Z.pos m)) with (Z.pos (digits2_pos m)). fold F. lia.
    + rewrite (Z.max_r 0 (e - emin)), (Z.max_l 0 (emin - e)) by lia. lia.
Qed.

(** [r] is [a / b] units (of any sign), rounded, [s] being the sign that it has if it is zero *)
Definition is_rounding (a b : Z) (r : spec_float) : Prop :=
  is_float r /\
  ((too_large prec emax a b /\ r = S754_infinity (a <? 0)) \/
   (~ too_large prec emax a b /\ closest prec emax a b r)).

Lemma rounded_signed s A B r : 0 < A -> rounded s A B r -> is_rounding ((if s then -1 else 1) * A) B r.
Proof.
  intros HA [F H]. split; auto. unfold too_large in *.
  replace (Z.abs ((if s then -1 else 1) * A)) with (Z.abs A) by (destruct s; lia).
  destruct H as [[T ->]|[T C]]; [left|right]; split; auto. f_equal. symmetry. destruct s; [apply Z.ltb_lt|apply Z.ltb_ge]; lia.
Qed.

Lemma exact_rounding x : is_number x -> is_rounding (units x) 1 x.
Proof.
  intros H. split; [apply H|]. right. split.
  - intros T. apply (number_not_too_large x 1); auto; [lia|]. rewrite Z.mul_1_r. auto.
  - replace (units x) with (units x * 1) at 1 by lia. apply exact_closest; auto. lia.
Qed.

Lemma zero_rounding b s : 0 < b -> is_rounding 0 b (S754_zero s).
Proof.
  intros Hb. assert (is_number (S754_zero s)) by (split; reflexivity). split; [reflexivity|]. right. split.
  - intros T. apply (number_not_too_large (S754_zero s) b); auto.
  - apply (exact_closest (S754_zero s) b); auto.
Qed.

Lemma binary_normalize_spec m e sz : emin <= e -> is_rounding (m * 2 ^ (e - emin)) 1 (binary_normalize prec emax m e sz).
Proof.
  intros He. pose proof (pow2_pos (e - emin) ltac:(lia)). destruct m as [|m|m]; cbn [binary_normalize].
  - apply zero_rounding. lia.
  - pose proof (rounded_signed false (Zpos m * 2 ^ (e - emin)) 1 _ ltac:(lia) (binary_round_spec false m e He)) as R.
    cbn iota in R. rewrite Z.mul_1_l in R. auto.
  - pose proof (rounded_signed true (Zpos m * 2 ^ (e - emin)) 1 _ ltac:(lia) (binary_round_spec true m e He)) as R.
    cbn iota in R. replace (-1 * (Z.pos m * 2 ^ (e - emin))) with (Z.neg m * 2 ^ (e - emin)) in R by lia. auto.
Qed.

Lemma finite_exponent s m e : is_float (S754_finite s m e) -> emin <= e <= emax - prec /\ e <= fexp (Z.pos (digits2_pos m) + e).
Proof.
  intros F. unfold IeeeSpec.is_float, valid_binary, bounded, canonical_mantissa in F. apply andb_prop in F. destruct F as [F1 F2].
  apply Zeq_bool_eq in F1. apply Z.leb_le in F2. unfold SpecFloat.fexp in *. lia.
Qed.

(** ** Addition, subtraction, multiplication and division *)
Lemma units_aligned s m e ez : emin <= ez <= e ->
  cond_Zopp s (Z.pos (fst (shl_align m e ez))) * 2 ^ (ez - emin) = units (S754_finite s m e).
Proof.
  intros H. destruct (shl_align_value m e ez ltac:(lia)) as [-> _]. cbn [IeeeSpec.units].
  replace (e - emin) with (e - ez + (ez - emin)) by lia. rewrite (Z.pow_add_r 2 (e - ez)) by lia. destruct s; cbn [cond_Zopp]; ring.
Qed.

Theorem SFadd_spec x y : is_number x -> is_number y -> is_rounding (units x + units y) 1 (SFadd prec emax x y).
Proof.
  intros [Fx Nx] [Fy Ny]. destruct x as [sx|sx| |sx mx ex], y as [sy|sy| |sy my ey]; try discriminate Nx; try discriminate Ny; cbn [SFadd].
  - destruct (Bool.eqb sx sy); apply zero_rounding; lia.
  - replace (units (S754_zero sx) + units (S754_finite sy my ey)) with (units (S754_finite sy my ey)) by (cbn [IeeeSpec.units]; lia).
    apply exact_rounding. split; auto.
  - replace (units (S754_finite sx mx ex) + units (S754_zero sy)) with (units (S754_finite sx mx ex)) by (cbn [IeeeSpec.units]; lia).
    apply exact_rounding. split; auto.
  - apply finite_exponent in Fx. apply finite_exponent in Fy.
    rewrite <- (units_aligned sx mx ex (Z.min ex ey)), <- (units_aligned sy my ey (Z.min ex ey)) by lia.
    rewrite <- Z.mul_add_distr_r. apply binary_normalize_spec. lia.
Qed.

Theorem SFsub_spec x y : is_number x -> is_number y -> is_rounding (units x - units y) 1 (SFsub prec emax x y).
Proof.
  intros [Fx Nx] [Fy Ny]. destruct x as [sx|sx| |sx mx ex], y as [sy|sy| |sy my ey]; try discriminate Nx; try discriminate Ny; cbn [SFsub].
  - destruct (Bool.eqb sx (negb sy)); apply zero_rounding; lia.
  - replace (units (S754_zero sx) - units (S754_finite sy my ey)) with (units (S754_finite (negb sy) my ey)) by (cbn [IeeeSpec.units]; destruct sy; cbn [negb]; lia).
    apply exact_rounding. split; auto.
  - replace (units (S754_finite sx mx ex) - units (S754_zero sy)) with (units (S754_finite sx mx ex)) by (cbn [IeeeSpec.units]; lia).
    apply exact_rounding. split; auto.
  - apply finite_exponent in Fx. apply finite_exponent in Fy.
    rewrite <- (units_aligned sx mx ex (Z.min ex ey)), <- (units_aligned sy my ey (Z.min ex ey)) by lia.
    rewrite <- Z.mul_sub_distr_r. apply binary_normalize_spec. lia.
Qed.

Lemma digits_mul a b : 0 < a -> 0 < b -> Zdigits2 a + Zdigits2 b - 1 <= Zdigits2 (a * b).
Proof.
  intros Ha Hb. destruct (digits_nonneg a ltac:(lia)) as (_ & _ & _ & A). destruct (digits_nonneg b ltac:(lia)) as (_ & _ & _ & B).
  destruct (A Ha) as [A1 A2]. destruct (B Hb) as [B1 B2]. destruct (digits_nonneg (a * b) ltac:(nia)) as (C0 & _ & C & _).
  assert (2 ^ (Zdigits2 a - 1) * 2 ^ (Zdigits2 b - 1) <= a * b).
  { apply Z.mul_le_mono_nonneg; auto; apply Z.lt_le_incl, pow2_pos; lia. }
  rewrite <- Z.pow_add_r in H by lia.
  assert (Zdigits2 a - 1 + (Zdigits2 b - 1) < Zdigits2 (a * b)) by (apply (Z.pow_lt_mono_r_iff 2); lia). lia.
Qed.

Lemma canonical_cases s m e : is_float (S754_finite s m e) ->
  e = emin \/ (emin < e /\ Z.pos (digits2_pos m) = prec).
Proof.
  intros F. unfold IeeeSpec.is_float, valid_binary, bounded, canonical_mantissa in F. apply andb_prop in F. destruct F as [F1 F2].
  apply Zeq_bool_eq in F1. unfold SpecFloat.fexp in *. lia.
Qed.

Theorem SFmul_spec x y : is_number x -> is_number y ->
  is_rounding (units x * units y) (unit prec emax) (SFmul prec emax x y).
Proof.
  intros [Fx Nx] [Fy Ny]. destruct emin_neg as [En1 En2].
  assert (Pu : 0 < unit prec emax) by (apply pow2_pos; lia).
  destruct x as [sx|sx| |sx mx ex], y as [sy|sy| |sy my ey]; try discriminate Nx; try discriminate Ny; cbn [SFmul].
  1-3: match goal with |- is_rounding ?u _ _ => replace u with 0 by (cbn [IeeeSpec.units]; lia) end; apply zero_rounding; auto.
  assert (Ex := finite_exponent _ _ _ Fx). assert (Ey := finite_exponent _ _ _ Fy).
  assert (Px := pow2_pos (ex - emin) ltac:(lia)). assert (Py := pow2_pos (ey - emin) ltac:(lia)).
  replace (units (S754_finite sx mx ex) * units (S754_finite sy my ey)) with
    ((if xorb sx sy then -1 else 1) * (Zpos mx * 2 ^ (ex - emin) * (Zpos my * 2 ^ (ey - emin)))) by (cbn [IeeeSpec.units]; destruct sx, sy; cbn [xorb]; ring).
  apply rounded_signed; [nia|]. rewrite <- (loc_of_1 (Zpos (mx * my))). rewrite <- (Z.div_1_r (Zpos (mx * my))) at 1.
  apply rounded_aux; [lia|lia| |nia|auto|].
  - rewrite Z.div_1_r, Pos2Z.inj_mul. pose proof (digits_mul (Zpos mx) (Zpos my) ltac:(lia) ltac:(lia)) as D.
    cbn [Zdigits2] in D. unfold SpecFloat.fexp. cbn [Zdigits2 Z.mul].
    destruct (canonical_cases _ _ _ Fx) as [C1|[C1 C2]], (canonical_cases _ _ _ Fy) as [C3|[C3 C4]]; try lia.
    + assert (Z.pos (digits2_pos mx) >= 1) by lia. cbn [Zdigits2 Z.mul] in D. lia.
    + assert (Z.pos (digits2_pos my) >= 1) by lia. cbn [Zdigits2 Z.mul] in D. lia.
    + cbn [Zdigits2 Z.mul] in D. lia.
  - rewrite Pos2Z.inj_mul. unfold unit. rewrite Z.mul_1_l.
    replace (Z.pos mx * Z.pos my * 2 ^ Z.max 0 (ex + ey - emin) * 2 ^ (- emin)) with (Z.pos mx * Z.pos my * (2 ^ Z.max 0 (ex + ey - emin) * 2 ^ (- emin))) by ring.
    replace (Z.pos mx * 2 ^ (ex - emin) * (Z.pos my * 2 ^ (ey - emin)) * 2 ^ Z.max 0 (emin - (ex + ey)))
      with (Z.pos mx * Z.pos my * (2 ^ (ex - emin) * 2 ^ (ey - emin) * 2 ^ Z.max 0 (emin - (ex + ey)))) by ring.
    f_equal. rewrite <- !Z.pow_add_r by lia. f_equal. lia.
Qed.

Lemma new_location_spec m r : 0 < m -> 0 <= r < m -> new_location m r = (if r =? 0 then loc_Exact else loc_Inexact (2 * r ?= m)).
Proof.
  intros Hm Hr. unfold new_location, new_location_even, new_location_odd.
  assert (Z.even m = true \/ Z.even m = false) as [Ev|Ev] by (destruct (Z.even m); auto); rewrite Ev.
  - destruct (Z.eqb_spec r 0) as [->|N]; [reflexivity|]. replace (Zeq_bool r 0) with false; auto.
    symmetry. apply not_true_is_false. intros E. apply Zeq_bool_eq in E. auto.
  - destruct (Z.eqb_spec r 0) as [->|N]; [reflexivity|]. replace (Zeq_bool r 0) with false.
    2:{ symmetry. apply not_true_is_false. intros E. apply Zeq_bool_eq in E. auto. }
    f_equal. assert (exists k, m = 2 * k + 1) as [k Hk].
    { rewrite <- Z.negb_odd in Ev. apply negb_false_iff, Z.odd_spec in Ev. destruct Ev as [k Hk]. exists k. auto. }
    destruct (Z.compare_spec (2 * r + 1) m), (Z.compare_spec (2 * r) m); auto; lia.
Qed.

Theorem SFdiv_spec x y : is_number x -> is_number y -> units y <> 0 ->
  is_rounding (Z.sgn (units y) * units x * unit prec emax) (Z.abs (units y)) (SFdiv prec emax x y).
Proof.
  intros [Fx Nx] [Fy Ny] Hy. destruct emin_neg as [En1 En2].
  assert (Pu : 0 < unit prec emax) by (apply pow2_pos; lia).
  destruct x as [sx|sx| |sx mx ex], y as [sy|sy| |sy my ey]; try discriminate Nx; try discriminate Ny; cbn [SFdiv];
    try (exfalso; apply Hy; reflexivity).
  { match goal with |- is_rounding ?u _ _ => replace u with 0 by (cbn [IeeeSpec.units]; lia) end. apply zero_rounding. lia. }
  assert (Ex := finite_exponent _ _ _ Fx). assert (Ey := finite_exponent _ _ _ Fy).
  assert (Px := pow2_pos (ex - emin) ltac:(lia)). assert (Py := pow2_pos (ey - emin) ltac:(lia)).
  replace (Z.abs (units (S754_finite sy my ey))) with (Z.pos my * 2 ^ (ey - emin)) by (cbn [IeeeSpec.units]; destruct sy; nia).
  replace (Z.sgn (units (S754_finite sy my ey)) * units (S754_finite sx mx ex) * unit prec emax) with
    ((if xorb sx sy then -1 else 1) * (Zpos mx * 2 ^ (ex - emin) * unit prec emax)).
  2:{ assert (Z.sgn (units (S754_finite sy my ey)) = if sy then -1 else 1) as ->.
      { cbn [IeeeSpec.units]. destruct sy; [rewrite Z.sgn_neg by nia|rewrite Z.sgn_pos by nia]; reflexivity. }
      cbn [IeeeSpec.units]. destruct sx, sy; cbn [xorb]; ring. }
  unfold SFdiv_core_binary.
  set (E := Zdigits2 (Z.pos mx) + ex - (Zdigits2 (Z.pos my) + ey)). set (e' := Z.min (fexp E) (ex - ey)).
  set (s := ex - ey - e'). assert (Hs : 0 <= s) by (unfold s, e'; lia).
  assert (M : match s with 0 => Z.pos mx | Z.pos _ => Z.shiftl (Z.pos mx) s | Z.neg _ => 0 end = Z.pos mx * 2 ^ s).
  { destruct s as [|p|p] eqn:Es; [lia| |lia]. rewrite Z.shiftl_mul_pow2 by lia. reflexivity. }
  rewrite M. assert (Ps := pow2_pos s Hs).
  set (N := Z.pos mx * 2 ^ s). set (D := Z.pos my).
  assert (DE : Z.div_eucl N D = (N / D, N mod D)) by (unfold Z.div, Z.modulo; destruct (Z.div_eucl N D); reflexivity).
  rewrite DE. rewrite new_location_spec by (unfold D; try lia; apply Z.mod_pos_bound; lia).
  fold (loc_of N D).
  apply rounded_signed; [nia|]. apply rounded_aux; try (unfold N, D; nia).
  - (* the exponent *)
    destruct (digits_nonneg (Zpos mx) ltac:(lia)) as (_ & _ & _ & A). destruct (A ltac:(lia)) as [A1 A2].
    destruct (digits_nonneg (Zpos my) ltac:(lia)) as (B0 & _ & B2 & _).
    assert (K : Zdigits2 (Z.pos mx) + s - Zdigits2 (Z.pos my) = E - e') by (unfold E, s; lia).
    assert (HfE : fexp E = Z.max (E - prec) emin) by reflexivity.
    assert (He' : e' <= fexp E) by (unfold e'; lia).
    assert (Hq : 0 <= N / D) by (apply Z.div_pos; unfold N, D; nia).
    destruct (digits_nonneg (N / D) Hq) as (Q0 & _ & Q1 & _).
    destruct (Z.le_gt_cases (E - e') 0) as [L|L].
    + unfold SpecFloat.fexp. lia.
    + assert (2 ^ (E - e' - 1) <= N / D).
      { apply Z.div_le_lower_bound; [unfold D; lia|]. unfold N, D.
        assert (Z.pos my * 2 ^ (E - e' - 1) <= 2 ^ Zdigits2 (Z.pos my) * 2 ^ (E - e' - 1)) by (apply Z.mul_le_mono_nonneg_r; [apply Z.lt_le_incl, pow2_pos; lia|lia]).
        rewrite <- Z.pow_add_r in H by lia.
        assert (2 ^ (Zdigits2 (Z.pos mx) - 1) * 2 ^ s <= Z.pos mx * 2 ^ s) by (apply Z.mul_le_mono_nonneg_r; lia).
        rewrite <- Z.pow_add_r in H0 by lia.
        replace (Zdigits2 (Z.pos mx) - 1 + s) with (Zdigits2 (Z.pos my) + (E - e' - 1)) in H0 by lia. lia. }
      assert (E - e' - 1 < Zdigits2 (N / D)) by (apply (Z.pow_lt_mono_r_iff 2); lia).
      unfold SpecFloat.fexp in *. lia.
  - unfold N, D, unit. 
    replace (Z.pos mx * 2 ^ s * 2 ^ Z.max 0 (e' - emin) * (Z.pos my * 2 ^ (ey - emin)))
      with (Z.pos mx * Z.pos my * (2 ^ s * 2 ^ Z.max 0 (e' - emin) * 2 ^ (ey - emin))) by ring.
    replace (Z.pos mx * 2 ^ (ex - emin) * 2 ^ (- emin) * (Z.pos my * 2 ^ Z.max 0 (emin - e')))
      with (Z.pos mx * Z.pos my * (2 ^ (ex - emin) * 2 ^ (- emin) * 2 ^ Z.max 0 (emin - e'))) by ring.
    f_equal. rewrite <- !Z.pow_add_r by lia. f_equal. unfold s. lia.
Qed.

(** A rounding is a number exactly if what is rounded is not too large. *)
Lemma rounding_finite a b r : is_rounding a b r -> is_finite r = true <-> ~ too_large prec emax a b.
Proof.
  intros [F [[T ->]|[T C]]]; split; auto; try discriminate; try tauto. intros _. apply C.
Qed.
Lemma rounding_float a b r : is_rounding a b r -> is_float r.
Proof. intros [F _]. auto. Qed.
Lemma rounding_not_nan a b r : is_rounding a b r -> is_nan r = false.
Proof. intros [F [[T ->]|[T C]]]; auto. destruct C as [[_ C] _]. destruct r; auto; discriminate. Qed.

(** ** Comparison *)
Lemma SFcompare_spec x y : is_number x -> is_number y -> SFcompare x y = Some (units x ?= units y).
Proof.
  intros [Fx Nx] [Fy Ny]. destruct emin_neg as [En1 En2].
  assert (P : forall s m e, is_float (S754_finite s m e) -> 0 < Z.pos m * 2 ^ (e - emin)).
  { intros s m e F. apply finite_exponent in F. pose proof (pow2_pos (e - emin) ltac:(lia)). nia. }
  assert (K : forall s m e s' m' e', is_float (S754_finite s m e) -> is_float (S754_finite s' m' e') -> e < e' ->
    Z.pos m * 2 ^ (e - emin) < Z.pos m' * 2 ^ (e' - emin)).
  { intros s m e s' m' e' F F' L. assert (F1 := finite_exponent _ _ _ F). assert (F1' := finite_exponent _ _ _ F').
    destruct (canonical_cases _ _ _ F') as [C|[C1 C2]]; [lia|].
    assert (Z.pos (digits2_pos m) <= prec) by (destruct (canonical_cases _ _ _ F) as [C|[C3 C4]]; [unfold IeeeSpec.is_float, valid_binary, bounded, canonical_mantissa in F; apply andb_prop in F; destruct F as [F _]; apply Zeq_bool_eq in F; unfold SpecFloat.fexp in F; lia|lia]).
    pose proof (digits_pos m). pose proof (digits_pos m'). rewrite C2 in *.
    assert (2 ^ Z.pos (digits2_pos m) <= 2 ^ prec) by (apply Z.pow_le_mono_r; lia).
    assert (2 ^ prec * 2 ^ (e - emin) <= 2 ^ (prec - 1) * 2 ^ (e' - emin)) by (rewrite <- !Z.pow_add_r by lia; apply Z.pow_le_mono_r; lia).
    pose proof (pow2_pos (e - emin) ltac:(lia)). pose proof (pow2_pos (e' - emin) ltac:(lia)). nia. }
  destruct x as [sx|sx| |sx mx ex], y as [sy|sy| |sy my ey]; try discriminate Nx; try discriminate Ny; cbn [SFcompare].
  - reflexivity.
  - f_equal. pose proof (P _ _ _ Fy). symmetry. change (units (S754_zero sx)) with 0. cbn [IeeeSpec.units].
    destruct sy; [apply Z.compare_gt_iff|apply Z.compare_lt_iff]; lia.
  - f_equal. pose proof (P _ _ _ Fx). symmetry. change (units (S754_zero sy)) with 0. cbn [IeeeSpec.units].
    destruct sx; [apply Z.compare_lt_iff|apply Z.compare_gt_iff]; lia.
  - f_equal. pose proof (P _ _ _ Fx). pose proof (P _ _ _ Fy). symmetry. cbn [IeeeSpec.units].
    assert (C : (Z.pos mx * 2 ^ (ex - emin) ?= Z.pos my * 2 ^ (ey - emin)) =
      match ex ?= ey with Lt => Lt | Gt => Gt | Eq => Pos.compare_cont Eq mx my end).
    { destruct (Z.compare_spec ex ey) as [->|L|L].
      - change (Pos.compare_cont Eq mx my) with (Z.pos mx ?= Z.pos my). symmetry. apply Zmult_compare_compat_r.
        apply Z.lt_gt, pow2_pos. apply finite_exponent in Fy. lia.
      - apply Z.compare_lt_iff. eapply K; eauto.
      - apply Z.compare_gt_iff. eapply K; eauto. }
    destruct sx, sy.
    + replace (-1 * (Z.pos mx * 2 ^ (ex - emin)) ?= -1 * (Z.pos my * 2 ^ (ey - emin))) with
        (CompOpp (Z.pos mx * 2 ^ (ex - emin) ?= Z.pos my * 2 ^ (ey - emin))).
      * rewrite C. destruct (ex ?= ey); reflexivity.
      * rewrite <- Z.compare_antisym. destruct (Z.compare_spec (Z.pos my * 2 ^ (ey - emin)) (Z.pos mx * 2 ^ (ex - emin)));
          symmetry; [apply Z.compare_eq_iff|apply Z.compare_lt_iff|apply Z.compare_gt_iff]; lia.
    + apply Z.compare_lt_iff. lia.
    + apply Z.compare_gt_iff. lia.
    + rewrite !Z.mul_1_l. exact C.
Qed.
End Format.
