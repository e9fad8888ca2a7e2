(** * Proofs about single cells of rasters *)
From Coq Require Import ZArith List Bool SpecFloat Lia.
From Verif Require Import IntsModel ArithModel ArithSpec ArithProofs ArithProps.
From Verif Require Import FloatModel IeeeSpec IeeeProofs FloatSpec FloatProofs FloatProps RasterModel RasterSpec RasterProofs.
Import ListNotations.
Open Scope Z_scope.

(** ** No data *)
Lemma blank_double : blank (NFloat Double (S754_finite false 4503599627370496 (-1074))) = true.
Proof. vm_compute. reflexivity. Qed.
Lemma blank_single : blank (NFloat Single (S754_finite false 8388608 (-149))) = true.
Proof. vm_compute. reflexivity. Qed.

Lemma float_blank f x y k : is_float (fprec f) (femax f) x -> is_float (fprec f) (femax f) y -> is_finite y = true ->
  fvalue f y = k -> k <> 0 -> SFeqb x y = (fvalue f x =? k).
Proof.
  intros X Y FY K NZ. destruct (is_nan x) eqn:NX.
  { destruct x; try discriminate. cbn [SFeqb SFcompare]. unfold fvalue. cbn [units]. rewrite Z.mul_0_l.
    destruct y; symmetry; apply Z.eqb_neq; lia. }
  assert (NY : is_nan y = false) by (destruct y; auto; discriminate).
  assert (RY : rank y = 0) by (destruct y; auto; discriminate).
  pose proof (C63_equal f x y X Y NX NY) as E. unfold fequal in E. unfold alike in E. rewrite RY, K in E.
  destruct (Z.eqb_spec (fvalue f x) k) as [V|V].
  - apply E. assert (RX : rank x = 0).
    { destruct x as [| | |]; auto. unfold fvalue in V. cbn [units] in V. rewrite Z.mul_0_l in V. congruence. }
    auto.
  - destruct (SFeqb x y); auto. exfalso. apply V. apply E; auto. apply E; auto.
Qed.

Lemma is_no_data_blank n : argument n -> is_no_data n = blank n.
Proof.
  destruct n as [t z|[] x]; intros A.
  - reflexivity.
  - unfold is_no_data. cbn [vty_of no_data_value blank]. cbn [argument] in A. apply float_blank; auto; try (vm_compute; reflexivity); vm_compute; discriminate.
  - unfold is_no_data. cbn [vty_of no_data_value blank]. cbn [argument] in A. apply float_blank; auto; try (vm_compute; reflexivity); vm_compute; discriminate.
Qed.
Lemma kept_no_data t nd : no_data_value t = Some nd -> kept nd = None.
Proof.
  unfold kept. destruct t as [|t| |]; cbn [no_data_value]; intros [= <-].
  - cbn [blank]. rewrite Z.eqb_refl. reflexivity.
  - rewrite blank_single. reflexivity.
  - rewrite blank_double. reflexivity.
Qed.
Lemma no_data_type t nd : no_data_value t = Some nd -> vty_of nd = t /\ argument nd.
Proof.
  destruct t as [|t| |]; cbn [no_data_value]; intros [= <-]; split; try reflexivity.
  destruct t; cbn; lia.
Qed.

(** ** Result types *)
Lemma combined_result t1 t2 : raster_type t1 -> raster_type t2 -> combined t1 t2 = Some (result_of t1 t2).
Proof.
  rewrite !raster_type_supported. unfold combined.
  destruct t1 as [|[]| |], t2 as [|[]| |]; intros; try discriminate; reflexivity.
Qed.
Lemma result_raster_type t1 t2 : raster_type t1 -> raster_type t2 -> raster_type (result_of t1 t2).
Proof.
  rewrite !raster_type_supported. destruct t1 as [|[]| |], t2 as [|[]| |]; intros; try discriminate; reflexivity.
Qed.
Lemma result_of_refl t : raster_type t -> result_of t t = t.
Proof. rewrite raster_type_supported. destruct t as [|[]| |]; intros; try discriminate; reflexivity. Qed.
Lemma integer_result t1 t2 : raster_type (VInt t1) -> raster_type (VInt t2) -> result_int t1 t2 = integer_of t1 t2 /\ result_of (VInt t1) (VInt t2) = VInt (integer_of t1 t2).
Proof. rewrite !raster_type_supported. destruct t1, t2; intros; try discriminate; split; reflexivity. Qed.
Lemma format_result_of n1 n2 : integer n1 && integer n2 = false ->
  result_of (vty_of n1) (vty_of n2) = match format_of n1 n2 with Single => VFloat32 | Double => VFloat64 end.
Proof. destruct n1 as [? ?|[] ?], n2 as [? ?|[] ?]; cbn; intros; try discriminate; reflexivity. Qed.

(** ** What an element becomes, if nothing is re-read *)
Definition calculated (alg : num -> num -> option num) (rng : num -> num -> num -> option bool) (nd : num) (v1 v2 : num) : option num :=
  match alg v1 v2 with
  | None => None
  | Some r => match rng v1 v2 r with None => None | Some b => Some (if b then r else nd) end
  end.
Definition seen (p : bool) (v : num) : option num := if p then kept v else Some v.
Lemma becomes_seen alg rng p1 p2 nd v1 v2 : argument v1 -> argument v2 ->
  becomes alg rng p1 p2 nd (fun _ => v1) (fun _ => v2) v1 v2 =
  match seen p1 v1, seen p2 v2 with Some _, Some _ => calculated alg rng nd v1 v2 | _, _ => Some nd end.
Proof.
  intros A1 A2. unfold becomes, seen, kept. rewrite !is_no_data_blank by auto.
  destruct p1, p2; cbn [andb orb]; destruct (blank v1), (blank v2); reflexivity.
Qed.
Lemma seen_some p v n : seen p v = Some n -> n = v.
Proof. unfold seen, kept. destruct p; [destruct (blank v)|]; congruence. Qed.

(** ** Integers *)
Lemma in_range_fits t z : in_range t z = true <-> fits_in t z.
Proof. unfold in_range, fits_in. rewrite andb_true_iff, !Z.leb_le. reflexivity. Qed.
Lemma if_in_range_fits t z : fits_in t z -> if_in_range t z = kept (NInt t z).
Proof. intros H. unfold if_in_range. rewrite (proj2 (in_range_fits t z) H). reflexivity. Qed.
Lemma if_in_range_not t z : ~ fits_in t z -> if_in_range t z = None.
Proof. intros H. unfold if_in_range. destruct (in_range t z) eqn:E; auto. apply in_range_fits in E. contradiction. Qed.

Lemma op_in_total w op R v1 v2 : raster_type (VInt R) -> (forall a b, fits_in U8 a -> fits_in U8 b -> fits_in S32 (op a b)) ->
  (w = true \/ signed R = false \/ in_range R v1 = true /\ in_range R v2 = true /\ in_range R (op v1 v2) = true) ->
  exists r, op_in w op R v1 v2 = Some r.
Proof.
  intros RT Hop H. destruct (op_in w op R v1 v2) as [r|] eqn:E; eauto. exfalso. destruct w; [now apply op_in_wrap in E|].
  apply op_in_strict in E. destruct E as [S N]. destruct H as [H|[H|(H1 & H2 & H3)]]; [discriminate| |].
  - apply raster_type_supported in RT. destruct R; cbn in H, S, RT; try discriminate. apply N. apply Hop; apply conv_fits.
  - rewrite in_range_fits in H1, H2, H3. rewrite !conv_id in N by auto. apply N.
    apply raster_type_supported in RT. destruct R; cbn in RT, S; try discriminate; auto; unfold fits_in in *; cbn in *; lia.
Qed.

Lemma mixed_sum w Ts Tu s u r R nd : signed Ts = true -> signed Tu = false -> fits_in Ts s -> fits_in Tu u ->
  add w Ts Tu s u = Some r -> result_int Ts Tu = R -> kept nd = None ->
  kept (if add_within_range Ts Tu s u r then NInt R r else nd) =
  (if 0 <? s then if_in_range R (s + u) else if u =? 0 then kept (NInt R s)
   else if 2 ^ 63 <=? s + u then kept (NInt R (s + u - 2 ^ 64)) else None).
Proof.
  intros S1 S2 G1 G2 Hr RI NK. destruct (C13_add_mixed_signedness w Ts Tu s u r S1 S2 G1 G2 Hr) as [A _].
  assert (FR : fits_in R r) by (rewrite <- RI; eapply op_in_fits; eauto).
  apply op_in_conv in Hr. rewrite RI in Hr.
  assert (Ru : signed R = true /\ fits_in R s /\ (2 ^ 63 <= u -> R = S64) /\ (u < 2 ^ 63 -> fits_in R u)).
  { rewrite <- RI. clear - S1 S2 G1 G2. unfold fits_in in *. destruct Ts, Tu; try discriminate; cbn in *; repeat split; intros; try lia; auto. }
  destruct Ru as (Sg & Fs & Big & Small). rewrite (conv_id _ s) in Hr by auto.
  assert (Uu : fits_in U64 u) by (clear - G2 S2; destruct Tu; try discriminate; unfold fits_in in *; cbn in *; lia).
  clear RI G1 G2 S1 S2. destruct (add_within_range Ts Tu s u r).
  - destruct A as [A _]. specialize (A eq_refl). destruct (Z.ltb_spec 0 s) as [P|P].
    + assert (E : r = s + u) by (clear - A P; lia). rewrite <- E, if_in_range_fits; auto.
    + destruct (Z.eqb_spec u 0) as [U|U].
      * subst u. rewrite Hr. rewrite (conv_id _ 0), Z.add_0_r, conv_id; auto. apply Small. reflexivity.
      * assert (B : 2 ^ 63 <= u /\ 2 ^ 63 <= s + u) by (clear - A P U; lia). destruct B as [B1 B2].
        rewrite (proj2 (Z.leb_le _ _) B2). f_equal. f_equal. rewrite Hr. rewrite (Big B1) in *. clear Big Small A.
        change (2 ^ 63) with 9223372036854775808 in *. change (2 ^ 64) with 18446744073709551616.
        unfold fits_in in *. cbn [imin imax] in *.
        assert (Cu : conv S64 u = u - 18446744073709551616).
        { change 18446744073709551616 with (modulus S64). apply conv_over. cbn [imin imax modulus]. lia. }
        rewrite Cu. rewrite conv_id; [lia|]. unfold fits_in. cbn [imin imax]. lia.
  - assert (NA : ~ ((0 < s /\ r = s + u) \/ (s <= 0 /\ u = 0) \/ (s <= 0 /\ 2 ^ 63 <= u /\ 2 ^ 63 <= s + u)))
      by (intros Q; apply A in Q; discriminate). clear A. rewrite NK. symmetry. destruct (Z.ltb_spec 0 s) as [P|P].
    + apply if_in_range_not. intros Q. apply NA. left. split; auto. rewrite Hr. rewrite (conv_id _ u), conv_id; auto.
      apply Small. clear - Q P Sg. destruct R; try discriminate; unfold fits_in in Q; cbn in Q; lia.
    + destruct (Z.eqb_spec u 0) as [U|U]; [exfalso; apply NA; auto|].
      destruct (Z.leb_spec (2 ^ 63) (s + u)) as [B|B]; auto. exfalso. apply NA. right. right. clear - B P. lia.
Qed.

Lemma sum_int w t1 t2 v1 v2 nd : raster_type (VInt t1) -> raster_type (VInt t2) -> fits_in t1 v1 -> fits_in t2 v2 ->
  no_data_value (VInt (integer_of t1 t2)) = Some nd -> is_defined w Z.add (Some (NInt t1 v1)) (Some (NInt t2 v2)) ->
  exists f, calculated (sum w) sum_within_range nd (NInt t1 v1) (NInt t2 v2) = Some f /\
    vty_of f = VInt (integer_of t1 t2) /\ argument f /\ kept f = integer_sum t1 t2 v1 v2.
Proof.
  intros R1 R2 F1 F2 ND D. destruct (integer_result t1 t2 R1 R2) as [RI RO].
  assert (RT := result_raster_type _ _ R1 R2). rewrite RO in RT.
  destruct (no_data_type _ _ ND) as [NT NA]. assert (NK := kept_no_data _ _ ND).
  unfold calculated, sum. unfold is_defined in D. rewrite <- RI in *.
  destruct (op_in_total w Z.add (result_int t1 t2) v1 v2 RT) as (r & Hr); auto.
  { unfold fits_in. cbn. lia. }
  change (op_in w Z.add (result_int t1 t2) v1 v2) with (add w t1 t2 v1 v2) in Hr. rewrite Hr. cbn [option_map sum_within_range].
  assert (FR : fits_in (result_int t1 t2) r) by (eapply op_in_fits; eauto).
  eexists. split; [reflexivity|].
  assert (K : vty_of (if add_within_range t1 t2 v1 v2 r then NInt (result_int t1 t2) r else nd) = VInt (result_int t1 t2) /\
              argument (if add_within_range t1 t2 v1 v2 r then NInt (result_int t1 t2) r else nd)).
  { destruct (add_within_range t1 t2 v1 v2 r); auto. }
  destruct K as [K1 K2]. split; auto. split; auto. unfold integer_sum. rewrite <- RI.
  destruct (Bool.eqb (signed t1) (signed t2)) eqn:S.
  - apply eqb_prop in S. destruct (C13_add_same_signedness w t1 t2 v1 v2 r S F1 F2 Hr) as [A B].
    destruct (add_within_range t1 t2 v1 v2 r).
    + assert (E : r = v1 + v2) by tauto. rewrite if_in_range_fits; subst; auto.
    + rewrite if_in_range_not; auto. intros Q. apply B in Q. apply A in Q. discriminate.
  - destruct (signed t1) eqn:S1, (signed t2) eqn:S2; try discriminate S.
    + apply (mixed_sum w t1 t2); auto.
    + destruct (C13_add_mixed_signedness w t2 t1 v2 v1 r S2 S1 F2 F1) as (_ & _ & C).
      { rewrite <- Hr. apply add_comm. }
      rewrite C. apply (mixed_sum w t2 t1); auto; [rewrite <- Hr; apply add_comm|apply result_comm].
Qed.

Lemma product_int w t1 t2 v1 v2 nd : raster_type (VInt t1) -> raster_type (VInt t2) -> fits_in t1 v1 -> fits_in t2 v2 ->
  no_data_value (VInt (integer_of t1 t2)) = Some nd -> is_defined w Z.mul (Some (NInt t1 v1)) (Some (NInt t2 v2)) ->
  exists f, calculated (product w) (product_within_range w) nd (NInt t1 v1) (NInt t2 v2) = Some f /\
    vty_of f = VInt (integer_of t1 t2) /\ argument f /\ kept f = integer_product t1 t2 v1 v2.
Proof.
  intros R1 R2 F1 F2 ND D. destruct (integer_result t1 t2 R1 R2) as [RI RO].
  assert (RT := result_raster_type _ _ R1 R2). rewrite RO in RT.
  destruct (no_data_type _ _ ND) as [NT NA]. assert (NK := kept_no_data _ _ ND).
  unfold calculated, product. unfold is_defined in D. unfold integer_product. rewrite <- RI in *.
  destruct (op_in_total w Z.mul (result_int t1 t2) v1 v2 RT) as (r & Hr); auto.
  { unfold fits_in. cbn. nia. }
  change (op_in w Z.mul (result_int t1 t2) v1 v2) with (multiply w t1 t2 v1 v2) in Hr. rewrite Hr. cbn [option_map product_within_range].
  assert (FR : fits_in (result_int t1 t2) r) by (eapply op_in_fits; eauto).
  destruct (C15_multiply w t1 t2 v1 v2 F1 F2) as (acc & Ha & A & B). rewrite Ha. eexists. split; [reflexivity|].
  specialize (B r Hr). destruct acc.
  - rewrite B in * by auto. split; [reflexivity|]. split; [exact FR|]. rewrite if_in_range_fits; auto.
  - split; auto. split; auto. rewrite NK. symmetry.
    destruct (in_range (result_int t1 t2) (v1 * v2)) eqn:I; unfold if_in_range; rewrite I; auto.
    unfold kept. cbn [blank]. apply in_range_fits in I.
    assert (N : ~ Z.abs (v1 * v2) <= imax (result_int t1 t2)) by (intros Q; apply A in Q; discriminate).
    replace (_ =? _) with true; auto. symmetry. apply Z.eqb_eq. unfold fits_in in I. clear - I N.
    destruct (result_int t1 t2); cbn [signed imin imax] in *; lia.
Qed.

(** ** Floating point numbers *)
Lemma sum_not_finite R x y : is_finite x && is_finite y = false -> is_float (fprec R) (femax R) (SFadd (fprec R) (femax R) x y).
Proof. destruct x as [[]|[]| |[] ? ?], y as [[]|[]| |[] ? ?]; cbn; intros; try discriminate; reflexivity. Qed.
Lemma product_not_finite R x y : is_finite x && is_finite y = false -> is_float (fprec R) (femax R) (SFmul (fprec R) (femax R) x y).
Proof. destruct x as [[]|[]| |[] ? ?], y as [[]|[]| |[] ? ?]; cbn; intros; try discriminate; reflexivity. Qed.

Lemma sum_float_argument n1 n2 : argument n1 -> argument n2 -> integer n1 && integer n2 = false ->
  let R := format_of n1 n2 in is_float (fprec R) (femax R) (SFadd (fprec R) (femax R) (to_format R n1) (to_format R n2)).
Proof.
  intros A1 A2 HF R. destruct (finite n1 && finite n2) eqn:F.
  - apply andb_prop in F. destruct F as [F1 F2].
    destruct (args_converted n1 n2 A1 A2 F1 F2 HF) as (x & y & E1 & E2 & N1 & N2 & _). subst R. rewrite E1, E2.
    eapply rounding_float. apply add_rounding; auto.
  - destruct (converted_finite n1 n2 A1 A2 HF) as [G1 G2]. apply sum_not_finite. subst R. rewrite G1, G2. auto.
Qed.
Lemma product_float_argument n1 n2 : argument n1 -> argument n2 -> integer n1 && integer n2 = false ->
  let R := format_of n1 n2 in is_float (fprec R) (femax R) (SFmul (fprec R) (femax R) (to_format R n1) (to_format R n2)).
Proof.
  intros A1 A2 HF R. destruct (finite n1 && finite n2) eqn:F.
  - apply andb_prop in F. destruct F as [F1 F2].
    destruct (args_converted n1 n2 A1 A2 F1 F2 HF) as (x & y & E1 & E2 & N1 & N2 & _). subst R. rewrite E1, E2.
    eapply rounding_float. apply mul_rounding; auto.
  - destruct (converted_finite n1 n2 A1 A2 HF) as [G1 G2]. apply product_not_finite. subst R. rewrite G1, G2. auto.
Qed.

Definition float_type (f : fmt) : vty := match f with Single => VFloat32 | Double => VFloat64 end.
Lemma vty_float f x : vty_of (NFloat f x) = float_type f.
Proof. destruct f; reflexivity. Qed.

(** The cell as an [element] *)
Definition element_num (R : fmt) (nd : num) (e : element) : option num :=
  match e with Written r => Some (NFloat R r) | Marked => Some nd | _ => None end.

Lemma sum_float_element w nd n1 n2 : integer n1 && integer n2 = false ->
  calculated (sum w) sum_within_range nd n1 n2 = element_num (format_of n1 n2) nd (fadd n1 n2).
Proof.
  intros HF. unfold calculated, fadd. rewrite format_result by auto.
  assert (E : sum w n1 n2 = option_map (fun f => NFloat f (SFadd (fprec f) (femax f) (to_format f n1) (to_format f n2))) (result_format n1 n2)).
  { destruct n1, n2; try discriminate; reflexivity. }
  rewrite E, format_result by auto. cbn [option_map].
  set (r := SFadd _ _ _ _). assert (E2 : sum_within_range n1 n2 (NFloat (format_of n1 n2) r) = fadd_within_range n1 n2 r).
  { destruct n1, n2; try discriminate; reflexivity. }
  rewrite E2. cbv zeta. fold r. destruct (fadd_within_range n1 n2 r) as [[]|]; reflexivity.
Qed.
Lemma product_float_element w nd n1 n2 : integer n1 && integer n2 = false ->
  calculated (product w) (product_within_range w) nd n1 n2 = element_num (format_of n1 n2) nd (fmultiply n1 n2).
Proof.
  intros HF. unfold calculated, fmultiply. rewrite format_result by auto.
  assert (E : product w n1 n2 = option_map (fun f => NFloat f (SFmul (fprec f) (femax f) (to_format f n1) (to_format f n2))) (result_format n1 n2)).
  { destruct n1, n2; try discriminate; reflexivity. }
  rewrite E, format_result by auto. cbn [option_map].
  set (r := SFmul _ _ _ _). assert (E2 : product_within_range w n1 n2 (NFloat (format_of n1 n2) r) = Some (isfinite r)).
  { destruct n1, n2; try discriminate; reflexivity. }
  rewrite E2. cbv zeta. fold r. destruct (isfinite r); reflexivity.
Qed.

Lemma kept_not_finite R r : is_finite r = false -> kept (NFloat R r) = Some (NFloat R r).
Proof.
  intros F. unfold kept. replace (blank (NFloat R r)) with false; auto.
  destruct r; try discriminate; destruct R; reflexivity.
Qed.

Lemma sum_float w n1 n2 nd : argument n1 -> argument n2 -> integer n1 && integer n2 = false ->
  no_data_value (float_type (format_of n1 n2)) = Some nd ->
  exists f, calculated (sum w) sum_within_range nd n1 n2 = Some f /\
    vty_of f = float_type (format_of n1 n2) /\ argument f /\ sum_of n1 n2 (kept f).
Proof.
  intros A1 A2 HF ND. rewrite sum_float_element by auto.
  destruct (no_data_type _ _ ND) as [NT NA]. assert (NK := kept_no_data _ _ ND).
  assert (SA := sum_float_argument n1 n2 A1 A2 HF). cbv zeta in SA.
  assert (SO : forall out, (if finite n1 && finite n2 then float_result Z.add 1 n1 n2 out
      else if integer n1 || integer n2 then exists r, out = Some (NFloat (format_of n1 n2) r) /\ is_finite r = false
      else out = None) -> sum_of n1 n2 out) by (intros out; destruct n1, n2; try discriminate; auto).
  assert (WR : forall r, fadd n1 n2 = Written r -> r = SFadd (fprec (format_of n1 n2)) (femax (format_of n1 n2)) (to_format (format_of n1 n2) n1) (to_format (format_of n1 n2) n2)).
  { intros r. unfold fadd. rewrite format_result by auto. cbv zeta. unfold checked. destruct (fadd_within_range _ _ _) as [[]|]; congruence. }
  destruct (finite n1 && finite n2) eqn:F.
  - apply andb_prop in F. destruct F as [F1 F2]. destruct (C62_add n1 n2 A1 A2 F1 F2 HF) as (x & y & C1 & C2 & HR & _).
    destruct (fadd n1 n2) as [r| | |] eqn:E; cbn [element_num]; try contradiction.
    + exists (NFloat (format_of n1 n2) r). split; [reflexivity|]. split; [apply vty_float|]. split; [cbn [argument]; rewrite (WR r eq_refl); auto|].
      apply SO. exists x, y, (Written r). auto.
    + exists nd. split; [reflexivity|]. split; auto. split; auto. apply SO. exists x, y, Marked. rewrite NK. auto.
  - destruct (C62_not_finite true n1 n2 A1 A2 HF F) as [_ H]. destruct (integer n1 || integer n2) eqn:I.
    + destruct H as [(r & E & NF) _]. rewrite E. cbn [element_num]. exists (NFloat (format_of n1 n2) r).
      split; [reflexivity|]. split; [apply vty_float|]. split; [cbn [argument]; rewrite (WR r E); auto|].
      apply SO. exists r. rewrite kept_not_finite by auto. auto.
    + destruct H as [-> _]. cbn [element_num]. exists nd. do 3 (split; [auto|]). apply SO. auto.
Qed.

Lemma product_float w n1 n2 nd : argument n1 -> argument n2 -> integer n1 && integer n2 = false ->
  no_data_value (float_type (format_of n1 n2)) = Some nd ->
  exists f, calculated (product w) (product_within_range w) nd n1 n2 = Some f /\
    vty_of f = float_type (format_of n1 n2) /\ argument f /\ product_of n1 n2 (kept f).
Proof.
  intros A1 A2 HF ND. rewrite product_float_element by auto.
  destruct (no_data_type _ _ ND) as [NT NA]. assert (NK := kept_no_data _ _ ND).
  assert (SA := product_float_argument n1 n2 A1 A2 HF). cbv zeta in SA.
  assert (SO : forall out, (if finite n1 && finite n2 then float_result Z.mul one n1 n2 out else out = None) -> product_of n1 n2 out)
    by (intros out; destruct n1, n2; try discriminate; auto).
  assert (WR : forall r, fmultiply n1 n2 = Written r -> r = SFmul (fprec (format_of n1 n2)) (femax (format_of n1 n2)) (to_format (format_of n1 n2) n1) (to_format (format_of n1 n2) n2)).
  { intros r. unfold fmultiply. rewrite format_result by auto. cbv zeta. unfold checked. destruct (isfinite _); congruence. }
  destruct (finite n1 && finite n2) eqn:F.
  - apply andb_prop in F. destruct F as [F1 F2]. destruct (C62_multiply n1 n2 A1 A2 F1 F2 HF) as (x & y & C1 & C2 & HR).
    destruct (fmultiply n1 n2) as [r| | |] eqn:E; cbn [element_num]; try contradiction.
    + exists (NFloat (format_of n1 n2) r). split; [reflexivity|]. split; [apply vty_float|]. split; [cbn [argument]; rewrite (WR r eq_refl); auto|].
      apply SO. exists x, y, (Written r). auto.
    + exists nd. split; [reflexivity|]. split; auto. split; auto. apply SO. exists x, y, Marked. rewrite NK. auto.
  - destruct (C62_not_finite true n1 n2 A1 A2 HF F) as [-> _].
    cbn [element_num]. exists nd. do 3 (split; [auto|]). apply SO. auto.
Qed.

(** ** Both *)
Lemma sum_cell w n1 n2 nd : argument n1 -> argument n2 -> raster_type (vty_of n1) -> raster_type (vty_of n2) ->
  no_data_value (result_of (vty_of n1) (vty_of n2)) = Some nd -> is_defined w Z.add (Some n1) (Some n2) ->
  exists f, calculated (sum w) sum_within_range nd n1 n2 = Some f /\
    vty_of f = result_of (vty_of n1) (vty_of n2) /\ argument f /\ sum_of n1 n2 (kept f).
Proof.
  intros A1 A2 R1 R2 ND D. destruct (integer n1 && integer n2) eqn:I.
  - destruct n1 as [t1 v1|], n2 as [t2 v2|]; try discriminate. destruct (integer_result t1 t2 R1 R2) as [_ RO].
    cbn [vty_of] in *. rewrite RO in *. cbn [sum_of]. apply sum_int; auto.
  - rewrite format_result_of in * by auto. apply sum_float; auto.
Qed.
Lemma product_cell w n1 n2 nd : argument n1 -> argument n2 -> raster_type (vty_of n1) -> raster_type (vty_of n2) ->
  no_data_value (result_of (vty_of n1) (vty_of n2)) = Some nd -> is_defined w Z.mul (Some n1) (Some n2) ->
  exists f, calculated (product w) (product_within_range w) nd n1 n2 = Some f /\
    vty_of f = result_of (vty_of n1) (vty_of n2) /\ argument f /\ product_of n1 n2 (kept f).
Proof.
  intros A1 A2 R1 R2 ND D. destruct (integer n1 && integer n2) eqn:I.
  - destruct n1 as [t1 v1|], n2 as [t2 v2|]; try discriminate. destruct (integer_result t1 t2 R1 R2) as [_ RO].
    cbn [vty_of] in *. rewrite RO in *. cbn [product_of]. apply product_int; auto.
  - rewrite format_result_of in * by auto. apply product_float; auto.
Qed.
(** ** Conversion *)
Lemma binary_round_low p em s m e : 1 < p -> p < em -> e < emin p em ->
  rounded p em s (Zpos m) (2 ^ (emin p em - e)) (binary_round p em s m e).
Proof.
  intros P M He. unfold binary_round.
  set (F := fexp p em (Z.pos (digits2_pos m) + e)).
  assert (E1 : F = Z.max (Z.pos (digits2_pos m) + e - p) (emin p em)) by reflexivity.
  assert (S : shl_align m e F = (m, e)).
  { unfold shl_align. destruct (F - e) eqn:Q; auto. lia. }
  rewrite S. rewrite <- (loc_of_1 (Zpos m)). rewrite <- (Z.div_1_r (Zpos m)) at 2.
  apply rounded_aux; auto; try lia; try (apply Z.pow_pos_nonneg; lia).
  - rewrite Z.div_1_r. change (Zdigits2 (Z.pos m)) with (Z.pos (digits2_pos m)). fold F. lia.
  - rewrite (Z.max_l 0 (e - emin p em)), (Z.max_r 0 (emin p em - e)) by lia. lia.
Qed.

Transparent one.
Lemma one_eq : one = 2 ^ 1074.
Proof. reflexivity. Qed.
Opaque one.

Lemma finite_value f s m e : is_float (fprec f) (femax f) (S754_finite s m e) ->
  -1074 <= e /\ fvalue f (S754_finite s m e) = (if s then -1 else 1) * (Zpos m * 2 ^ (e + 1074)).
Proof.
  intros F. assert (X := finite_exponent (fprec f) (femax f) _ _ _ F). unfold fvalue. cbn [units].
  destruct f; cbn [fprec femax step] in *; [change (emin 24 128) with (-149) in *|change (emin 53 1024) with (-1074) in *].
  - split; [lia|]. replace (e + 1074) with (e - -149 + 925) by lia. rewrite Z.pow_add_r by lia. ring.
  - split; [lia|]. replace (e + 1074) with (e - -1074) by lia. ring.
Qed.

Lemma narrowed R f x : is_float (fprec f) (femax f) x -> is_finite x = true ->
  is_rounding (fprec R) (femax R) (fvalue f x) (1 * step R) (to_format R (NFloat f x)).
Proof.
  intros F N. destruct (fmt_eqb f R) eqn:E.
  - assert (f = R) as -> by (destruct f, R; auto; discriminate). cbn [to_format]. rewrite E. unfold fvalue.
    apply rounding_scale; auto using step_pos, fprec_gt, fprec_lt. apply exact_rounding; auto using fprec_gt, fprec_lt. split; auto.
  - cbn [to_format]. rewrite E. destruct x as [s|s| |s m e]; try discriminate N.
    + replace (fvalue f (S754_zero s)) with (units (fprec R) (femax R) (S754_zero s) * step R) by reflexivity.
      apply rounding_scale; auto using step_pos, fprec_gt, fprec_lt. apply exact_rounding; auto using fprec_gt, fprec_lt. split; reflexivity.
    + destruct (finite_value f s m e F) as [LE ->].
      assert (P := fprec_gt R). assert (M := fprec_lt R). assert (S := step_pos R).
      assert (ST : step R = 2 ^ (emin (fprec R) (femax R) + 1074)) by (destruct R; reflexivity).
      assert (EB : -1074 <= emin (fprec R) (femax R) <= 0) by (destruct R; split; vm_compute; discriminate).
      destruct (Z.le_gt_cases (emin (fprec R) (femax R)) e) as [L|L].
      * replace ((if s then -1 else 1) * (Zpos m * 2 ^ (e + 1074))) with
          (((if s then -1 else 1) * (Zpos m * 2 ^ (e - emin (fprec R) (femax R)))) * step R).
        { apply rounding_scale; auto. apply rounded_signed; auto; [|apply binary_round_spec; auto].
          assert (0 < 2 ^ (e - emin (fprec R) (femax R))) by (apply Z.pow_pos_nonneg; lia). lia. }
        rewrite ST. replace (e + 1074) with (e - emin (fprec R) (femax R) + (emin (fprec R) (femax R) + 1074)) by lia. rewrite (Z.pow_add_r 2 (e - _)) by lia. ring.
      * replace ((if s then -1 else 1) * (Zpos m * 2 ^ (e + 1074))) with (((if s then -1 else 1) * Zpos m) * 2 ^ (e + 1074)) by ring.
        replace (1 * step R) with (2 ^ (emin (fprec R) (femax R) - e) * 2 ^ (e + 1074)).
        2:{ rewrite <- Z.pow_add_r by lia. rewrite ST, Z.mul_1_l. f_equal. lia. }
        apply rounding_scale; auto; [apply Z.pow_pos_nonneg; lia|]. apply rounded_signed; auto; [lia|]. apply binary_round_low; auto.
Qed.

Lemma truncated_quot f x : is_float (fprec f) (femax f) x ->
  truncated x = if is_finite x then Some (Z.quot (fvalue f x) one) else None.
Proof.
  intros F. destruct x as [s|s| |s m e]; try reflexivity. destruct (finite_value f s m e F) as [LE ->]. cbn [truncated is_finite]. f_equal.
  assert (Q : Z.quot (Zpos m * 2 ^ (e + 1074)) one = if 0 <=? e then Zpos m * 2 ^ e else Zpos m / 2 ^ (- e)).
  { assert (P1 : 0 < one) by apply one_pos. assert (P2 : 0 < 2 ^ (e + 1074)) by (apply Z.pow_pos_nonneg; lia).
    rewrite Z.quot_div_nonneg by lia. destruct (Z.leb_spec 0 e) as [L|L].
    - rewrite Z.pow_add_r, Z.mul_assoc, <- one_eq by lia. rewrite Z.div_mul; lia.
    - assert (P3 : 0 < 2 ^ (- e)) by (apply Z.pow_pos_nonneg; lia).
      replace one with (2 ^ (- e) * 2 ^ (e + 1074)) by (rewrite <- Z.pow_add_r by lia; rewrite one_eq; f_equal; lia).
      rewrite Z.div_mul_cancel_r; lia. }
  destruct s.
  - replace (-1 * (Z.pos m * 2 ^ (e + 1074))) with (- (Z.pos m * 2 ^ (e + 1074))) by ring.
    rewrite Z.quot_opp_l by (pose proof one_pos; lia). rewrite Q. reflexivity.
  - rewrite Z.mul_1_l, Q. reflexivity.
Qed.

Lemma conv_shifted t z : exists k, z = conv t z + k * modulus t.
Proof.
  exists ((z - imin t) / modulus t). unfold conv.
  pose proof (Z.div_mod (z - imin t) (modulus t)) as D. pose proof (modulus_pos t). lia.
Qed.

Lemma static_cast_none t n : argument n -> inconvertible t n -> static_cast t n = None.
Proof.
  intros A H. destruct t as [|t| |], n as [t' z|f x]; try contradiction. cbn [inconvertible] in H. cbn [static_cast argument] in *.
  rewrite (truncated_quot f) by auto. cbn [value] in H. unfold in_range in H. destruct H as [H|H].
  - rewrite H. reflexivity.
  - destruct (is_finite x); [rewrite H|]; reflexivity.
Qed.
Lemma float_converts f f' x : is_float (fprec f') (femax f') x ->
  converts (float_type f) (NFloat f' x) (NFloat f (to_format f (NFloat f' x))).
Proof.
  intros A. split; [apply vty_float|]. destruct (is_finite x) eqn:F.
  - assert (N := narrowed f f' x A F). split; [cbn [argument]; eapply rounding_float; eauto|].
    cbn [value]. assert (O := rounding_outcome _ _ _ _ N). destruct N as [_ [[T E]|[T C]]].
    + right. rewrite E in *. cbn [isfinite] in O. auto.
    + left. destruct C as [[_ C] _]. rewrite isfinite_eq, C in O. auto.
  - rewrite to_format_not_finite by auto. split; [cbn [argument]; destruct x; try discriminate; reflexivity|]. reflexivity.
Qed.
Lemma int_converts f t z : fits_in t z -> converts (float_type f) (NInt t z) (NFloat f (to_format f (NInt t z))).
Proof.
  intros A. split; [apply vty_float|]. destruct (to_format_converted f (NInt t z) A eq_refl ltac:(discriminate)) as [[N1 N2] [C _]].
  split; auto.
Qed.
Lemma static_cast_defined t n : t <> VBool -> argument n -> ~ inconvertible t n ->
  exists m, static_cast t n = Some m /\ converts t n m.
Proof.
  intros RT A NI. destruct t as [|t| |]; [congruence| | |].
  - destruct n as [t' z|f x]; cbn [static_cast].
    + eexists. split; [reflexivity|]. split; [reflexivity|]. split; [apply conv_fits|]. apply conv_shifted.
    + cbn [argument] in A. rewrite (truncated_quot f) by auto. cbn [inconvertible value] in NI.
      destruct (is_finite x) eqn:F; [|exfalso; apply NI; auto]. change ((imin t <=? fvalue f x ÷ one) && (fvalue f x ÷ one <=? imax t)) with
        (in_range t (fvalue f x ÷ one)).
      destruct (in_range t (fvalue f x ÷ one)) eqn:I; [|exfalso; apply NI; auto]. eexists. split; [reflexivity|].
      split; [reflexivity|]. split; [apply in_range_fits; auto|]. cbv beta iota. auto.
  - destruct n as [t' z|f x]; cbn [static_cast]; eexists; (split; [reflexivity|]); [apply (int_converts Single)|apply (float_converts Single)]; auto.
  - destruct n as [t' z|f x]; cbn [static_cast]; eexists; (split; [reflexivity|]); [apply (int_converts Double)|apply (float_converts Double)]; auto.
Qed.
Lemma static_cast_some t n : raster_type t -> argument n -> ~ inconvertible t n ->
  exists m, static_cast t n = Some m /\ converts t n m.
Proof. intros RT. apply static_cast_defined. intros ->. apply raster_type_supported in RT. discriminate. Qed.
Lemma converts_type t n m : converts t n m -> vty_of m = t /\ argument m.
Proof. intros (A & B & _). auto. Qed.

(** ** In place *)
Lemma wraps_conv t z : wraps_to t z (conv t z).
Proof. split; [apply in_range_fits, conv_fits|]. apply conv_shifted. Qed.
Lemma op_in_wraps w op t v1 v2 r : op_in w op t v1 v2 = Some r -> fits_in t v1 -> fits_in t v2 -> wraps_to t (op v1 v2) r.
Proof. intros H F1 F2. apply op_in_conv in H. rewrite (conv_id t v1), (conv_id t v2) in H by auto. subst r. apply wraps_conv. Qed.
Lemma result_same t : result_int t t = t.
Proof. destruct t; reflexivity. Qed.
Lemma add_again t r v : fits_in t r -> fits_in t v -> add_within_range t t r v r = true.
Proof.
  intros F1 F2. unfold add_within_range. rewrite result_same.
  assert (L : tv_lt (t, r) (t, r) = false).
  { unfold tv_lt. cbn [fst snd]. apply Z.ltb_irrefl. }
  assert (G : tv_gt (t, r) (t, r) = false).
  { unfold tv_gt. first [apply L|cbn [fst snd]; rewrite Z.gtb_ltb; apply Z.ltb_irrefl]. }
  destruct (signed t); [destruct (tv_gt (t, v) zero)|]; rewrite ?L, ?G; reflexivity.
Qed.
Lemma integer_same t : raster_type (VInt t) -> integer_of t t = t.
Proof. intros H. destruct (integer_result t t H H) as [A _]. rewrite <- A. apply result_same. Qed.

Lemma same_format n1 n2 f x : vty_of n2 = vty_of n1 -> n1 = NFloat f x -> exists y, n2 = NFloat f y.
Proof. intros Ty ->. destruct f, n2 as [|[] y]; try discriminate Ty; eauto. Qed.
Lemma same_integer n1 n2 t z : vty_of n2 = vty_of n1 -> n1 = NInt t z -> exists y, n2 = NInt t y.
Proof. intros Ty ->. destruct n2 as [t' y|[] y]; try discriminate Ty. inversion Ty. eauto. Qed.

Section InPlace.
Variables (w same : bool) (nd n1 n2 : num).
Hypothesis A1 : argument n1.
Hypothesis A2 : argument n2.
Hypothesis RT : raster_type (vty_of n1).
Hypothesis Ty : vty_of n2 = vty_of n1.
Hypothesis ND : no_data_value (vty_of n1) = Some nd.
Let again2 := fun r : num => if same then r else n2.

Definition recalculated (alg : num -> num -> option num) (rng : num -> num -> num -> option bool) : option num :=
  match alg n1 n2 with
  | None => None
  | Some r => match rng r (again2 r) r with None => None | Some b => Some (if b then r else nd) end
  end.

Lemma becomes_recalculated alg rng : becomes alg rng true true nd (fun r => r) again2 n1 n2 =
  match kept n1, kept n2 with Some _, Some _ => recalculated alg rng | _, _ => Some nd end.
Proof.
  unfold becomes, kept. rewrite !is_no_data_blank by auto. cbn [andb].
  destruct (blank n1), (blank n2); reflexivity.
Qed.

Lemma sum_again : is_defined w Z.add (Some n1) (Some n2) ->
  exists f, recalculated (sum w) sum_within_range = Some f /\ vty_of f = vty_of n1 /\ argument f /\ sum_in_place n1 n2 (kept f).
Proof.
  intros D. unfold recalculated, again2. clear again2. destruct n1 as [t v1|f x].
  - destruct (same_integer _ _ t v1 Ty eq_refl) as [v2 E2]. rewrite E2 in *. cbn [vty_of] in *.
    cbn [sum is_defined] in *. rewrite integer_same in D by auto. unfold add. rewrite result_same.
    destruct (op_in_total w Z.add t v1 v2 RT) as (r & Hr); auto. { unfold fits_in. cbn. lia. }
    rewrite Hr. cbn [option_map]. assert (F := op_in_fits _ _ _ _ _ _ Hr).
    assert (W : sum_within_range (NInt t r) (if same then NInt t r else NInt t v2) (NInt t r) = Some true).
    { destruct same; cbn [sum_within_range]; rewrite add_again; auto. }
    rewrite W. eexists. split; [reflexivity|]. split; [reflexivity|]. split; [exact F|]. cbn [sum_in_place].
    exists r. split; auto. eapply op_in_wraps; eauto.
  - destruct (same_format _ _ f x Ty eq_refl) as [y E2]. rewrite E2 in *.
    destruct (sum_float w (NFloat f x) (NFloat f y) nd A1 A2 eq_refl) as (g & C & T & A & S).
    { assert (float_type (format_of (NFloat f x) (NFloat f y)) = vty_of (NFloat f x)) as -> by (destruct f; reflexivity). auto. }
    exists g. split; [|split; [|split]]; auto; [|destruct f; exact T].
    rewrite <- C. unfold calculated.
    destruct (sum w (NFloat f x) (NFloat f y)) as [r|] eqn:R; auto.
    assert (exists z, r = NFloat f z) as [z ->].
    { destruct f; cbn in R; inversion R; eauto. }
    destruct same; reflexivity.
Qed.

Lemma product_again : is_defined w Z.mul (Some n1) (Some n2) ->
  exists f, recalculated (product w) (product_within_range w) = Some f /\ vty_of f = vty_of n1 /\ argument f /\ product_in_place same n1 n2 (kept f).
Proof.
  intros D. unfold recalculated, again2. clear again2. destruct n1 as [t v1|f x].
  - destruct (same_integer _ _ t v1 Ty eq_refl) as [v2 E2]. rewrite E2 in *. cbn [vty_of] in *.
    cbn [product is_defined] in *. rewrite integer_same in D by auto. unfold multiply. rewrite result_same.
    destruct (op_in_total w Z.mul t v1 v2 RT) as (r & Hr); auto. { unfold fits_in. cbn. nia. }
    rewrite Hr. cbn [option_map]. assert (F := op_in_fits _ _ _ _ _ _ Hr).
    assert (W : product_within_range w (NInt t r) (if same then NInt t r else NInt t v2) (NInt t r) =
      Some (Z.abs (r * (if same then r else v2)) <=? imax t)).
    { destruct same; cbn [product_within_range]; rewrite multiply_range_spec; auto; rewrite result_same; reflexivity. }
    rewrite W. eexists. split; [reflexivity|].
    destruct (no_data_type _ _ ND) as [NT NA]. assert (NK := kept_no_data _ _ ND).
    split; [destruct (_ <=? _); auto|]. split; [destruct (_ <=? _); auto|]. cbn [product_in_place].
    exists r. split; [eapply op_in_wraps; eauto|]. destruct (_ <=? _); auto.
  - destruct (same_format _ _ f x Ty eq_refl) as [y E2]. rewrite E2 in *.
    destruct (product_float w (NFloat f x) (NFloat f y) nd A1 A2 eq_refl) as (g & C & T & A & S).
    { assert (float_type (format_of (NFloat f x) (NFloat f y)) = vty_of (NFloat f x)) as -> by (destruct f; reflexivity). auto. }
    exists g. split; [|split; [|split]]; auto; [|destruct f; exact T].
    rewrite <- C. unfold calculated.
    destruct (product w (NFloat f x) (NFloat f y)) as [r|] eqn:R; auto.
    assert (exists z, r = NFloat f z) as [z ->].
    { destruct f; cbn in R; inversion R; eauto. }
    destruct same; reflexivity.
Qed.
End InPlace.

(** ** Comparisons *)
Lemma kept_bool b : kept (of_bool b) = truth_value b.
Proof. destruct b; reflexivity. Qed.
Lemma less_counts t1 t2 v1 v2 : raster_type (VInt t1) -> raster_type (VInt t2) -> fits_in t1 v1 -> fits_in t2 v2 ->
  less t1 t2 v1 v2 = (counts_as t1 t2 v1 <? counts_as t1 t2 v2).
Proof.
  intros R1 R2 F1 F2. apply raster_type_supported in R1, R2.
  assert (G : forall t v, (t = t1 \/ t = t2) -> fits_in t v -> conv (common t1 t2) v = counts_as t1 t2 v).
  { intros t v Ht F. unfold counts_as. destruct (unsigned_meeting t1 t2 && (v <? 0)) eqn:E.
    - apply andb_prop in E. destruct E as [E1 E2]. apply Z.ltb_lt in E2.
      destruct Ht as [-> | ->]; unfold fits_in in F; destruct t1, t2; try discriminate; cbn [imin imax common promote width signed Z.ltb Z.compare Pos.compare Pos.compare_cont Bool.eqb Z.eqb Pos.eqb orb] in *;
        try lia; rewrite conv_under by (cbn; lia); reflexivity.
    - apply conv_id. apply andb_false_iff in E. rewrite Z.ltb_ge in E. unfold fits_in in *.
      destruct Ht as [-> | ->]; destruct t1, t2; try discriminate; cbn in *; try lia; destruct E; try discriminate; lia. }
  unfold less, tv_lt. cbn [fst snd]. rewrite (G t1 v1), (G t2 v2); auto.
Qed.
Lemma format_comm n1 n2 : format_of n1 n2 = format_of n2 n1.
Proof. unfold format_of. rewrite orb_comm. reflexivity. Qed.
Lemma greater_less t1 t2 v1 v2 : greater t1 t2 v1 v2 = less t2 t1 v2 v1.
Proof.
  reflexivity.
Qed.

Lemma lesser_cell nd n1 n2 : argument n1 -> argument n2 -> raster_type (vty_of n1) -> raster_type (vty_of n2) ->
  exists b, calculated lesser any_range nd n1 n2 = Some (of_bool b) /\ is_less n1 n2 (truth_value b).
Proof.
  intros A1 A2 R1 R2. unfold calculated. destruct (integer n1 && integer n2) eqn:I.
  - destruct n1 as [t1 v1|], n2 as [t2 v2|]; try discriminate. cbn [lesser any_range is_less]. eexists. split; [reflexivity|].
    rewrite less_counts; auto.
  - assert (E : lesser n1 n2 = option_map of_bool (fless n1 n2)) by (destruct n1, n2; try discriminate; reflexivity).
    assert (S : forall out, (if nan n1 || nan n2 then out = truth_value false else
        exists x y b, compared (format_of n1 n2) n1 x /\ compared (format_of n1 n2) n2 y /\ (b = true <-> below (format_of n1 n2) x y) /\ out = truth_value b) ->
        is_less n1 n2 out) by (intros out; destruct n1, n2; try discriminate; auto).
    rewrite E. destruct (nan n1 || nan n2) eqn:N.
    + destruct (C63_nan n1 n2 I N) as [-> _]. exists false. split; [reflexivity|]. apply S. auto.
    + apply orb_false_iff in N. destruct (C63_compare n1 n2 A1 A2 I) as (x & y & C1 & C2 & l & le & g & ge & L & _ & _ & _ & B & _); try apply N.
      rewrite L. exists l. split; [reflexivity|]. apply S. exists x, y, l. auto.
Qed.
Lemma larger_cell nd n1 n2 : argument n1 -> argument n2 -> raster_type (vty_of n1) -> raster_type (vty_of n2) ->
  exists b, calculated larger any_range nd n1 n2 = Some (of_bool b) /\ is_less n2 n1 (truth_value b).
Proof.
  intros A1 A2 R1 R2. destruct (lesser_cell nd n2 n1 A2 A1 R2 R1) as (b & C & L). exists b. split; auto. rewrite <- C.
  unfold calculated. replace (larger n1 n2) with (lesser n2 n1); [destruct (lesser n2 n1); reflexivity|].
  destruct n1 as [t1 v1|[] x1], n2 as [t2 v2|[] x2]; reflexivity.
Qed.

(** ** Choices *)
Lemma truth_zero n : argument n -> truth n = negb (is_zero n).
Proof.
  destruct n as [t z|f x]; intros A; [reflexivity|]. cbn [truth is_zero]. f_equal.
  destruct x as [s|s| |s m e]; try reflexivity.
  - destruct s; reflexivity.
  - cbn [SFeqb]. unfold SFeqb. cbn [SFcompare is_finite andb].
    destruct (finite_value f s m e A) as [LE ->]. assert (0 < 2 ^ (e + 1074)) by (apply Z.pow_pos_nonneg; lia).
    symmetry. destruct s; apply Z.eqb_neq; nia.
Qed.
Lemma choice_read nd t p1 p2 c v1 v2 : no_data_value t = Some nd -> argument c -> argument v1 -> argument v2 ->
  kept (becomes_choice nd p1 p2 c v1 v2) = chosen (kept c) (kept v1) (kept v2).
Proof.
  intros ND Ac A1 A2. assert (NK := kept_no_data _ _ ND). unfold becomes_choice, chosen, kept at 2. rewrite is_no_data_blank by auto.
  destruct (blank c); auto. rewrite truth_zero by auto.
  assert (K : forall p v, argument v -> kept (if p && is_no_data v then nd else v) = kept v).
  { intros p v A. rewrite is_no_data_blank by auto. unfold kept in *. destruct p, (blank v) eqn:B; cbn [andb]; rewrite ?B; auto. }
  destruct (is_zero c); cbn [negb]; auto.
Qed.
