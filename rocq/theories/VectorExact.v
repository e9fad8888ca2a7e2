(** Lemmas about slope, laplacian and lax in exact arithmetic. *)
From Coq Require Import ZArith List Bool Lia QArith Qcanon.
From Verif Require Import LangModel LangProofs ConcModel IndexModel IndexSpec IndexProofs LoopModel LoopSpec
  LoopProofs PolicyModel LocalModel LocalSpec LocalProofs CoreSpec CopySpec ConvolveModel ConvolveSpec
  ConvolveProofs ConvolveProps VectorModel VectorSpec VectorProofs VectorExactSpec.
Import ListNotations.
Open Scope Z_scope.

Local Notation z2q z := (Q2Qc (inject_Z z)).
Local Notation q0 := (Q2Qc 0).

Lemma qc_ring : ring_theory q0 (Q2Qc 1) Qcplus Qcmult Qcminus Qcopp eq.
Proof. exact Qcrt. Qed.

Lemma zero_bool x : Qc_eq_bool x q0 = true <-> x = q0.
Proof.
  unfold Qc_eq_bool. destruct (Qc_eq_dec x q0); split; intros; auto; congruence.
Qed.

Lemma z2q_inj a b : z2q a = z2q b -> a = b.
Proof.
  intros H. assert (E : (this (z2q a) == this (z2q b))%Q) by (rewrite H; reflexivity).
  unfold Q2Qc, this in E. rewrite !Qred_correct in E. unfold inject_Z, Qeq in E. cbn in E. lia.
Qed.

Lemma z2q_plus a b : z2q (a + b) = Qcplus (z2q a) (z2q b).
Proof.
  apply Qc_is_canon. unfold Qcplus, Q2Qc, this. rewrite !Qred_correct. rewrite inject_Z_plus. reflexivity.
Qed.
Lemma z2q_opp a : z2q (- a) = Qcopp (z2q a).
Proof. apply Qc_is_canon. unfold Qcopp, Q2Qc, this. rewrite !Qred_correct. reflexivity. Qed.

Definition sum {A} (g : A -> Qc) (l : list A) : Qc := fold_right (fun a s => Qcplus (g a) s) q0 l.

Lemma sum_app {A} (g : A -> Qc) l1 l2 : sum g (l1 ++ l2) = Qcplus (sum g l1) (sum g l2).
Proof. unfold sum. induction l1; cbn [fold_right app]; [ring|]. rewrite IHl1. ring. Qed.

Lemma sum_flat_map {A B} (g : B -> Qc) (h : A -> list B) l : sum g (flat_map h l) = sum (fun a => sum g (h a)) l.
Proof. induction l; auto. cbn [flat_map]. rewrite sum_app, IHl. reflexivity. Qed.

Lemma sum_plus {A} (g h : A -> Qc) l : Qcplus (sum g l) (sum h l) = sum (fun a => Qcplus (g a) (h a)) l.
Proof. unfold sum in *. induction l; cbn [fold_right]; [ring|]. rewrite <- IHl. ring. Qed.

Lemma sum_ext {A} (g h : A -> Qc) l : (forall a, In a l -> g a = h a) -> sum g l = sum h l.
Proof. unfold sum. induction l; cbn [fold_right In]; intros H; auto. rewrite H, IHl; auto. Qed.

Lemma fold_sum {A} (g : A -> Qc) l : forall s, fold_left (fun s x => Qcplus s (g x)) l s = Qcplus s (sum g l).
Proof. unfold sum. induction l; cbn [fold_left fold_right]; intros; [ring|]. rewrite IHl. ring. Qed.

Section Sums.
Variable root : Qc -> Qc.
Notation fl := (exact root).
Notation ar := (exact_sums false).
Variables (ip : inpol Qc) (value : buf) (rows cols : Z) (m : mem Qc).

Lemma in_nine_kernel (k : kernel Qc) : radius k = 1 ->
  kernel_cells k = map (fun d => (fst d + 1, snd d + 1)) nine_cells.
Proof. intros E. unfold kernel_cells, width. rewrite E. reflexivity. Qed.

Lemma filled_exists f d : in_image rows cols f = true -> value_at ip value cols m f <> None ->
  In d nine_cells -> filled ip value rows cols m (fst f + fst d, snd f + snd d) <> None.
Proof.
  intros Hf Hv Hd. unfold filled. destruct f as [i j]. cbn [fst snd] in *.
  assert (C : d = (0, 0) \/ (Z.abs (fst d) <= 1 /\ Z.abs (snd d) <= 1 /\ d <> (0, 0))).
  { cbn in Hd. repeat destruct Hd as [<- | Hd]; try tauto; cbn; right; repeat split; try lia; congruence. }
  destruct C as [-> | (C1 & C2 & C3)]; cbn [fst snd].
  - rewrite !Z.add_0_r, Hf. destruct (value_at ip value cols m (i, j)); congruence.
  - destruct (if in_image rows cols (i + fst d, j + snd d) then value_at ip value cols m (i + fst d, j + snd d) else None);
      [congruence|].
    apply C43_focal_average_exists. exists i, j. apply in_image_spec in Hf. cbn [fst snd] in Hf.
    repeat split; try lia; auto. intros [= E1 E2]. apply C3. destruct d as [d1 d2]; cbn in *. f_equal; lia.
Qed.

Lemma weighted_sum_exact w f : in_image rows cols f = true -> value_at ip value cols m f <> None ->
  length w = 9%nat -> (exists x, In x w /\ x <> 0) ->
  weighted_sum fl ip value rows cols m ar w f =
  Some (sum_of_nine (fun c => match filled ip value rows cols m c with Some v => v | None => q0 end) w f).
Proof.
  intros Hf Hv Hw Hx. unfold weighted_sum, convolved.
  assert (Hn : nd_at ip m (linear cols f) = false).
  { unfold value_at, arg_at in Hv. destruct (nd_at ip m (linear cols f)); congruence. }
  rewrite Hn. cbn [andb]. set (k := square fl w).
  set (l := contributions ar ip value rows cols k NoDataByFocalAverage OutOfImageByFocalAverage m f).
  set (z := fun c => match filled ip value rows cols m c with Some v => v | None => q0 end).
  assert (Ek : kernel_cells k = map (fun d => (fst d + 1, snd d + 1)) nine_cells) by (apply in_nine_kernel; reflexivity).
  assert (Eb : forall d, below k f (fst d + 1, snd d + 1) = (fst f + fst d, snd f + snd d)).
  { intros d. unfold below. cbn [radius k square fst snd]. f_equal; lia. }
  (* what one cell contributes *)
  assert (Out : forall d, In d nine_cells -> in_image rows cols (fst f + fst d, snd f + snd d) = false ->
    listed (contribution_outside ar ip value rows cols k OutOfImageByFocalAverage m f (fst d + 1, snd d + 1)) =
    [(z (fst f + fst d, snd f + snd d), weight_at k (fst d + 1, snd d + 1))]).
  { intros d Hd Ho. unfold contribution_outside. rewrite Eb. pose proof (filled_exists f d Hf Hv Hd) as E.
    unfold z, filled in *. rewrite Ho in *. destruct (focal_average _ _ _ _ _ _ _); [reflexivity|congruence]. }
  assert (In' : forall d, In d nine_cells -> in_image rows cols (fst f + fst d, snd f + snd d) = true ->
    listed (contribution_inside ar ip value rows cols k NoDataByFocalAverage m f (fst d + 1, snd d + 1)) =
      [(z (fst f + fst d, snd f + snd d), weight_at k (fst d + 1, snd d + 1))] \/
    (listed (contribution_inside ar ip value rows cols k NoDataByFocalAverage m f (fst d + 1, snd d + 1)) = [] /\
     weight_at k (fst d + 1, snd d + 1) = q0)).
  { intros d Hd Hi. unfold contribution_inside. rewrite Eb. pose proof (filled_exists f d Hf Hv Hd) as E.
    unfold z, filled in *. rewrite Hi in *.
    destruct (value_at ip value cols m (fst f + fst d, snd f + snd d)).
    - cbn [nonzero exact_sums].
      destruct (Qc_eq_bool (weight_at k (fst d + 1, snd d + 1)) q0) eqn:Ez; cbn [negb]; [right|left; reflexivity].
      split; [reflexivity|]. apply zero_bool; auto.
    - left. unfold ignored. cbn [weigh_values k square negb andb]. rewrite andb_false_r. cbn [andb].
      destruct (focal_average _ _ _ _ _ _ _); [reflexivity|congruence]. }
  assert (Sl : sum (fun x => Qcmult (fst x) (snd x)) l = sum_of_nine z w f).
  { unfold l, contributions. rewrite sum_app, !sum_flat_map, sum_plus, Ek.
    transitivity (sum (fun d => Qcmult (z (fst f + fst d, snd f + snd d)) (weight_at k (fst d + 1, snd d + 1))) nine_cells).
    - assert (M : forall (g : Z * Z -> Qc) h l, sum g (map h l) = sum (fun d : Z * Z => g (h d)) l).
      { intros g h l0. unfold sum. induction l0; cbn [map fold_right]; auto. rewrite IHl0. reflexivity. }
      rewrite M. apply sum_ext. intros d Hd. rewrite Eb.
      destruct (in_image rows cols (fst f + fst d, snd f + snd d)) eqn:Ei.
      + destruct (In' d Hd Ei) as [-> | [-> ->]]; unfold sum; cbn [fold_right fst snd]; ring.
      + rewrite (Out d Hd Ei). unfold sum; cbn [fold_right fst snd]; ring.
    - do 9 (destruct w as [|? w]; [discriminate|]). destruct w; [|discriminate]. reflexivity. }
  assert (Nl : l <> []).
  { intros E. destruct Hx as (x & Hx & Nx). apply In_nth with (d := 0) in Hx as (p & Hp & Hpx). rewrite Hw in Hp.
    set (d := nth p nine_cells (0, 0)).
    assert (Hd : In d nine_cells) by (apply nth_In; exact Hp).
    assert (Wd : weight_at k (fst d + 1, snd d + 1) = z2q x).
    { subst x. unfold d. do 9 (destruct p as [|p]; [reflexivity|]). lia. }
    unfold l, contributions in E. apply app_eq_nil in E as [E1 E2]. rewrite Ek in E1, E2.
    assert (Z1 : forall (g : Z * Z -> list (Qc * Qc)) l0 a, flat_map g l0 = [] -> In a l0 -> g a = []).
    { intros g l0 a H Ha. induction l0; [destruct Ha|]. cbn in H. apply app_eq_nil in H as [H1 H2].
      destruct Ha as [-> | Ha]; auto. }
    assert (Hin : In (fst d + 1, snd d + 1) (map (fun d : Z * Z => (fst d + 1, snd d + 1)) nine_cells)).
    { apply in_map_iff. exists d. auto. }
    pose proof (Z1 _ _ _ E1 Hin) as F1. pose proof (Z1 _ _ _ E2 Hin) as F2. cbn beta in F1, F2. rewrite Eb in F1, F2.
    destruct (in_image rows cols (fst f + fst d, snd f + snd d)) eqn:Ei.
    - destruct (In' d Hd Ei) as [G | [G1 G2]]; [rewrite G in F2; discriminate|].
      rewrite Wd in G2. apply Nx. apply z2q_inj. exact G2.
    - rewrite (Out d Hd Ei) in F1. discriminate. }
  destruct l as [|p l']; [congruence|]. unfold total. cbn [weigh_values k square].
  cbn [in_range exact_sums normalize]. f_equal.
  cbn [add_scaled exact_sums zero_v].
  rewrite (fold_sum (fun x => Qcmult (fst x) (snd x))), Sl. ring.
Qed.
End Sums.

(** ** Flat rasters and planes *)
Lemma eight_nonzero : z2q 8 <> q0.
Proof. intros H. apply (z2q_inj 8 0) in H. lia. Qed.

Lemma z2q_nonzero z : z <> 0 -> z2q z <> q0.
Proof. intros H E. apply (z2q_inj z 0) in E. lia. Qed.

Lemma is_zero_false x : x <> q0 -> Qc_eq_bool x q0 = false.
Proof. intros H. destruct (Qc_eq_bool x q0) eqn:E; auto. apply zero_bool in E. congruence. Qed.

Lemma mul_nonzero x y : x <> q0 -> y <> q0 -> Qcmult x y <> q0.
Proof. intros Hx Hy E. destruct (Qcmult_integral _ _ E); auto. Qed.

Section Flat.
Variable root : Qc -> Qc.
Notation fl := (exact root).
Variables (ip : inpol Qc) (value : buf) (rows cols : Z) (m : mem Qc).

Lemma fold_constant v (l : list Qc) : Forall (fun x => x = v) l ->
  forall s, fold_left Qcplus l s = Qcplus s (Qcmult (z2q (Z.of_nat (length l))) v).
Proof.
  induction 1 as [|x l -> H IH]; intros s.
  - cbn [fold_left length]. change (z2q (Z.of_nat 0)) with q0. ring.
  - cbn [fold_left length]. rewrite IH. rewrite Nat2Z.inj_succ, <- Z.add_1_r, z2q_plus.
    change (z2q 1) with (Q2Qc 1). ring.
Qed.

Lemma filled_flat v c : raster_is ip value rows cols m (fun _ => v) ->
  filled ip value rows cols m c <> None -> filled ip value rows cols m c = Some v.
Proof.
  intros R H. unfold filled in *.
  destruct (if in_image rows cols c then value_at ip value cols m c else None) as [x|] eqn:E.
  - destruct (in_image rows cols c) eqn:Ei; [|discriminate]. f_equal. exact (R c x Ei E).
  - clear E. unfold focal_average in *.
    set (l := flat_map (fun d => listed (value_at ip value cols m d)) (neighbours rows cols c)) in *.
    assert (F : Forall (fun x => x = v) l).
    { apply Forall_forall. intros x Hx. unfold l in Hx. apply in_flat_map in Hx as (d & Hd & Hx).
      unfold neighbours in Hd. destruct c as [i j]. apply filter_In in Hd as [_ Hd]. apply andb_true_iff in Hd as [Hd _].
      destruct (value_at ip value cols m d) as [y|] eqn:Ey; [|destruct Hx]. destruct Hx as [<- | []].
      exact (R d y Hd Ey). }
    destruct l as [|x l'] eqn:El; [congruence|]. f_equal. rewrite <- El in *. cbn [average add zero_v exact_sums].
    rewrite (fold_constant v l F). rewrite Qcplus_0_l. unfold Qcdiv.
    assert (N : z2q (Z.of_nat (length l)) <> q0) by (apply z2q_nonzero; rewrite El; cbn [length]; lia).
    field. exact N.
Qed.

Lemma nine_flat v w f : sum_of_nine (fun _ => v) w f = Qcmult v (sum (fun dw => z2q (snd dw)) (combine nine_cells w)).
Proof.
  unfold sum_of_nine, sum. induction (combine nine_cells w); cbn [fold_right]; [ring|]. rewrite IHl. ring.
Qed.

Lemma nine_ext z z' w f : (forall d, In d nine_cells -> z (fst f + fst d, snd f + snd d) = z' (fst f + fst d, snd f + snd d)) ->
  sum_of_nine z w f = sum_of_nine z' w f.
Proof.
  intros H. unfold sum_of_nine.
  assert (K : forall dw, In dw (combine nine_cells w) -> In (fst dw) nine_cells).
  { intros [d x] Hd. apply in_combine_l in Hd. auto. }
  induction (combine nine_cells w) as [|dw l IH]; cbn [fold_right]; [reflexivity|].
  rewrite IH by (intros; apply K; cbn; auto). rewrite H by (apply K; cbn; auto). reflexivity.
Qed.

Lemma difference_exact w cs f : in_image rows cols f = true -> value_at ip value cols m f <> None ->
  length w = 9%nat -> (exists x, In x w /\ x <> 0) -> cs <> q0 ->
  let d := Qcdiv (sum_of_nine (fun c => match filled ip value rows cols m c with Some v => v | None => q0 end) w f)
             (Qcmult (z2q 8) cs) in
  squared_difference fl (exact_sums false) ip value rows cols m w cs f = Some (Qcmult d d).
Proof.
  intros Hf Hv Hw Hx Hc d. unfold squared_difference. rewrite weighted_sum_exact by auto. cbn [also].
  unfold divided. cbn [is_zero fmul lit exact]. rewrite is_zero_false by (apply mul_nonzero; [apply eight_nonzero|auto]).
  reflexivity.
Qed.

Lemma slope_exact width height f : in_image rows cols f = true -> value_at ip value cols m f <> None ->
  width <> q0 -> height <> q0 ->
  let z c := match filled ip value rows cols m c with Some v => v | None => q0 end in
  let dx := Qcdiv (sum_of_nine z horn_x f) (Qcmult (z2q 8) width) in
  let dy := Qcdiv (sum_of_nine z horn_y f) (Qcmult (z2q 8) height) in
  slope_at fl (exact_sums false) ip value rows cols m width height f =
  Some (root (Qcplus (Qcmult dx dx) (Qcmult dy dy))).
Proof.
  intros Hf Hv Hw Hh z dx dy. unfold slope_at.
  rewrite (difference_exact horn_x); [|exact Hf|exact Hv|reflexivity|exists 1; split; [cbn; auto|lia]|exact Hw]. cbn [also].
  rewrite (difference_exact horn_y); [|exact Hf|exact Hv|reflexivity|exists 1; split; [cbn; auto 10|lia]|exact Hh]. reflexivity.
Qed.

Lemma slope_flat v width height f : raster_is ip value rows cols m (fun _ => v) ->
  in_image rows cols f = true -> value_at ip value cols m f <> None -> width <> q0 -> height <> q0 ->
  slope_at fl (exact_sums false) ip value rows cols m width height f = Some (root q0).
Proof.
  intros R Hf Hv Hw Hh. rewrite slope_exact by auto. cbv zeta.
  assert (E : forall w, sum_of_nine (fun c => match filled ip value rows cols m c with Some v => v | None => q0 end) w f =
    sum_of_nine (fun _ => v) w f).
  { intros w. apply nine_ext. intros d Hd. rewrite (filled_flat v _ R); auto. apply filled_exists; auto. }
  rewrite !E, !nine_flat.
  replace (sum (fun dw => z2q (snd dw)) (combine nine_cells horn_x)) with q0 by (apply Qc_is_canon; vm_compute; reflexivity).
  replace (sum (fun dw => z2q (snd dw)) (combine nine_cells horn_y)) with q0 by (apply Qc_is_canon; vm_compute; reflexivity).
  f_equal. f_equal. unfold Qcdiv. ring.
Qed.

Lemma slope_plane a b e width height f :
  let z c := Qcplus (Qcplus (Qcmult a (Qcmult width (z2q (snd c)))) (Qcmult b (Qcmult height (z2q (fst c))))) e in
  (forall d, In d nine_cells -> in_image rows cols (fst f + fst d, snd f + snd d) = true /\
     value_at ip value cols m (fst f + fst d, snd f + snd d) = Some (z (fst f + fst d, snd f + snd d))) ->
  width <> q0 -> height <> q0 ->
  slope_at fl (exact_sums false) ip value rows cols m width height f =
  Some (root (Qcplus (Qcmult a a) (Qcmult b b))).
Proof.
  intros z Hz Hw Hh.
  destruct (Hz (0, 0)) as [Hf Hv]; [cbn; auto 10|]. cbn [fst snd] in Hf, Hv. rewrite !Z.add_0_r in Hf, Hv.
  rewrite <- surjective_pairing in Hf, Hv.
  rewrite slope_exact; auto; [|congruence]. cbv zeta.
  assert (E : forall w, sum_of_nine (fun c => match filled ip value rows cols m c with Some v => v | None => q0 end) w f =
    sum_of_nine z w f).
  { intros w. apply nine_ext. intros d Hd. destruct (Hz d Hd) as [H1 H2]. unfold filled. rewrite H1, H2. reflexivity. }
  rewrite !E. f_equal. f_equal.
  assert (Ex : sum_of_nine z horn_x f = Qcmult (Qcopp (z2q 8)) (Qcmult a width)).
  { unfold sum_of_nine, horn_x, nine_cells. cbn [combine fold_right fst snd].
    unfold z. cbn [fst snd]. rewrite !z2q_plus. change (z2q (-1)) with (Qcopp (Q2Qc 1)). change (z2q 0) with q0.
    change (z2q 1) with (Q2Qc 1). change (z2q (-2)) with (Qcopp (Qcplus (Q2Qc 1) (Q2Qc 1))).
    change (z2q 2) with (Qcplus (Q2Qc 1) (Q2Qc 1)).
    replace (z2q 8) with (z2q (1 + 1 + 1 + 1 + 1 + 1 + 1 + 1)) by reflexivity. rewrite !z2q_plus. change (z2q 1) with (Q2Qc 1).
    ring. }
  assert (Ey : sum_of_nine z horn_y f = Qcmult (z2q 8) (Qcmult b height)).
  { unfold sum_of_nine, horn_y, nine_cells. cbn [combine fold_right fst snd].
    unfold z. cbn [fst snd]. rewrite !z2q_plus. change (z2q (-1)) with (Qcopp (Q2Qc 1)). change (z2q 0) with q0.
    change (z2q 1) with (Q2Qc 1). change (z2q (-2)) with (Qcopp (Qcplus (Q2Qc 1) (Q2Qc 1))).
    change (z2q 2) with (Qcplus (Q2Qc 1) (Q2Qc 1)).
    replace (z2q 8) with (z2q (1 + 1 + 1 + 1 + 1 + 1 + 1 + 1)) by reflexivity. rewrite !z2q_plus. change (z2q 1) with (Q2Qc 1).
    ring. }
  rewrite Ex, Ey. field. repeat split; auto. apply eight_nonzero.
Qed.

(** Laplacian *)
Lemma laplacian_exact area f v : value_at ip value cols m f = Some v -> around fl ip value rows cols m f <> [] ->
  area <> q0 ->
  laplacian_at fl (exact_sums false) ip value rows cols m area f =
  Some (Qcdiv (sum (fun x => Qcmult (snd x) (Qcminus (fst x) v)) (around fl ip value rows cols m f)) area).
Proof.
  intros Hv Ha Hn. unfold laplacian_at, combined. rewrite Hv. cbn [also].
  unfold sum_around, weight_around, ones_around.
  destruct (around fl ip value rows cols m f) as [|p l] eqn:E; [congruence|]. rewrite <- E. clear E Ha p l.
  cbn [in_range exact_sums normalize add_scaled zero_v add_weight zero_w also].
  unfold checked, divided. cbn [finite exact is_zero fmul fsub fdiv also]. rewrite is_zero_false by auto.
  unfold checked. cbn [finite exact]. f_equal. f_equal.
  rewrite (fold_sum (fun x => Qcmult (fst x) (snd x))), (fold_sum (fun x => Qcmult (lit fl 1) (snd x))).
  generalize (around fl ip value rows cols m f). intros l. change (lit fl 1) with (Q2Qc 1).
  unfold sum. induction l as [|x l IH]; cbn [fold_right]; [ring|]. rewrite <- IH. ring.
Qed.

Lemma around_values f x : In x (around fl ip value rows cols m f) ->
  exists c, in_image rows cols c = true /\ value_at ip value cols m c = Some (fst x) /\ (snd x = z2q 2 \/ snd x = z2q 3).
Proof.
  unfold around. intros H. apply in_flat_map in H as (dw & Hd & H). cbv zeta in H.
  set (c := (fst f + fst (fst dw), snd f + snd (fst dw))) in *.
  destruct (in_image rows cols c) eqn:Ei; [|destruct H]. destruct (value_at ip value cols m c) as [v|] eqn:Ev; [|destruct H].
  destruct H as [<- | []]. exists c. split; auto. split; auto. cbn [fst snd lit exact].
  cbn in Hd. repeat destruct Hd as [<- | Hd]; auto. destruct Hd.
Qed.

Lemma laplacian_flat v area f : raster_is ip value rows cols m (fun _ => v) -> in_image rows cols f = true ->
  value_at ip value cols m f <> None -> around fl ip value rows cols m f <> [] -> area <> q0 ->
  laplacian_at fl (exact_sums false) ip value rows cols m area f = Some q0.
Proof.
  intros R Hf Hv Ha Hn. destruct (value_at ip value cols m f) as [x|] eqn:E; [|congruence].
  rewrite (laplacian_exact area f x E Ha Hn). f_equal.
  rewrite (sum_ext _ (fun _ => q0)).
  - unfold sum. assert (Z : forall l : list (Qc * Qc), fold_right (fun _ s => Qcplus q0 s) q0 l = q0).
    { induction l; cbn [fold_right]; auto. rewrite IHl. ring. }
    rewrite Z. unfold Qcdiv. ring.
  - intros y Hy. destruct (around_values f y Hy) as (c & C1 & C2 & _). rewrite (R _ _ C1 C2), (R _ _ Hf E). ring.
Qed.

Lemma laplacian_plane a b e area f :
  let z c := Qcplus (Qcplus (Qcmult a (z2q (snd c))) (Qcmult b (z2q (fst c)))) e in
  (forall d, In d nine_cells -> in_image rows cols (fst f + fst d, snd f + snd d) = true /\
     value_at ip value cols m (fst f + fst d, snd f + snd d) = Some (z (fst f + fst d, snd f + snd d))) ->
  area <> q0 -> laplacian_at fl (exact_sums false) ip value rows cols m area f = Some q0.
Proof.
  intros z Hz Hn.
  destruct (Hz (0, 0)) as [Hf Hv]; [cbn; auto 10|]. cbn [fst snd] in Hf, Hv. rewrite !Z.add_0_r in Hf, Hv.
  rewrite <- surjective_pairing in Hf, Hv.
  assert (E : around fl ip value rows cols m f =
    map (fun dw : Z * Z * Z => (z (fst f + fst (fst dw), snd f + snd (fst dw)), z2q (snd dw)))
     [((-1, -1), 2); ((-1, 0), 3); ((-1, 1), 2); ((0, -1), 3); ((0, 1), 3); ((1, -1), 2); ((1, 0), 3); ((1, 1), 2)]).
  { unfold around. cbn [flat_map map]. cbv zeta.
    repeat match goal with |- context[in_image rows cols (fst f + fst (fst (?d, ?w)), snd f + snd (fst (?d, ?w)))] =>
      change (fst (d, w)) with d;
      let H1 := fresh in let H2 := fresh in
      destruct (Hz d) as [H1 H2]; [cbn; auto 12|]; rewrite H1, H2; clear H1 H2 end.
    reflexivity. }
  rewrite (laplacian_exact area f _ Hv); auto; [|rewrite E; discriminate].
  rewrite E. unfold sum. cbn [map fold_right fst snd]. unfold z. cbn [fst snd]. rewrite !z2q_plus.
  rewrite (surjective_pairing f). cbn [fst snd].
  change (z2q (-1)) with (Qcopp (Q2Qc 1)). change (z2q 0) with q0.
  change (z2q 1) with (Q2Qc 1). change (z2q 3) with (Qcplus (Q2Qc 1) (Qcplus (Q2Qc 1) (Q2Qc 1))).
  change (z2q 2) with (Qcplus (Q2Qc 1) (Q2Qc 1)). f_equal. unfold Qcdiv. ring.
Qed.

(** Lax *)
Lemma lax_exact fraction f v : value_at ip value cols m f = Some v -> around fl ip value rows cols m f <> [] ->
  let l := around fl ip value rows cols m f in
  lax_at fl (exact_sums true) ip value rows cols m fraction f =
  Some (Qcplus (Qcmult (Qcminus (Q2Qc 1) fraction) v)
    (Qcmult fraction (Qcdiv (sum (fun x => Qcmult (fst x) (snd x)) l) (sum snd l)))).
Proof.
  intros Hv Ha l. unfold lax_at, combined. rewrite Hv. cbn [also].
  unfold sum_around, weight_around. fold l. fold l in Ha. destruct l as [|p l'] eqn:E; [congruence|]. rewrite <- E. clear E Ha p l'.
  cbn [in_range exact_sums normalize add_scaled zero_v add_weight zero_w also].
  unfold checked. cbn [finite exact fmul fsub fadd also]. f_equal. change (lit fl 1) with (Q2Qc 1). f_equal. f_equal.
  rewrite (fold_sum (fun x => Qcmult (fst x) (snd x))), (fold_sum snd). rewrite !Qcplus_0_l. reflexivity.
Qed.

Lemma weights_positive f : around fl ip value rows cols m f <> [] -> (q0 < sum snd (around fl ip value rows cols m f))%Qc.
Proof.
  intros H.
  assert (P : forall x, In x (around fl ip value rows cols m f) -> (q0 < snd x)%Qc).
  { intros x Hx. destruct (around_values f x Hx) as (c & _ & _ & [-> | ->]); vm_compute; reflexivity. }
  destruct (around fl ip value rows cols m f) as [|p l]; [congruence|].
  assert (Q : (q0 <= sum snd l)%Qc).
  { assert (P' : forall x, In x l -> (q0 < snd x)%Qc) by (intros; apply P; cbn; auto). clear P.
    unfold sum. induction l as [|x l IH]; cbn [fold_right]; [apply Qcle_refl|].
    replace q0 with (Qcplus q0 q0) by ring. apply Qcplus_le_compat; [apply Qclt_le_weak, P'; cbn; auto|].
    apply IH; [discriminate|]. intros; apply P'; cbn; auto. }
  unfold sum in *. cbn [fold_right]. eapply Qclt_le_trans; [apply (P p); cbn; auto|].
  replace (snd p) with (Qcplus (snd p) q0) at 1 by ring. apply Qcplus_le_compat; [apply Qcle_refl|exact Q].
Qed.

Lemma average_between f lo hi : around fl ip value rows cols m f <> [] ->
  (forall x, In x (around fl ip value rows cols m f) -> (lo <= fst x)%Qc /\ (fst x <= hi)%Qc) ->
  let l := around fl ip value rows cols m f in
  (lo <= sum (fun x => Qcmult (fst x) (snd x)) l / sum snd l)%Qc /\ (sum (fun x => Qcmult (fst x) (snd x)) l / sum snd l <= hi)%Qc.
Proof.
  intros Ha Hb l. pose proof (weights_positive f Ha) as Wp. fold l in Wp, Ha, Hb.
  assert (P : forall x, In x l -> (q0 <= snd x)%Qc).
  { intros x Hx. destruct (around_values f x Hx) as (c & _ & _ & [-> | ->]); vm_compute; discriminate. }
  assert (N : sum snd l <> q0) by (intros E; apply (Qclt_not_eq _ _ Wp); auto).
  assert (S : (lo * sum snd l <= sum (fun x => Qcmult (fst x) (snd x)) l)%Qc /\ (sum (fun x => Qcmult (fst x) (snd x)) l <= hi * sum snd l)%Qc).
  { clear Ha Wp N. clearbody l. unfold sum. induction l as [|x l IH]; cbn [fold_right].
    - replace (lo * q0)%Qc with q0 by ring. replace (hi * q0)%Qc with q0 by ring. split; apply Qcle_refl.
    - destruct IH as [I1 I2]; [intros; apply Hb; cbn; auto|intros; apply P; cbn; auto|].
      destruct (Hb x) as [B1 B2]; [cbn; auto|]. pose proof (P x ltac:(cbn; auto)) as Px. rewrite !Qcmult_plus_distr_r.
      split; apply Qcplus_le_compat; auto; apply Qcmult_le_compat_r; auto. }
  destruct S as [S1 S2]. split; apply (Qcmult_lt_0_le_reg_r _ _ _ Wp);
  replace (sum (fun x : Qc * Qc => (fst x * snd x)%Qc) l / sum snd l * sum snd l)%Qc with (sum (fun x : Qc * Qc => (fst x * snd x)%Qc) l)
    by (field; exact N); assumption.
Qed.

Lemma lax_between fraction f lo hi : in_image rows cols f = true -> value_at ip value cols m f <> None ->
  around fl ip value rows cols m f <> [] -> (q0 <= fraction)%Qc -> (fraction <= Q2Qc 1)%Qc ->
  (forall c v, in_image rows cols c = true -> Z.abs (fst c - fst f) <= 1 -> Z.abs (snd c - snd f) <= 1 ->
     value_at ip value cols m c = Some v -> (lo <= v)%Qc /\ (v <= hi)%Qc) ->
  exists r, lax_at fl (exact_sums true) ip value rows cols m fraction f = Some r /\ (lo <= r)%Qc /\ (r <= hi)%Qc.
Proof.
  intros Hf Hv Ha F0 F1 Hb. destruct (value_at ip value cols m f) as [v|] eqn:E; [|congruence].
  eexists. split; [apply lax_exact; eauto|].
  destruct (average_between f lo hi Ha) as [A1 A2].
  { intros x Hx. unfold around in Hx. apply in_flat_map in Hx as (dw & Hd & Hx). cbv zeta in Hx.
    set (c := (fst f + fst (fst dw), snd f + snd (fst dw))) in *.
    destruct (in_image rows cols c) eqn:Ei; [|destruct Hx]. destruct (value_at ip value cols m c) as [y|] eqn:Ey; [|destruct Hx].
    destruct Hx as [<- | []]. cbn [fst]. apply (Hb c y Ei); auto; unfold c; cbn [fst snd];
    cbn in Hd; repeat destruct Hd as [<- | Hd]; cbn [fst snd]; try lia; destruct Hd. }
  destruct (Hb f v Hf ltac:(lia) ltac:(lia) E) as [B1 B2].
  assert (R0 : (q0 <= Q2Qc 1 - fraction)%Qc).
  { replace q0 with (fraction - fraction)%Qc by ring. apply Qcplus_le_compat; [exact F1|apply Qcle_refl]. }
  set (avg := (sum (fun x => Qcmult (fst x) (snd x)) (around fl ip value rows cols m f) / sum snd (around fl ip value rows cols m f))%Qc) in *.
  split.
  - replace lo with ((Q2Qc 1 - fraction) * lo + fraction * lo)%Qc at 1 by ring.
    apply Qcplus_le_compat; rewrite (Qcmult_comm _ lo), ?(Qcmult_comm _ v), ?(Qcmult_comm _ avg); apply Qcmult_le_compat_r; auto.
  - replace hi with ((Q2Qc 1 - fraction) * hi + fraction * hi)%Qc at 1 by ring.
    apply Qcplus_le_compat; rewrite (Qcmult_comm _ hi), ?(Qcmult_comm _ v), ?(Qcmult_comm _ avg); apply Qcmult_le_compat_r; auto.
Qed.
End Flat.
