(** * C81: fields in raster files *)
From Coq Require Import String ZArith List Bool SpecFloat Ascii Lia.
From Verif Require MaskedProps.
From Verif Require Import IntsModel ArithModel FloatModel IeeeSpec IeeeProofs FloatSpec FloatProofs MathProofs StringModel FeatureModel
  RasterModel FileModel FileSpec StoreModel DriverModel FieldModel FieldSpec.
Import ListNotations.
Open Scope Z_scope.

(** ** Windows *)

Lemma seq_split n k : (k < n)%nat -> List.seq 0 n = List.seq 0 k ++ k :: List.seq (S k) (n - S k).
Proof.
  intros H. replace n with (k + S (n - S k))%nat at 1 by lia. rewrite seq_app. reflexivity.
Qed.
Lemma concat_rows {A} (g : nat -> list A) w : forall l, (forall i, In i l -> length (g i) = w) ->
  length (concat (map g l)) = (length l * w)%nat.
Proof.
  induction l as [|x l IH]; intros H; auto. cbn. rewrite app_length, (H x (or_introl eq_refl)), IH; auto.
  intros i I. apply H. right. exact I.
Qed.
Lemma concat_at {A} (g : nat -> list A) w h r c :
  (forall i, (i < h)%nat -> length (g i) = w) -> (r < h)%nat -> (c < w)%nat ->
  nth_error (concat (map g (List.seq 0 h))) (r * w + c) = nth_error (g r) c.
Proof.
  intros H Hr Hc. rewrite (seq_split h r Hr), map_app, concat_app. cbn [map concat].
  assert (L : length (concat (map g (List.seq 0 r))) = (r * w)%nat).
  { rewrite (concat_rows g w), seq_length; auto. intros i I. apply in_seq in I. apply H. lia. }
  rewrite nth_error_app2 by lia. rewrite L. replace (r * w + c - r * w)%nat with c by lia.
  apply nth_error_app1. rewrite H; auto.
Qed.
Lemma nth_skipn {A} (l : list A) : forall n k, nth_error (skipn n l) k = nth_error l (n + k).
Proof.
  induction l as [|x l IH]; intros [|n] k; cbn; auto.
  destruct k; auto.
Qed.
Lemma nth_firstn {A} (l : list A) : forall n k, (k < n)%nat -> nth_error (firstn n l) k = nth_error l k.
Proof. induction l as [|x l IH]; intros [|n] [|k] H; cbn; auto; try lia. apply IH. lia. Qed.

Lemma window {A} (new old : list A) r c h w :
  (r <= h)%nat -> (c <= w)%nat -> length new = (r * c)%nat -> length old = (h * w)%nat ->
  exists l, raster_io new old r c h w = Some l /\ length l = (h * w)%nat /\
    forall y x, (y < h)%nat -> (x < w)%nat ->
      at_ l w y x = if Nat.ltb y r && Nat.ltb x c then at_ new c y x else at_ old w y x.
Proof.
  intros Hr Hc Ln Lo. unfold raster_io. rewrite (proj2 (Nat.leb_le _ _) Hr), (proj2 (Nat.leb_le _ _) Hc). cbn [andb].
  set (g := fun i : nat => _). eexists. split; [reflexivity|].
  assert (G : forall i, (i < h)%nat -> length (g i) = w).
  { intros i Hi. unfold g. rewrite app_length, firstn_length, !skipn_length, firstn_length, skipn_length, Lo.
    assert ((i + 1) * w <= h * w)%nat by (apply Nat.mul_le_mono_r; lia).
    destruct (Nat.ltb_spec i r) as [B|B]; [rewrite Ln; assert ((i + 1) * c <= r * c)%nat by (apply Nat.mul_le_mono_r; lia)|cbn [length]]; lia. }
  split.
  - rewrite (concat_rows g w), seq_length; auto. intros i I. apply in_seq in I. apply G. lia.
  - intros y x Hy Hx. unfold at_. rewrite (concat_at g w h y x G Hy Hx). unfold g.
    assert ((y + 1) * w <= h * w)%nat by (apply Nat.mul_le_mono_r; lia).
    destruct (Nat.ltb_spec y r) as [B|B]; cbn [andb].
    + assert ((y + 1) * c <= r * c)%nat by (apply Nat.mul_le_mono_r; lia).
      destruct (Nat.ltb_spec x c) as [D|D].
      * rewrite nth_error_app1, nth_firstn, nth_skipn; auto. rewrite firstn_length, skipn_length. lia.
      * rewrite nth_error_app2 by (rewrite firstn_length, skipn_length; lia).
        rewrite firstn_length, skipn_length, nth_skipn. rewrite nth_firstn by lia. rewrite nth_skipn. f_equal. lia.
    + rewrite skipn_nil, firstn_nil. cbn [app skipn]. rewrite nth_firstn, nth_skipn; auto.
Qed.

Lemma window_all {A} (new old : list A) h w :
  length new = (h * w)%nat -> length old = (h * w)%nat -> raster_io new old h w h w = Some new.
Proof.
  intros Ln Lo. destruct (window new old h w h w) as (l & -> & L & H); auto. f_equal.
  apply (MaskedProps.list_ext l new). intros i. destruct (Nat.lt_ge_cases i (h * w)) as [B|B].
  - assert (W : w <> 0%nat) by (intros ->; lia).
    assert (E : i = (i / w * w + i mod w)%nat) by (rewrite Nat.mul_comm; apply Nat.div_mod; auto).
    assert (Hx : (i mod w < w)%nat) by (apply Nat.mod_upper_bound; auto).
    assert (Hy : (i / w < h)%nat) by (apply Nat.div_lt_upper_bound; auto; lia).
    specialize (H _ _ Hy Hx). rewrite (proj2 (Nat.ltb_lt _ _) Hy), (proj2 (Nat.ltb_lt _ _) Hx) in H. unfold at_ in H. rewrite <- E in H. exact H.
  - rewrite !(proj2 (nth_error_None _ _)) by lia. reflexivity.
Qed.

(** ** Fields that are written to new files *)

Lemma type_there t : file_type t -> exists g, gdal_type_of t = Some g /\ value_type_of g = Some t.
Proof. intros H. cbn in H. repeat (destruct H as [<-|H]; [eexists; split; reflexivity|]). destruct H. Qed.
Lemma converted_same convert g t n : value_type_of g = Some t -> vty_of n = t -> converted convert g n = n.
Proof.
  intros G E. unfold converted, buffered. rewrite G, E.
  assert (S : same_type t t = true) by (destruct t as [|[]| |]; reflexivity). rewrite S. reflexivity.
Qed.
Lemma same_text_refl n : same_text n n = true.
Proof. unfold same_text. destruct (list_eq_dec ascii_dec n n); congruence. Qed.
Lemma set_image_same fs n i : set_image fs n i n = i.
Proof. unfold set_image. rewrite same_text_refl. reflexivity. Qed.
Lemma set_image_other fs n i n' : n' <> n -> set_image fs n i n' = fs n'.
Proof. intros D. unfold set_image, same_text. destruct (list_eq_dec ascii_dec n' n); congruence. Qed.
Lemma same_path_refl p : same_path p p = true.
Proof. unfold same_path. destruct (list_eq_dec (list_eq_dec ascii_dec) p p); congruence. Qed.

Lemma not_masked l : existsb (fun m => m) l = false -> l = repeat false (length l).
Proof. induction l as [|[] l IH]; cbn; intros H; try discriminate; auto. f_equal. auto. Qed.
Lemma mask_back l : map (fun b => b =? 0) (map (fun m : bool => if m then 0 else 255) l) = l.
Proof. induction l as [|[] l IH]; cbn; f_equal; auto. Qed.

(** A field that is written to a new file, or overwrites one, is read back: the type, the cells
    (also what is below the mask), the mask and the west and the north of the box are the same.
    The east and the south are calculated from the width of the cells.  No other file is changed.
    Debug builds abort unless cells are squares. *)
Theorem C81_written (debug : bool) (convert : vty -> num -> num) (stands_for : num -> spec_float -> bool)
    (fresh : Z) (again : bool) (fs : images) (n : text) (t : vty) (b : box) (f : field) :
  proper t f -> (debug = true -> square b f) ->
  let p := [stem n; stem n] in
  let cell := size_of_cells (west b) (east b) (cols f) in
  exists fs1 d fs2 d' r b',
    open fs n Overwrite = (fs1, Done d) /\
    write_attribute debug convert fresh again fs1 d (Fields t [(b, f)]) p = (fs2, Done d') /\
    (forall n', n' <> n -> fs2 n' = fs n') /\
    open fs2 n Read = (fs2, Done r) /\
    read_attribute debug stands_for fs2 r p = Done (Fields t [(b', f)]) /\
    west b' = west b /\ north b' = north b /\
    east b' = further (west b) (cols f) cell /\ south b' = back (north b) (rows f) cell.
Proof.
  intros (T & R & C & Lv & Lm & V) S p cell. destruct (type_there t T) as (g & G & G').
  assert (Cv : map (converted convert g) (values f) = values f).
  { rewrite <- (map_id (values f)) at 2. apply map_ext_in. intros m I. apply (converted_same convert g t m G'). auto. }
  assert (Sq : debug = true -> SFltb (S754_zero false) (g1 (transformation_of b f)) && SFeqb (g1 (transformation_of b f)) (g5 (transformation_of b f)) = true).
  { intros D. destruct (S D) as [S1 S2]. apply andb_true_intro. split; [exact S1|exact S2]. }
  set (i := Image 1 g (rows f) (cols f) (Some (transformation_of b f)) (values f)
              (if existsb (fun m => m) (masked f) then Bytes (map (fun m : bool => if m then 0 else 255) (masked f)) else AllValid)).
  eexists _, _, (set_image (set_image fs n None) n (Some i)), _, _, (box_of (transformation_of b f) (rows f) (cols f)).
  split; [reflexivity|]. split; [|split; [|split; [|split; [|repeat split]]]].
  - unfold write_attribute. rewrite G. unfold write_field. cbn [opened_for opened negb andb name]. rewrite andb_false_r.
    rewrite ?andb_false_r. unfold create. rewrite (proj2 (Nat.eqb_neq (rows f) 0)), (proj2 (Nat.eqb_neq (cols f) 0)) by lia.
    cbn [orb bands]. unfold contains_feature, contains_attribute. cbn [name p removelast]. rewrite !same_path_refl. cbn [Nat.eqb andb].
    assert (A : debug && negb (SFltb (S754_zero false) (g1 (transformation_of b f)) && SFeqb (g1 (transformation_of b f)) (g5 (transformation_of b f))) = false).
    { destruct debug; auto. rewrite (Sq eq_refl). reflexivity. }
    rewrite A. unfold write_values. cbn [type height width pixels mask_of bands placed]. rewrite Cv, window_all by (rewrite ?repeat_length; auto).
    unfold i. destruct (existsb _ (masked f)) eqn:M.
    + rewrite window_all by (rewrite ?map_length, ?repeat_length; auto). reflexivity.
    + reflexivity.
  - intros n' D. rewrite !set_image_other; auto.
  - unfold open. rewrite set_image_same. reflexivity.
  - unfold read_attribute. cbn [opened name]. unfold contains_attribute. cbn [name p]. rewrite same_path_refl, set_image_same.
    cbn [bands i Nat.eqb type]. rewrite G'. unfold read_values. cbn [placed i height width pixels mask_of].
    assert (Q : (if debug then SFeqb (g1 (transformation_of b f)) (SFabs (g5 (transformation_of b f))) else true) = true).
    { destruct debug; auto. specialize (Sq eq_refl). apply andb_prop in Sq as [S1 S2].
      destruct (g5 (transformation_of b f)) as [[]|[]| |[] ? ?]; auto;
      destruct (g1 (transformation_of b f)) as [[]|[]| |[] ? ?]; try discriminate; auto. }
    assert (AA : forall (x : bool) (k : outcome attribute), (if debug then x else true) = true -> assert debug x k = k).
    { intros x k H. unfold assert, failed_assertion. destruct debug; rewrite ?H; auto. destruct x; auto. }
    rewrite (AA true) by (destruct debug; auto). rewrite (AA true) by (destruct debug; auto). rewrite AA by auto.
    rewrite (AA _ _) by (destruct debug; auto; destruct (existsb _ _); auto).
    do 2 f_equal. f_equal. f_equal. destruct f as [fr fc fv fm]. cbn [rows cols values masked] in *. f_equal.
    unfold mask_bytes. cbn [mask_of i]. destruct (existsb _ fm) eqn:M; [apply mask_back|]. rewrite (not_masked _ M), Lm. reflexivity.
Qed.
Print Assumptions C81_written.

(** ** Boxes whose sides are whole numbers of cells *)

Lemma exact_result a b r x : 0 < b -> is_rounding 53 1024 a (b * step Double) r -> FieldSpec.is_double x -> fvalue Double x * b = a ->
  FieldSpec.is_double r /\ fvalue Double r = fvalue Double x.
Proof.
  intros B R X E. unfold fvalue in *. change (fprec Double) with 53 in *. change (femax Double) with 1024 in *. pose proof (step_pos Double) as P.
  destruct (rounding_exact 53 1024 ltac:(lia) ltac:(lia) a (b * step Double) r x ltac:(nia) R X ltac:(lia)) as [N U]. split; auto. congruence.
Qed.
Lemma whole n : Z.of_nat n <= imax S32 ->
  FieldSpec.is_double (binary_normalize 53 1024 (Z.of_nat n) 0 false) /\ fvalue Double (binary_normalize 53 1024 (Z.of_nat n) 0 false) = Z.of_nat n * one.
Proof.
  intros H. assert (I := binary_normalize_spec 53 1024 ltac:(lia) ltac:(lia) (Z.of_nat n) 0 false ltac:(cbn; lia)).
  change (0 - emin 53 1024) with 1074 in I.
  destruct (representable 53 1024 ltac:(lia) ltac:(lia) (Z.of_nat n) 1074) as (x & X & U).
  { cbn [imax] in H. change (2 ^ 53) with 9007199254740992. lia. } { cbn. lia. }
  destruct (rounding_exact 53 1024 ltac:(lia) ltac:(lia) _ 1 _ x ltac:(lia) I X ltac:(lia)) as [N E]. split; auto.
  unfold fvalue. change (fprec Double) with 53. change (femax Double) with 1024. rewrite E, U, <- Z.mul_assoc. rewrite <- (emin_unit Double).
  reflexivity.
Qed.

Lemma calculated from to n cell w : FieldSpec.is_double from -> FieldSpec.is_double to -> FieldSpec.is_double cell -> FieldSpec.is_double w ->
  (0 < n)%nat -> Z.of_nat n <= imax S32 ->
  fvalue Double w = Z.of_nat n * fvalue Double cell -> fvalue Double to = fvalue Double from + fvalue Double w ->
  FieldSpec.is_double (size_of_cells from to n) /\ fvalue Double (size_of_cells from to n) = fvalue Double cell.
Proof.
  intros F T C W N I E1 E2. destruct (whole n I) as [D V]. pose proof one_pos as O.
  destruct (exact_result (fvalue Double to - fvalue Double from) 1 (SFsub 53 1024 to from) w) as [S1 S2]; auto; [exact (sub_rounding Double to from T F)|lia|].
  assert (NZ : fvalue Double (binary_normalize 53 1024 (Z.of_nat n) 0 false) <> 0) by (rewrite V; nia).
  refine (exact_result _ _ _ cell _ (div_rounding Double _ _ S1 D NZ) C _); rewrite V.
  - nia.
  - rewrite (Z.sgn_pos (Z.of_nat n * one)), (Z.abs_eq (Z.of_nat n * one)) by nia. rewrite S2, E1. ring.
Qed.
Lemma multiplied n cell cell' w : FieldSpec.is_double cell -> FieldSpec.is_double w -> Z.of_nat n <= imax S32 ->
  fvalue Double cell = fvalue Double cell' -> fvalue Double w = Z.of_nat n * fvalue Double cell' ->
  FieldSpec.is_double (SFmul 53 1024 (binary_normalize 53 1024 (Z.of_nat n) 0 false) cell) /\
  fvalue Double (SFmul 53 1024 (binary_normalize 53 1024 (Z.of_nat n) 0 false) cell) = fvalue Double w.
Proof.
  intros C W I E1 E2. destruct (whole n I) as [D V]. pose proof one_pos as O.
  refine (exact_result _ _ _ w _ (mul_rounding Double _ _ D C) W _); auto. rewrite V, E1, E2. ring.
Qed.

(** If the sides of the box are whole numbers of cells, these are squares, and the box that is read
    is the one that has been written. *)
Theorem C81_exact (t : vty) (b : box) (f : field) :
  proper t f -> Z.of_nat (rows f) <= imax S32 -> Z.of_nat (cols f) <= imax S32 -> regular b f ->
  let cell := size_of_cells (west b) (east b) (cols f) in
  square b f /\ same_box (Box (west b) (back (north b) (rows f) cell) (further (west b) (cols f) cell) (north b)) b.
Proof.
  intros (_ & R & C & _) Ir Ic (Dw & De & Ds & Dn & x & w & h & Dx & DW & DH & Px & Ew & Eh & E & N) cell.
  destruct (calculated (west b) (east b) (cols f) x w) as [C1 C2]; auto.
  destruct (calculated (south b) (north b) (rows f) x h) as [R1 R2]; auto.
  destruct (multiplied (cols f) cell x w) as [M1 M2]; auto.
  destruct (multiplied (rows f) cell x h) as [N1 N2]; auto.
  split; [split|].
  - apply (ltb_number Double); auto. { split; reflexivity. } rewrite C2. exact Px.
  - apply (eqb_number Double); auto. congruence.
  - unfold same_box. cbn [west east south north]. repeat split; auto.
    + refine (proj2 (exact_result _ 1 _ (east b) _ (add_rounding Double _ _ Dw M1) De _)); [lia|]. rewrite M2. lia.
    + refine (proj2 (exact_result _ 1 _ (south b) _ (sub_rounding Double _ _ Dn N1) Ds _)); [lia|]. rewrite N2. lia.
Qed.
Print Assumptions C81_exact.

(** ** Fields that are written to files that exist *)

Lemma at_map {A B} (g : A -> B) l w y x : at_ (map g l) w y x = option_map g (at_ l w y x).
Proof. unfold at_. apply nth_error_map. Qed.
Lemma at_repeat {A} (v : A) h w y x : (y < h)%nat -> (x < w)%nat -> at_ (repeat v (h * w)) w y x = Some v.
Proof. intros Hy Hx. unfold at_. apply nth_error_repeat. assert ((y + 1) * w <= h * w)%nat by (apply Nat.mul_le_mono_r; lia). lia. Qed.
Lemma at_some {A} (l : list A) h w y x : length l = (h * w)%nat -> (y < h)%nat -> (x < w)%nat -> exists v, at_ l w y x = Some v.
Proof.
  intros L Hy Hx. unfold at_. destruct (nth_error l (y * w + x)) eqn:E; eauto. apply nth_error_None in E.
  assert ((y + 1) * w <= h * w)%nat by (apply Nat.mul_le_mono_r; lia). lia.
Qed.
Lemma assert_if {A} (debug x : bool) (k : outcome A) : (debug = true -> x = true) -> assert debug x k = k.
Proof. intros H. unfold assert, failed_assertion. destruct debug, x; auto; specialize (H eq_refl); discriminate. Qed.

(** A field in a corner of an image, row by row *)
Definition in_window (f : field) (y x : nat) : bool := Nat.ltb y (rows f) && Nat.ltb x (cols f).

(** Writing to a file that exists, opened for update, with at least as many rows and columns: the
    file keeps the type and the sizes it has.  Cells the field has get its values, converted to the
    type of the file; other cells keep theirs.  If cells of the field are masked the mask becomes
    that of the field, where it is; if none is, the mask the file has is left as it is.  The box is
    the one of the file's sizes with the cells of the field, from the west and the north of the
    field. *)
Theorem C81_updated (debug : bool) (convert : vty -> num -> num) (stands_for : num -> spec_float -> bool)
    (fresh : Z) (again : bool) (fs : images) (n : text) (i : image) (t u : vty) (b : box) (f : field) :
  fs n = Some i -> proper_image u i -> proper t f -> (debug = true -> square b f) ->
  (rows f <= height i)%nat -> (cols f <= width i)%nat ->
  (existsb (fun m => m) (masked f) = true -> again = true \/ forall m, mask_of i <> Bytes m) ->
  let p := [stem n; stem n] in
  let cell := size_of_cells (west b) (east b) (cols f) in
  exists d fs2 d' r b' f',
    open fs n Update = (fs, Done d) /\
    write_attribute debug convert fresh again fs d (Fields t [(b, f)]) p = (fs2, Done d') /\
    (forall n', n' <> n -> fs2 n' = fs n') /\
    open fs2 n Read = (fs2, Done r) /\
    read_attribute debug stands_for fs2 r p = Done (Fields u [(b', f')]) /\
    rows f' = height i /\ cols f' = width i /\
    west b' = west b /\ north b' = north b /\
    east b' = further (west b) (width i) cell /\ south b' = back (north b) (height i) cell /\
    forall y x, (y < height i)%nat -> (x < width i)%nat ->
      at_ (values f') (width i) y x =
        (if in_window f y x
         then option_map (fun v => if same_type t u then v else convert u v) (at_ (values f) (cols f) y x)
         else at_ (pixels i) (width i) y x) /\
      at_ (masked f') (width i) y x =
        (if existsb (fun m => m) (masked f)
         then if in_window f y x then at_ (masked f) (cols f) y x
              else Some (match mask_of i with Bytes m => mask_of_cell stands_for (Bytes m) (width i) y x (zero_of u) | _ => fresh =? 0 end)
         else option_map (mask_of_cell stands_for (mask_of i) (width i) y x) (at_ (values f') (width i) y x)).
Proof.
  intros F (B1 & Ty & Lp & Lb & NA) (T & R & C & Lv & Lm & V) S Hr Hc Ag p cell. destruct (type_there t T) as (g & G & G').
  assert (Sq : debug = true -> SFltb (S754_zero false) (g1 (transformation_of b f)) && SFeqb (g1 (transformation_of b f)) (g5 (transformation_of b f)) = true).
  { intros D. destruct (S D) as [S1 S2]. apply andb_true_intro. split; [exact S1|exact S2]. }
  assert (Q : debug = true -> SFeqb (g1 (transformation_of b f)) (SFabs (g5 (transformation_of b f))) = true).
  { intros D. specialize (Sq D). apply andb_prop in Sq as [S1 S2].
    destruct (g5 (transformation_of b f)) as [[]|[]| |[] ? ?]; auto;
    destruct (g1 (transformation_of b f)) as [[]|[]| |[] ? ?]; try discriminate; auto. }
  destruct (window (map (converted convert (type i)) (values f)) (pixels i) (rows f) (cols f) (height i) (width i)) as (px & Epx & Lpx & Ppx);
    rewrite ?map_length; auto.
  set (bytes := map (fun m : bool => if m then 0 else 255) (masked f)).
  set (om := match mask_of i with Bytes m => m | _ => repeat fresh (height i * width i) end).
  destruct (window bytes om (rows f) (cols f) (height i) (width i)) as (mx & Emx & Lmx & Pmx); auto.
  { unfold bytes. rewrite map_length. auto. }
  { unfold om. destruct (mask_of i) eqn:Em; rewrite ?repeat_length; auto. }
  set (i' := Image (bands i) (type i) (height i) (width i) (Some (transformation_of b f)) px
              (if existsb (fun m => m) (masked f) then Bytes mx else mask_of i)).
  assert (NA' : forall m, mask_of i' <> Alpha m).
  { intros m. cbn [mask_of i']. destruct (existsb _ _); [discriminate|apply NA]. }
  exists (Dataset n Update true), (set_image fs n (Some i')), (Dataset n Update true), (Dataset n Read true), (box_of (transformation_of b f) (height i) (width i)).
  eexists. split; [unfold open; rewrite F; reflexivity|]. split; [|split; [|split; [|split; [|repeat split]]]].
  - unfold write_attribute. rewrite G. unfold write_field. cbn [opened_for opened negb andb name]. rewrite F, ?andb_false_r.
    unfold contains_feature, contains_attribute. cbn [name p removelast]. rewrite !same_path_refl, B1. cbn [Nat.eqb andb].
    assert (A : debug && negb (SFltb (S754_zero false) (g1 (transformation_of b f)) && SFeqb (g1 (transformation_of b f)) (g5 (transformation_of b f))) = false).
    { destruct debug; auto. rewrite (Sq eq_refl). reflexivity. }
    rewrite A. unfold write_values. cbn [type height width pixels mask_of bands placed]. rewrite Epx. unfold i'.
    destruct (existsb _ (masked f)) eqn:M; [|reflexivity]. fold bytes.
    replace (match mask_of i with Bytes m => if again then Some m else None | _ => Some (repeat fresh (height i * width i)) end) with (Some om).
    + rewrite Emx. reflexivity.
    + unfold om. destruct (Ag eq_refl) as [->|N]; destruct (mask_of i) eqn:Em; auto. destruct (N _ eq_refl).
  - intros n' D. apply set_image_other; auto.
  - unfold open. rewrite set_image_same. reflexivity.
  - unfold read_attribute. cbn [opened name]. unfold contains_attribute. cbn [name p]. rewrite same_path_refl, set_image_same.
    cbn [bands i' type]. rewrite B1, Ty. cbn [Nat.eqb]. unfold read_values. cbn [placed i' height width pixels].
    rewrite !assert_if; auto. destruct (mask_of i') eqn:E; auto. destruct (NA' _ eq_refl).
  - reflexivity.
  - reflexivity.
  - cbn [values]. rewrite Ppx by auto. fold (in_window f y x). destruct (in_window f y x) eqn:W; auto.
    rewrite at_map. unfold in_window in W. apply andb_prop in W as [W1 W2]. apply Nat.ltb_lt in W1, W2.
    destruct (at_some (values f) (rows f) (cols f) y x Lv W1 W2) as (v & Ev). rewrite Ev. cbn [option_map]. f_equal.
    unfold converted, buffered. rewrite Ty, (V v) by (eapply nth_error_In; exact Ev). reflexivity.
  - cbn [masked values]. unfold mask_bytes. cbn [mask_of i' pixels]. destruct (existsb _ (masked f)) eqn:M.
    + rewrite at_map, Pmx by auto. fold (in_window f y x). destruct (in_window f y x) eqn:W.
      * unfold bytes. rewrite at_map. destruct (at_ (masked f) (cols f) y x) as [[]|]; reflexivity.
      * unfold om. cbn [mask_of_cell]. destruct (mask_of i) as [| |m|m] eqn:Em; try (rewrite at_repeat by auto; reflexivity).
        destruct (at_some m (height i) (width i) y x (Lb _ eq_refl) H H0) as (v & Ev). rewrite Ev. destruct v; reflexivity.
    + destruct (at_some px (height i) (width i) y x Lpx H H0) as (v & Ev). rewrite Ev. cbn [option_map].
      destruct (mask_of i) as [|nv|m|m] eqn:Em; cbn [mask_of_cell].
      * apply at_repeat; auto.
      * rewrite !at_map, Ev. cbn [option_map]. destruct (stands_for v nv); reflexivity.
      * rewrite at_map. destruct (at_some m (height i) (width i) y x (Lb _ eq_refl) H H0) as (k & Ek). rewrite Ek. destruct k; reflexivity.
      * destruct (NA _ eq_refl).
Qed.
Print Assumptions C81_updated.

(** A field with more rows or columns than the file has: there is an exception.  Cells, mask, type
    and sizes are as they were, but the file has been moved: it has the corner and the cell size of
    the field. *)
Theorem C81_too_large (debug : bool) (convert : vty -> num -> num)
    (fresh : Z) (again : bool) (fs : images) (n : text) (i : image) (t u : vty) (b : box) (f : field) :
  fs n = Some i -> proper_image u i -> proper t f -> (debug = true -> square b f) ->
  (height i < rows f)%nat \/ (width i < cols f)%nat ->
  exists d fs2 i2 g, open fs n Update = (fs, Done d) /\
    write_attribute debug convert fresh again fs d (Fields t [(b, f)]) [stem n; stem n] = (fs2, Thrown) /\
    (forall n', n' <> n -> fs2 n' = fs n') /\ fs2 n = Some i2 /\
    type i2 = type i /\ height i2 = height i /\ width i2 = width i /\ pixels i2 = pixels i /\ mask_of i2 = mask_of i /\
    placed i2 = Some g /\ g0 g = west b /\ g3 g = north b /\ g1 g = size_of_cells (west b) (east b) (cols f).
Proof.
  intros F (B1 & Ty & Lp & Lb & NA) (T & R & C & Lv & Lm & V) S Big. destruct (type_there t T) as (g & G & G').
  exists (Dataset n Update true), (set_image fs n (Some (Image (bands i) (type i) (height i) (width i) (Some (transformation_of b f)) (pixels i) (mask_of i)))).
  do 2 eexists. split; [unfold open; rewrite F; reflexivity|]. split; [|split; [|split; [apply set_image_same|]]].
  - unfold write_attribute. rewrite G. unfold write_field. cbn [opened_for opened negb andb name]. rewrite F, ?andb_false_r.
    unfold contains_feature, contains_attribute. cbn [name removelast]. rewrite !same_path_refl, B1. cbn [Nat.eqb andb].
    assert (A : debug && negb (SFltb (S754_zero false) (g1 (transformation_of b f)) && SFeqb (g1 (transformation_of b f)) (g5 (transformation_of b f))) = false).
    { destruct debug; auto. destruct (S eq_refl) as [S1 S2]. unfold square, size_of_cells in *. cbn [andb]. apply negb_false_iff, andb_true_intro.
      split; [exact S1|exact S2]. }
    rewrite A. unfold write_values. cbn [type height width pixels mask_of bands placed]. unfold raster_io.
    replace (Nat.leb (rows f) (height i) && Nat.leb (cols f) (width i)) with false; [rewrite B1; reflexivity|].
    symmetry. apply andb_false_iff. destruct Big; [left|right]; apply Nat.leb_gt; auto.
  - intros n' D. apply set_image_other; auto.
  - repeat split.
Qed.
Print Assumptions C81_too_large.

(** ** Paths *)

(** A dataset in a raster file has one feature with one attribute.  Both have the name of the file
    without directories and extension.  There is an exception if something else is read.  Debug
    builds abort if something else is written; release builds write it to where that attribute is. *)
Theorem C81_where (debug : bool) (convert : vty -> num -> num) (stands_for : num -> spec_float -> bool)
    (fresh : Z) (again : bool) (fs : images) (d : dataset) (p : path) :
  opened d = true -> p <> [stem (name d); stem (name d)] ->
  read_attribute debug stands_for fs d p = Thrown /\
  expression_type debug fs d p = Thrown /\
  (forall t l i, file_type t -> fs (name d) = Some i -> write_attribute true convert fresh again fs d (Fields t l) p = (fs, Aborted)) /\
  (forall a, write_attribute false convert fresh again fs d a p =
             write_attribute false convert fresh again fs d a [stem (name d); stem (name d)]).
Proof.
  intros O N. assert (A : contains_attribute d p = false).
  { unfold contains_attribute, same_path. destruct (list_eq_dec (list_eq_dec ascii_dec) _ p); congruence. }
  split; [|split; [|split]].
  - unfold read_attribute. rewrite O, A. destruct debug; reflexivity.
  - unfold expression_type. rewrite O, A. destruct debug; reflexivity.
  - intros t l i T F. destruct (type_there t T) as (g & G & _). unfold write_attribute. rewrite G. unfold write_field. rewrite O.
    cbn [andb negb]. destruct (opened_for d); cbn [negb]; auto. destruct l as [|[b f] more]; auto. destruct more; auto.
    rewrite F, A. destruct p; cbn [andb negb]; auto. rewrite andb_false_r. reflexivity.
  - intros [n|t l]; reflexivity.
Qed.
Print Assumptions C81_where.

(** ** Names of files *)

Lemma last_part_plain t : forall current, ~ In "/"%char t -> FeatureModel.last_part current t = current ++ t.
Proof.
  induction t as [|c t IH]; intros current N; cbn; [rewrite app_nil_r; reflexivity|].
  destruct (Ascii.eqb_spec c "/"); [subst; exfalso; apply N; left; reflexivity|].
  rewrite IH by (intros I; apply N; right; exact I). rewrite <- app_assoc. reflexivity.
Qed.
Lemma last_part_behind d t : forall current, ~ In "/"%char t -> FeatureModel.last_part current (d ++ "/"%char :: t) = t.
Proof.
  induction d as [|c d IH]; intros current N; cbn.
  - apply (last_part_plain t []). exact N.
  - destruct (Ascii.eqb c "/"); apply IH; exact N.
Qed.
Lemma before_none t : ~ In "."%char t -> before_period t = None.
Proof.
  induction t as [|c t IH]; intros N; auto. cbn. rewrite IH by (intros I; apply N; right; exact I).
  destruct (Ascii.eqb_spec c "."); [subst; exfalso; apply N; left; reflexivity|reflexivity].
Qed.
Lemma before_last b e : ~ In "."%char e -> before_period (b ++ "."%char :: e) = Some b.
Proof. intros N. induction b as [|c b IH]; cbn; [rewrite before_none by exact N|rewrite IH]; reflexivity. Qed.

(** The name of the feature and the attribute: what is in front of the last period, if that is not
    the first character, in what is behind the last slash. *)
Theorem C81_name (directory base extension : text) :
  (directory = [] \/ exists d, directory = d ++ ["/"%char]) -> ~ In "/"%char base -> ~ In "/"%char extension -> ~ In "."%char extension ->
  (base <> [] -> base <> ["."%char] -> stem (directory ++ base ++ "."%char :: extension) = base) /\
  stem (directory ++ "."%char :: extension) = "."%char :: extension /\
  stem (directory ++ extension) = extension.
Proof.
  intros D B E P.
  assert (F : forall t, ~ In "/"%char t -> FeatureModel.filename (directory ++ t) = t).
  { intros t N. unfold FeatureModel.filename. destruct D as [-> |(d & ->)]; [apply (last_part_plain t []); exact N|].
    rewrite <- app_assoc. apply last_part_behind. exact N. }
  assert (L : forall t, ~ In "/"%char t -> stem (directory ++ t) =
     if same_text t (lit "..") then t else match before_period t with Some (c :: s) => c :: s | _ => t end).
  { intros t N. unfold stem. rewrite F by exact N. reflexivity. }
  assert (S : forall x y : text, x <> y -> same_text x y = false).
  { intros x y N. unfold same_text. destruct (list_eq_dec ascii_dec x y); congruence. }
  split; [|split].
  - intros N N2. rewrite L.
    + rewrite before_last by exact P. rewrite S.
      2:{ destruct base as [|c [|c2 base]]; [contradiction| |]; intros Q.
          - injection Q as -> _. apply N2. reflexivity.
          - apply (f_equal (@length ascii)) in Q. rewrite app_length in Q. cbn in Q. lia. }
      destruct base; [contradiction|reflexivity].
    + rewrite in_app_iff. intros [I|[I|I]]; auto. discriminate.
  - rewrite L by (intros [I|I]; [discriminate|auto]). pose proof (before_last [] extension P) as Q. cbn [app] in Q. rewrite Q. destruct (same_text _ _); reflexivity.
  - rewrite L, before_none by auto. destruct (same_text _ _); reflexivity.
Qed.
Print Assumptions C81_name.

(** Files that do not exist are not opened, unless they are to be overwritten; then, as if there had
    been another file, there is none until a field is written. *)
Theorem C81_opened (fs : images) (n : text) (m : mode) :
  (m <> Overwrite -> open fs n m = (fs, match fs n with Some _ => Done (Dataset n m true) | None => Thrown end)) /\
  (exists fs', open fs n Overwrite = (fs', Done (Dataset n Overwrite false)) /\ fs' n = None /\ forall n', n' <> n -> fs' n' = fs n').
Proof.
  split.
  - intros N. unfold open. destruct m; try contradiction; destruct (fs n); reflexivity.
  - eexists. split; [reflexivity|]. split; [apply set_image_same|]. intros n' D. apply set_image_other; auto.
Qed.
Print Assumptions C81_opened.

(** ** Types and features *)

(** What is said about the type of an attribute is the type of the attribute when it is read.  It
    is read whenever there is a type; debug builds abort when the cells are not squares or there is
    an alpha channel.  Where there is no type release builds say so and throw when reading. *)
Theorem C81_type (debug : bool) (stands_for : num -> spec_float -> bool) (fs : images) (d : dataset) (p : path) :
  (forall t l, read_attribute debug stands_for fs d p = Done (Fields t l) -> expression_type debug fs d p = Done (Some t)) /\
  (forall t, expression_type debug fs d p = Done (Some t) ->
     (exists b f, read_attribute debug stands_for fs d p = Done (Fields t [(b, f)])) \/
     (debug = true /\ read_attribute debug stands_for fs d p = Aborted)) /\
  (expression_type debug fs d p = Done None -> debug = false /\ read_attribute debug stands_for fs d p = Thrown) /\
  (expression_type debug fs d p = Thrown -> contains_attribute d p = false).
Proof.
  unfold read_attribute, expression_type. destruct (opened d) eqn:O; [|destruct debug; cbn; destruct (contains_attribute d p); repeat split; discriminate].
  rewrite !assert_if by auto. destruct (contains_attribute d p); [|repeat split; auto; discriminate].
  destruct (fs (name d)) as [i|]; [|repeat split; discriminate].
  destruct (Nat.eqb (bands i) 1) eqn:B1.
  - rewrite !assert_if by auto. apply Nat.eqb_eq in B1. rewrite B1. cbn [Nat.eqb]. destruct (value_type_of (type i)) as [u|].
    + split; [|split; [|split; discriminate]].
      * intros t l. unfold read_values. unfold assert, failed_assertion. repeat (destruct debug, (SFeqb _ _), (mask_of i); cbn); congruence.
      * intros t [= ->]. unfold read_values, assert, failed_assertion.
        destruct debug, (SFeqb _ _), (mask_of i); cbn; eauto.
    + unfold failed_assertion. destruct debug; repeat split; discriminate.
  - unfold assert, failed_assertion. destruct debug; [repeat split; discriminate|]. destruct (Nat.eqb (bands i) 0); [repeat split; discriminate|].
    destruct (value_type_of (type i)) as [u|]; repeat split; try discriminate; auto.
    + intros t l. unfold read_values. unfold assert, failed_assertion. destruct (SFeqb _ _), (mask_of i); congruence.
    + intros t [= ->]. left. unfold read_values, assert, failed_assertion. destruct (SFeqb _ _), (mask_of i); eauto.
Qed.
Print Assumptions C81_type.

(** The feature of a file has the one attribute, and the value that is read for it. *)
Theorem C81_feature (debug : bool) (stands_for : num -> spec_float -> bool) (fs : images) (d : dataset) (p : path)
    (l : list (text * attribute)) :
  read_feature debug stands_for fs d p = Done l <->
  p = [stem (name d)] /\ exists a, l = [(stem (name d), a)] /\
    read_attribute debug stands_for fs d [stem (name d); stem (name d)] = Done a.
Proof.
  unfold read_feature, contains_feature, same_path. destruct (list_eq_dec (list_eq_dec ascii_dec) p [stem (name d)]) as [->|N].
  - cbn [app]. unfold contains_attribute at 1. rewrite same_path_refl, assert_if by auto.
    destruct (read_attribute _ _ _ _ _); cbn [bind]; split; try discriminate; try (intros (_ & x & _ & H); discriminate).
    + intros [= <-]. eauto.
    + intros (_ & x & -> & [= ->]). reflexivity.
  - split; [discriminate|intros [E _]; contradiction].
Qed.
Print Assumptions C81_feature.

(** ** What goes wrong *)

Local Definition d1 (n : Z) : spec_float := binary_normalize 53 1024 n 0 false.
Local Definition two (v : Z) (m : list bool) : field := Field 1 2 [NInt U8 v; NInt U8 (v + 1)] m.
Local Definition where_ (w : Z) : box := Box (d1 w) (d1 0) (d1 (w + 2)) (d1 1).
Local Definition name1 : text := lit "/data/dem.tif".
Local Definition there (i : image) : images := fun n => if same_text n name1 then Some i else None.
Local Definition old (m : masking) : image :=
  Image 1 GByte 2 3 None [NInt U8 1; NInt U8 2; NInt U8 3; NInt U8 4; NInt U8 5; NInt U8 6] m.
Local Definition same_number (n : num) (v : spec_float) : bool := false.
Local Definition kept (t : vty) (n : num) : num := n.
Local Definition name_path : path := [lit "dem"; lit "dem"].

Local Definition update (i : image) (t : vty) (b : box) (f : field) : outcome attribute :=
  match open (there i) name1 Update with
  | (fs, Done d) =>
      match write_attribute false kept 0 true fs d (Fields t [(b, f)]) name_path with
      | (fs, _) => match open fs name1 Read with (fs, Done r) => read_attribute false same_number fs r name_path | _ => Thrown end
      end
  | _ => Thrown
  end.
Local Definition overwrite (b : box) (f : field) : outcome attribute :=
  match open (fun _ => None) name1 Overwrite with
  | (fs, Done d) =>
      match write_attribute false kept 0 true fs d (Fields (VInt U8) [(b, f)]) name_path with
      | (fs, Done _) => match open fs name1 Read with (fs, Done r) => read_attribute false same_number fs r name_path | _ => Thrown end
      | _ => Thrown
      end
  | _ => Thrown
  end.

(** - A field without masked cells is written to a file of its sizes in which a cell is masked: the
      cell is masked when it is read back.
    - A field of one row and two columns is written to a file of two rows and three columns: what is
      read back has cells of both.
    - Release builds write fields whose cells are not squares; the south that is read back is not
      the one that was written.
    - One column from 0.2 to 0.9 is read back as one from 0.2 to less than 0.9.
    - A field that is too large is not written, but the file is moved. *)
Theorem C81_refuted :
  (exists i f, mask_of i = Bytes [255; 0] /\ masked f = [false; false] /\
     exists b f', update i (VInt U8) (where_ 0) f = Done (Fields (VInt U8) [(b, f')]) /\ masked f' = [false; true]) /\
  (exists b, update (old AllValid) (VInt U8) (where_ 0) (two 7 [false; false]) = Done (Fields (VInt U8) [(b, 
     Field 2 3 [NInt U8 7; NInt U8 8; NInt U8 3; NInt U8 4; NInt U8 5; NInt U8 6] (repeat false 6))])) /\
  (exists b f b' f', south b = d1 0 /\ overwrite b f = Done (Fields (VInt U8) [(b', f')]) /\ south b' = d1 4) /\
  (exists b f b' f', overwrite b f = Done (Fields (VInt U8) [(b', f')]) /\
     east b = S754_finite false 8106479329266893 (-53) /\ east b' = S754_finite false 8106479329266892 (-53)) /\
  (exists b f, update (old AllValid) (VInt U8) (where_ 5) (Field 3 1 [NInt U8 1; NInt U8 1; NInt U8 1] [false; false; false]) =
     Done (Fields (VInt U8) [(b, f)]) /\ west b = d1 5 /\ values f = pixels (old AllValid)).
Proof.
  split; [|split; [|split; [|split]]].
  - exists (Image 1 GByte 1 2 None [NInt U8 1; NInt U8 2] (Bytes [255; 0])), (two 7 [false; false]).
    split; [reflexivity|split; [reflexivity|]]. do 2 eexists. split; vm_compute; reflexivity.
  - eexists. vm_compute. reflexivity.
  - exists (Box (d1 0) (d1 0) (d1 2) (d1 5)), (two 7 [false; false]). do 2 eexists. split; [reflexivity|]. split; vm_compute; reflexivity.
  - exists (Box (S754_finite false 7205759403792794 (-55)) (d1 0) (S754_finite false 8106479329266893 (-53)) (d1 1)), (Field 1 1 [NInt U8 1] [false]).
    do 2 eexists. split; [vm_compute; reflexivity|split; reflexivity].
  - do 2 eexists. split; [vm_compute; reflexivity|split; vm_compute; reflexivity].
Qed.
Print Assumptions C81_refuted.

(** ** Cases *)

Example C81_written_case : proper (VInt U8) (two 7 [true; false]) /\ square (where_ 5) (two 7 [true; false]) /\
  (exists b, overwrite (where_ 5) (two 7 [true; false]) = Done (Fields (VInt U8) [(b, two 7 [true; false])])) /\
  stem name1 = lit "dem".
Proof.
  split; [|split; [|split]].
  - repeat split; cbn; auto. intros n [<-|[<-|[]]]; reflexivity.
  - split; vm_compute; reflexivity.
  - eexists. vm_compute. reflexivity.
  - reflexivity.
Qed.
Example C81_exact_case : regular (where_ 5) (two 7 [true; false]) /\ regular (Box (d1 (-3)) (d1 2) (d1 9) (d1 8)) (two 7 [true; false]).
Proof.
  split; repeat split; try reflexivity.
  - exists (d1 1), (d1 2), (d1 1). repeat split; vm_compute; reflexivity.
  - exists (d1 6), (d1 12), (d1 6). repeat split; vm_compute; reflexivity.
Qed.
Example C81_updated_case :
  there (old (Bytes [255; 0; 255; 0; 255; 0])) name1 = Some (old (Bytes [255; 0; 255; 0; 255; 0])) /\
  proper_image (VInt U8) (old (Bytes [255; 0; 255; 0; 255; 0])) /\
  (rows (two 7 [true; false]) <= height (old AllValid))%nat /\ (cols (two 7 [true; false]) <= width (old AllValid))%nat /\
  exists b, update (old (Bytes [255; 0; 255; 0; 255; 0])) (VInt U8) (where_ 5) (two 7 [true; false]) = Done (Fields (VInt U8) [(b,
    Field 2 3 [NInt U8 7; NInt U8 8; NInt U8 3; NInt U8 4; NInt U8 5; NInt U8 6] [true; false; false; true; false; true])]).
Proof.
  split; [reflexivity|]. split.
  { repeat split; try reflexivity; cbn; try discriminate. intros m [= <-]. reflexivity. }
  cbn. split; [lia|split; [lia|]]. eexists. vm_compute. reflexivity.
Qed.
Example C81_name_case : (exists d, lit "/data/" = d ++ ["/"%char]) /\ stem (lit "/data/a.b.tif") = lit "a.b" /\ stem (lit "/data/.tif") = lit ".tif".
Proof. repeat split; try reflexivity. exists (lit "/data"). reflexivity. Qed.
Example C81_where_case : opened (Dataset name1 Update true) = true /\ [lit "dem"; lit "slope"] <> [stem name1; stem name1] /\
  read_feature true same_number (there (old AllValid)) (Dataset name1 Update true) [lit "dem"] =
  Done [(lit "dem", Fields (VInt U8) [(Box (d1 0) (d1 (-2)) (d1 3) (S754_zero false), Field 2 3 (pixels (old AllValid)) (repeat false 6))])] /\
  expression_type true (there (old AllValid)) (Dataset name1 Update true) name_path = Done (Some (VInt U8)).
Proof. split; [reflexivity|split; [vm_compute; congruence|split; vm_compute; reflexivity]]. Qed.
