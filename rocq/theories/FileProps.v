(** * Property C76: files of rasters *)
From Coq Require Import String ZArith List Bool SpecFloat Ascii Lia.
From Verif Require Import IntsModel ArithSpec ArithModel FloatModel IeeeSpec FloatSpec FloatProofs FloatProps StringModel StringSpec StringProofs StringProps.
From Verif Require Import RasterModel RasterSpec RasterProofs RasterCells RasterProps FileModel FileSpec.
Import ListNotations.
Open Scope Z_scope.

Lemma nth_map_some (l : list num) i x : nth_error (map Some l) i = Some x -> exists n, x = Some n /\ nth_error l i = Some n.
Proof. revert i. induction l as [|a l IH]; intros [|i] H; cbn in *; try discriminate; eauto. inversion H. eauto. Qed.
Lemma map_seq_nth {A B} (f : A -> B) (g : nat -> B) l : (forall i a, nth_error l i = Some a -> g i = f a) -> map g (seq 0 (length l)) = map f l.
Proof.
  intros H. assert (G : forall k, (forall i a, nth_error l i = Some a -> g (k + i)%nat = f a) -> map g (seq k (length l)) = map f l).
  { clear H. induction l as [|a l IH]; intros k H; cbn; auto. f_equal.
    - rewrite <- (H 0%nat a eq_refl). f_equal. lia.
    - apply IH. intros i b E. rewrite <- (H (S i) b E). f_equal. lia. }
  apply (G 0%nat). auto.
Qed.

Lemma read_loop debug h dst rd cs nd m : nth_error h dst = Some rd -> data rd = Some (map Some cs) ->
  no_data_value (value_type rd) = Some nd -> length cs = (rows rd * cols rd)%nat ->
  loop (read_cell debug dst m) (indices (rows rd) (cols rd)) h =
  Done (replace h dst (with_data rd (map (fun n => Some (if equal_cells n m then nd else n)) cs))).
Proof.
  intros Hd Hl Hn Len. rewrite indices_seq, <- Len. replace (length cs) with (length (map (@Some num) cs)) by apply map_length.
  rewrite (loop_all h dst rd (map Some cs) nd Hd Hl Hn _ (fun i => match nth_error cs i with Some n => Some (if equal_cells n m then nd else n) | None => None end)).
  - rewrite map_length. replace (forallb _ _) with true.
    + f_equal. unfold upd. f_equal. f_equal. apply map_seq_nth. intros i a ->. reflexivity.
    + symmetry. apply forallb_forall. intros i Hi. apply in_seq in Hi. destruct (nth_error cs i) eqn:E; auto. apply nth_error_None in E. lia.
  - rewrite map_length. intros i l Hi L E. destruct (nth_error (map Some cs) i) as [x|] eqn:Ex.
    2:{ apply nth_error_None in Ex. rewrite map_length in Ex. lia. }
    apply nth_map_some in Ex as (n & -> & En). rewrite En. unfold read_cell. rewrite (get_dst debug h dst rd Hd l i n) by auto. cbn [bind].
    destruct (equal_cells n m).
    + apply mark_dst; auto. lia.
    + rewrite replace_id by auto. reflexivity.
Qed.

(** ** Reading *)
Definition kept_cells (f : file) (m nd : num) : list (option num) :=
  map (fun n => Some (match no_data f with Some _ => if equal_cells n m then nd else n | None => n end)) (cells f).
Lemma file_type_of g t : value_type_of g = Some t -> file_type t /\ t <> VBool /\ exists nd, no_data_value t = Some nd.
Proof. destruct g; cbn; intros Q; inversion Q; subst; (split; [cbn; auto 10|split; [discriminate|eexists; reflexivity]]). Qed.
Lemma replace_last {A} (l : list A) x y : replace (l ++ [x]) (length l) y = l ++ [y].
Proof. rewrite replace_middle; auto. Qed.

Lemma read_file debug unset convert h fs name database path f g t nd :
  fs name = Some f -> value_type_of (band_type f) = Some t -> data_name name = Some (database, path) ->
  fs database = Some g -> sound g t -> y_size g = y_size f -> x_size g = x_size f -> no_data_value t = Some nd ->
  read_raster debug unset convert h fs name =
  match static_cast t (NFloat Double (match no_data g with Some d => d | None => unset end)) with
  | None => Undefined
  | Some m => Done (h ++ [Raster t (y_size f) (x_size f) (g0 (transform f), g3 (transform f)) (g1 (transform f), g5 (transform f)) (Some (kept_cells g m nd))],
                    Some (length h))
  end.
Proof.
  intros Ff Tf Dn Fg (Tg & Lg & Cg & _) Sy Sx ND. unfold read_raster. rewrite Ff, Tf, Dn. unfold read. rewrite Fg.
  unfold deref. rewrite nth_error_app2, Nat.sub_diag by lia. cbn [nth_error bind rows cols origin cell_sizes].
  rewrite !assert_true.
  2:{ left. rewrite Tg. apply same_type_refl. }
  2:{ left. rewrite Sy, Sx, !Nat.eqb_refl. reflexivity. }
  rewrite Sy, Sx, Nat.leb_refl, Nat.sub_diag. cbn [repeat]. rewrite app_nil_r, replace_last.
  assert (B : map (fun n => Some (buffered convert t n)) (cells g) = map Some (cells g)).
  { apply map_ext_in. intros n Hn. destruct (Cg n Hn) as [T _]. unfold buffered. rewrite T, same_type_refl. reflexivity. }
  rewrite B. destruct (static_cast t _) as [m|]; [|reflexivity].
  unfold kept_cells. destruct (no_data g).
  - set (rd := Raster t (y_size f) (x_size f) (g0 (transform f), g3 (transform f)) (g1 (transform f), g5 (transform f)) (Some (map Some (cells g)))).
    change (indices (y_size f) (x_size f)) with (indices (rows rd) (cols rd)).
    rewrite (read_loop debug (h ++ [rd]) (length h) rd (cells g) nd m); auto.
    + cbn [bind]. rewrite replace_last. reflexivity.
    + rewrite nth_error_app2, Nat.sub_diag by lia. reflexivity.
    + cbn. lia.
  - cbn [bind]. do 5 f_equal.
Qed.

Lemma plain_name name : plain name -> data_name name = Some (name, slash).
Proof.
  intros [N C]. apply C53_data_name. exists [], []. split; [split; auto|]. split; auto. split; [intros c []|].
  split; [constructor; intros c []|reflexivity].
Qed.

Lemma equal_cells_equals n m : argument n -> argument m -> vty_of n = vty_of m -> equal_cells n m = true <-> equals n m.
Proof.
  intros An Am T. destruct n as [t z|f x], m as [t' y|f' y]; try (destruct f; discriminate T); try (destruct f'; discriminate T); cbn [equal_cells equals].
  - apply Z.eqb_eq.
  - assert (f' = f) by (destruct f, f'; auto; discriminate T). subst f'. cbn [argument] in *.
    destruct (is_nan x) eqn:Nx; [destruct x; try discriminate; split; [destruct y; discriminate|intros [Q _]; discriminate]|].
    destruct (is_nan y) eqn:Ny; [destruct y; try discriminate; split; [destruct x as [| | |]; cbn; discriminate|intros (_ & Q & _); discriminate]|].
    pose proof (C63_equal f x y An Am Nx Ny) as E. unfold fequal in E. rewrite E. tauto.
Qed.

Lemma kept_cells_stored f m nd t r : sound f t -> no_data_value t = Some nd -> value_type r = t -> size r = (y_size f * x_size f)%nat ->
  data r = Some (kept_cells f m nd) -> vty_of m = t -> argument m ->
  storable r /\ forall i n, nth_error (cells f) i = Some n ->
    understood (match no_data f with Some _ => Some m | None => None end) n (reading r i).
Proof.
  intros (Tf & Lf & Cf & _) ND Tr Sr D Tm Am. destruct (file_type_of _ _ Tf) as (FT & _). destruct (no_data_type _ _ ND) as [Tn An].
  assert (NK := kept_no_data _ _ ND). split.
  - split; [rewrite Tr; auto|]. exists (map (fun n => match no_data f with Some _ => if equal_cells n m then nd else n | None => n end) (cells f)).
    rewrite map_map, map_length. split; auto. split; [lia|]. intros n Hn. apply in_map_iff in Hn as (k & <- & Hk). destruct (Cf k Hk) as [Tk Ak].
    rewrite Tr. destruct (no_data f); auto. destruct (equal_cells k m); auto.
  - intros i n E. assert (In n (cells f)) by (eapply nth_error_In; eauto). destruct (Cf n H) as [Ty An'].
    unfold reading. rewrite D. unfold kept_cells. rewrite (map_nth_error _ _ _ E).
    unfold understood. destruct (no_data f).
    + destruct (equal_cells n m) eqn:Q.
      * left. exists m. split; auto. split; auto. apply equal_cells_equals; auto. congruence.
      * right. split; auto. intros k [= <-] C. apply equal_cells_equals in C; auto; congruence.
    + right. split; auto. discriminate.
Qed.

(** What is read from a file, and when that is undefined: the no-data value - if the file has none,
    what GDAL returns instead - is converted to the type of the cells. *)
Theorem C76_read debug unset convert h fs name f t :
  plain name -> fs name = Some f -> sound f t -> argument (NFloat Double unset) ->
  let d := NFloat Double (match no_data f with Some d => d | None => unset end) in
  (inconvertible t d -> read_raster debug unset convert h fs name = Undefined) /\
  (~ inconvertible t d -> exists m r, converts t d m /\
     read_raster debug unset convert h fs name = Done (h ++ [r], Some (length h)) /\ storable r /\
     value_type r = t /\ rows r = y_size f /\ cols r = x_size f /\
     origin r = (g0 (transform f), g3 (transform f)) /\ cell_sizes r = (g1 (transform f), g5 (transform f)) /\
     forall i n, nth_error (cells f) i = Some n -> understood (match no_data f with Some _ => Some m | None => None end) n (reading r i)).
Proof.
  intros P F S U d. assert (S' := S). destruct S' as (Tf & Lf & Cf & Df). destruct (file_type_of _ _ Tf) as (FT & NB & nd & ND).
  rewrite (read_file debug unset convert h fs name name slash f f t nd) by (auto using plain_name). fold d.
  assert (Ad : argument d). { unfold d. destruct (no_data f) eqn:E; auto. } split.
  - intros I. rewrite static_cast_none; auto.
  - intros I. destruct (static_cast_defined t d NB Ad I) as (m & -> & C). exists m. eexists. split; auto. split; [reflexivity|].
    destruct (converts_type _ _ _ C) as [Tm Am].
    destruct (kept_cells_stored f m nd t (Raster t (y_size f) (x_size f) (g0 (transform f), g3 (transform f)) (g1 (transform f), g5 (transform f)) (Some (kept_cells f m nd)))) as [A B]; auto.
    repeat split; auto; apply A.
Qed.
Print Assumptions C76_read.

(** A name with a colon: the sizes, type and place are those of the file of that name, the cells are
    those of the file whose name ends before the first colon. *)
Theorem C76_colon debug unset convert h fs database rest f t :
  let name := database ++ ":"%char :: rest in
  plain database -> (forall c, In c rest -> c <> ascii_of_nat 10 /\ c <> ascii_of_nat 13) ->
  fs name = Some f -> value_type_of (band_type f) = Some t ->
  (fs database = None -> read_raster debug unset convert h fs name = Thrown) /\
  (forall g, fs database = Some g ->
     (y_size g <> y_size f \/ x_size g <> x_size f \/ value_type_of (band_type g) <> Some t ->
        debug = true -> read_raster debug unset convert h fs name = Aborted) /\
     (y_size g = y_size f -> x_size g = x_size f -> sound g t -> argument (NFloat Double unset) ->
      let d := NFloat Double (match no_data g with Some d => d | None => unset end) in
      ~ inconvertible t d -> exists m r, converts t d m /\
        read_raster debug unset convert h fs name = Done (h ++ [r], Some (length h)) /\ storable r /\
        value_type r = t /\ rows r = y_size f /\ cols r = x_size f /\
        origin r = (g0 (transform f), g3 (transform f)) /\ cell_sizes r = (g1 (transform f), g5 (transform f)) /\
        forall i n, nth_error (cells g) i = Some n -> understood (match no_data g with Some _ => Some m | None => None end) n (reading r i))).
Proof.
  intros name [N C] L F T. destruct (file_type_of _ _ T) as (FT & NB & nd & ND).
  assert (Dn : exists path, data_name name = Some (database, path)).
  { eexists. apply C53_data_name. exists rest. eexists. split; [split; [exact C|right; reflexivity]|]. split; auto. split; auto.
    split; [|reflexivity]. eapply separated_iff; [apply slash_separators|]. apply split_spec. reflexivity. }
  destruct Dn as [path Dn]. split; [|intros g G; split].
  - intros E. unfold read_raster. rewrite F, T, Dn. unfold read. rewrite E. reflexivity.
  - intros Q D. unfold read_raster. rewrite F, T, Dn. unfold read. rewrite G.
    unfold deref. rewrite nth_error_app2, Nat.sub_diag by lia. cbn [nth_error bind rows cols origin cell_sizes].
    unfold assert, failed_assertion. rewrite D. destruct (Nat.eqb_spec (y_size f) (y_size g)); [|reflexivity].
    destruct (Nat.eqb_spec (x_size f) (x_size g)); [|reflexivity]. cbn [andb].
    destruct (value_type_of (band_type g)) as [t'|]; [|reflexivity]. destruct (same_type t' t) eqn:Et; [|reflexivity].
    apply same_type_eq in Et. subst t'. destruct Q as [Q|[Q|Q]]; congruence.
  - intros Sy Sx S U d I. assert (S' := S). destruct S' as (Tf & Lf & Cf & Df).
    rewrite (read_file debug unset convert h fs name database path f g t nd) by auto. fold d.
    assert (Ad : argument d). { unfold d. destruct (no_data g) eqn:E; auto. }
    destruct (static_cast_defined t d NB Ad I) as (m & -> & Cv). exists m. eexists. split; auto. split; [reflexivity|].
    destruct (converts_type _ _ _ Cv) as [Tm Am].
    destruct (kept_cells_stored g m nd t (Raster t (y_size f) (x_size f) (g0 (transform f), g3 (transform f)) (g1 (transform f), g5 (transform f)) (Some (kept_cells g m nd)))) as [A B]; auto.
    { unfold size. cbn. congruence. }
    repeat split; auto; apply A.
Qed.
Print Assumptions C76_colon.

(** Files that cannot be opened, and types of cells that are not supported *)
Theorem C76_unreadable (debug : bool) unset convert h fs name :
  (fs name = None -> read_raster debug unset convert h fs name = Thrown) /\
  (forall f, fs name = Some f -> band_type f = GOther ->
     read_raster debug unset convert h fs name = if debug then Aborted else Done (h, None)).
Proof. unfold read_raster. split; [intros ->; reflexivity|]. intros f -> ->. reflexivity. Qed.
Print Assumptions C76_unreadable.

(** ** Writing *)
Lemma no_data_returns t nd : file_type t -> no_data_value t = Some nd ->
  static_cast t (NFloat Double (to_format Double nd)) = Some nd /\ argument (NFloat Double (to_format Double nd)).
Proof.
  intros FT. cbn in FT. destruct FT as [<-|[<-|[<-|[<-|[<-|[<-|[<-|[]]]]]]]]; cbn [no_data_value signed]; intros [= <-]; split; vm_compute; auto; repeat split; auto; discriminate.
Qed.
Lemma equal_finite x s m e : SFeqb x (S754_finite s m e) = true -> x = S754_finite s m e.
Proof.
  unfold SFeqb. destruct x as [[]|[]| |s' m' e']; cbn [SFcompare]; try (destruct s; discriminate).
  destruct s', s; try discriminate; destruct (Z.compare_spec e' e); cbn [CompOpp]; try discriminate; subst e'.
  - fold (Pos.compare m' m). destruct (Pos.compare_spec m' m); cbn [CompOpp]; try discriminate. congruence.
  - fold (Pos.compare m' m). destruct (Pos.compare_spec m' m); cbn [CompOpp]; try discriminate. congruence.
Qed.
Lemma equal_no_data t nd n : no_data_value t = Some nd -> vty_of n = t -> equal_cells n nd = true -> n = nd.
Proof.
  destruct t as [|t| |]; cbn [no_data_value]; intros ND T; inversion ND; subst nd; clear ND;
    destruct n as [t' z|[] x]; inversion T; subst; cbn [equal_cells]; try discriminate.
  - intros E. apply Z.eqb_eq in E. congruence.
  - intros E. apply equal_finite in E. congruence.
  - intros E. apply equal_finite in E. congruence.
Qed.
Lemma assigned_all l : assigned (map Some l) = Some l.
Proof. induction l as [|n l IH]; cbn; auto. rewrite IH. reflexivity. Qed.
Lemma same_name_spec a b : same_name a b = true <-> a = b.
Proof. unfold same_name. destruct (list_eq_dec ascii_dec a b); split; congruence. Qed.
Lemma stored_type t : file_type t -> exists g nd, gdal_type_of t = Some g /\ value_type_of g = Some t /\ no_data_value t = Some nd.
Proof. intros FT. cbn in FT. destruct FT as [<-|[<-|[<-|[<-|[<-|[<-|[<-|[]]]]]]]]; eexists; eexists; repeat split. Qed.

(** What is written is read back, as it was: type, sizes, place and all cells, those without data
    among them.  No other file is changed. *)
Theorem C76_round_trip debug unset convert h fs a r name :
  nth_error h a = Some r -> storable r -> plain name ->
  exists fs', write_raster debug h fs a name = Done fs' /\ (forall other, other <> name -> fs' other = fs other) /\
    forall h', read_raster debug unset convert h' fs' name = Done (h' ++ [r], Some (length h')).
Proof.
  intros H (FT & l & D & Len & Cl) P. destruct (stored_type _ FT) as (g & nd & G1 & G2 & ND).
  unfold write_raster, deref. rewrite H. cbn [bind]. rewrite G1, ND. unfold typed. rewrite H, D, same_type_refl. cbn [bind]. rewrite D, assigned_all.
  eexists. split; [reflexivity|]. split.
  - intros other N. destruct (same_name other name) eqn:E; auto. apply same_name_spec in E. contradiction.
  - intros h'. assert (Hs : same_name name name = true) by (apply same_name_spec; auto).
    destruct (no_data_returns _ _ FT ND) as [SC SA].
    set (f := File g (rows r) (cols r) (Transformation (fst (origin r)) (fst (cell_sizes r)) (S754_zero false) (snd (origin r)) (S754_zero false) (snd (cell_sizes r))) (Some (to_format Double nd)) l).
    rewrite (read_file debug unset convert h' _ name name slash f f (value_type r) nd); auto using plain_name.
    + cbn [no_data f]. rewrite SC. cbn [f y_size x_size transform g0 g1 g3 g5]. do 3 f_equal. f_equal.
      unfold kept_cells. cbn [no_data cells f].
      replace (map _ l) with (map (@Some num) l).
      * destruct r as [vt nr nc [ox oy] [cx cy] dt]. cbn [fst snd value_type rows cols origin cell_sizes data] in *. congruence.
      * apply map_ext_in. intros n Hn. destruct (Cl n Hn) as [Tn _]. destruct (equal_cells n nd) eqn:E; auto.
        rewrite (equal_no_data _ _ _ ND Tn E). reflexivity.
    + cbv beta. rewrite Hs. reflexivity.
    + cbv beta. rewrite Hs. reflexivity.
    + split; [exact G2|]. split; [exact Len|]. split; [exact Cl|]. cbn [no_data f]. intros d [= <-]. exact SA.
Qed.
Print Assumptions C76_round_trip.

(** Rasters of other types (64-bit integers): debug builds abort, others do nothing and report
    nothing. *)
Theorem C76_unwritten (debug : bool) h fs a r name : nth_error h a = Some r -> ~ file_type (value_type r) ->
  write_raster debug h fs a name = if debug then Aborted else Done fs.
Proof.
  intros H N. unfold write_raster, deref. rewrite H. cbn [bind].
  destruct (gdal_type_of (value_type r)) eqn:E; [|reflexivity]. exfalso. apply N. cbn.
  destruct (value_type r) as [|[]| |]; try discriminate; auto 10.
Qed.
Print Assumptions C76_unwritten.

(** ** Examples *)
Definition no_files : files := fun _ => None.
Definition a_name := lit "earth.tif"%string.
Definition only (name : text) (f : file) : files := fun n => if same_name n name then Some f else None.
Definition zero := S754_zero false.
Definition place := Transformation zero zero zero zero zero zero.
(** -9999, -1e10 (what GDAL returns if there is no no-data value) *)
Definition minus_9999 := S754_finite true 5497008383066112 (-39).
Definition minus_1e10 := S754_finite true 5242880000000000 (-19).
Lemma minus_9999_is : value (NFloat Double minus_9999) = -9999 * one /\ value (NFloat Double minus_1e10) = - 10 ^ 10 * one.
Proof. Transparent one. vm_compute. Opaque one. auto. Qed.
Definition bytes (nd : option spec_float) (l : list Z) : file := File GByte 1 (length l) place nd (map (NInt U8) l).

Lemma a_name_plain : plain a_name.
Proof. split; [discriminate|]. cbn. intuition discriminate. Qed.
Lemma bytes_sound nd l : Forall (fits_in U8) l -> (forall d, nd = Some d -> argument (NFloat Double d)) -> sound (bytes nd l) (VInt U8).
Proof.
  intros F D. split; [reflexivity|]. split; [cbn; rewrite map_length; lia|]. split; auto.
  intros n H. apply in_map_iff in H as (z & <- & Hz). split; auto. rewrite Forall_forall in F. apply (F z Hz).
Qed.

(** Three cells of which the first has no data, written and read *)
Example C76_case : exists r, storable r /\ reading r 0 = None /\ reading r 1 = Some (NInt S16 7) /\ exists fs',
  write_raster true [r] no_files 0 a_name = Done fs' /\
  read_raster true minus_1e10 (fun _ n => n) [] fs' a_name = Done ([r], Some 0%nat).
Proof.
  exists (Raster (VInt S16) 1 3 (zero, zero) (zero, zero) (Some (map Some [NInt S16 (-32768); NInt S16 7; NInt S16 (-7)]))).
  assert (St : storable (Raster (VInt S16) 1 3 (zero, zero) (zero, zero) (Some (map Some [NInt S16 (-32768); NInt S16 7; NInt S16 (-7)])))).
  { split; [cbn; auto 10|]. eexists. split; [reflexivity|]. split; [reflexivity|].
    intros n [<-|[<-|[<-|[]]]]; (split; [reflexivity|vm_compute; split; discriminate]). }
  split; auto. split; [reflexivity|]. split; [reflexivity|].
  destruct (C76_round_trip true minus_1e10 (fun _ n => n) [_] no_files 0 _ a_name eq_refl St a_name_plain) as (fs' & W & _ & R).
  exists fs'. split; auto. apply (R []).
Qed.
(** Bytes 0, 7 and 9 in a file in which 9 means that there is no data *)
Example C76_read_case : exists r, read_raster true minus_1e10 (fun _ n => n) [] (only a_name (bytes (Some (S754_finite false 5066549580791808 (-49))) [0; 7; 9])) a_name
  = Done ([r], Some 0%nat) /\ reading r 0 = Some (NInt U8 0) /\ reading r 1 = Some (NInt U8 7) /\ reading r 2 = None.
Proof. eexists. split; [reflexivity|]. repeat split. Qed.

(** Reading a file of bytes of which the no-data value is -9999 is undefined, and so is reading a
    file of bytes without a no-data value, if GDAL returns -1e10 for it.  A no-data value that is
    NaN is not noticed.  The number 255 of a file in which another number means that there is no data
    is lost.  A file whose name has a colon is not read, but the file of the name before it. *)
Theorem C76_refuted (debug : bool) :
  (exists fs name f, plain name /\ fs name = Some f /\ sound f (VInt U8) /\ no_data f = Some minus_9999 /\
     forall unset convert h, read_raster debug unset convert h fs name = Undefined) /\
  (exists fs name f, plain name /\ fs name = Some f /\ sound f (VInt U8) /\ no_data f = None /\
     forall convert h, read_raster debug minus_1e10 convert h fs name = Undefined) /\
  (exists fs name f r, plain name /\ fs name = Some f /\ sound f VFloat32 /\ no_data f = Some S754_nan /\ cells f = [NFloat Single S754_nan] /\
     (forall unset convert, read_raster debug unset convert [] fs name = Done ([r], Some 0%nat)) /\
     reading r 0 = Some (NFloat Single S754_nan)) /\
  (exists fs name f r, plain name /\ fs name = Some f /\ sound f (VInt U8) /\ no_data f = Some zero /\ cells f = [NInt U8 255] /\
     (forall unset convert, read_raster debug unset convert [] fs name = Done ([r], Some 0%nat)) /\ reading r 0 = None) /\
  (exists fs name f r, fs name = Some f /\ sound f (VInt U8) /\ cells f = [NInt U8 1] /\
     (forall unset convert, read_raster debug unset convert [] fs name = Done ([r], Some 0%nat)) /\ reading r 0 = Some (NInt U8 2)).
Proof.
  assert (A9 : argument (NFloat Double minus_9999)) by (vm_compute; auto).
  assert (F1 : forall z, 0 <= z <= 255 -> Forall (fits_in U8) [z]) by (intros z Hz; constructor; auto; unfold fits_in, imin, imax; cbn; lia).
  split; [|split; [|split; [|split]]].
  - exists (only a_name (bytes (Some minus_9999) [1])), a_name, (bytes (Some minus_9999) [1]).
    split; [apply a_name_plain|]. split; [reflexivity|]. split; [apply bytes_sound; [apply F1; lia|intros d [= <-]; exact A9]|]. split; [reflexivity|].
    intros unset convert h. rewrite (read_file debug unset convert h _ a_name a_name slash (bytes (Some minus_9999) [1]) (bytes (Some minus_9999) [1]) (VInt U8) (NInt U8 255)); auto.
    apply bytes_sound; [apply F1; lia|intros d [= <-]; exact A9].
  - exists (only a_name (bytes None [1])), a_name, (bytes None [1]).
    assert (S1 : sound (bytes None [1]) (VInt U8)) by (apply bytes_sound; [apply F1; lia|discriminate]).
    split; [apply a_name_plain|]. split; [reflexivity|]. split; [exact S1|]. split; [reflexivity|].
    intros convert h. rewrite (read_file debug minus_1e10 convert h _ a_name a_name slash (bytes None [1]) (bytes None [1]) (VInt U8) (NInt U8 255)); auto.
  - set (f := File GFloat32 1 1 place (Some S754_nan) [NFloat Single S754_nan]).
    exists (only a_name f), a_name, f. exists (Raster (VFloat32) 1 1 (zero, zero) (zero, zero) (Some [Some (NFloat Single S754_nan)])). split; [apply a_name_plain|]. split; [reflexivity|]. split.
    { split; [reflexivity|]. split; [reflexivity|]. split; [intros n [<-|[]]; split; [reflexivity|vm_compute; auto]|intros d [= <-]; vm_compute; auto]. }
    split; [reflexivity|]. split; [reflexivity|]. split; [intros unset convert; destruct debug; reflexivity|reflexivity].
  - set (f := bytes (Some zero) [255]). exists (only a_name f), a_name, f. exists (Raster (VInt U8) 1 1 (zero, zero) (zero, zero) (Some [Some (NInt U8 255)])). split; [apply a_name_plain|]. split; [reflexivity|].
    split; [apply bytes_sound; [apply F1; lia|intros d [= <-]; vm_compute; auto]|]. split; [reflexivity|]. split; [reflexivity|].
    split; [intros unset convert; destruct debug; reflexivity|reflexivity].
  - set (f := bytes (Some zero) [1]).
    exists (fun n => if same_name n (lit "a:b"%string) then Some f else if same_name n (lit "a"%string) then Some (bytes (Some zero) [2]) else None), (lit "a:b"%string), f.
    exists (Raster (VInt U8) 1 1 (zero, zero) (zero, zero) (Some [Some (NInt U8 2)])). split; [reflexivity|]. split; [apply bytes_sound; [apply F1; lia|intros d [= <-]; vm_compute; auto]|]. split; [reflexivity|].
    split; [intros unset convert; destruct debug; reflexivity|reflexivity].
Qed.
Print Assumptions C76_refuted.

(** Every part of the hypotheses of [C76_colon] is met by the last of these cases. *)
Example C76_colon_case : plain (lit "a"%string) /\ lit "a:b"%string = lit "a"%string ++ ":"%char :: lit "b"%string.
Proof. split; [split; [discriminate|cbn; intuition discriminate]|reflexivity]. Qed.
(** Rasters of 64-bit integers are not written. *)
Example C76_unwritten_case : write_raster false [Raster (VInt S64) 1 1 (zero, zero) (zero, zero) (Some [Some (NInt S64 7)])] no_files 0 a_name = Done no_files /\
  ~ file_type (VInt S64).
Proof. split; [reflexivity|]. cbn. intuition discriminate. Qed.
