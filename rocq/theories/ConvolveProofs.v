(** Proofs about convolution: what happens at one focus cell. *)
From Coq Require Import ZArith List Bool Lia.
From Verif Require Import LangModel LangProofs ConcModel IndexModel IndexSpec IndexProofs
  LoopModel LoopSpec LoopProofs PolicyModel LocalSpec LocalProofs FrozenProofs CoreModel
  CoreSpec CoreProofs MoveProofs CopySpec CopyProofs CompressProofs ConvolveModel ConvolveSpec.
Import ListNotations.
Open Scope Z_scope.

(** ** Lists of cells *)

Definition product {A B} (l : list A) (l' : list B) : list (A * B) :=
  flat_map (fun i => map (fun j => (i, j)) l') l.

Lemma filter_app {A} (p : A -> bool) l l' : filter p (l ++ l') = filter p l ++ filter p l'.
Proof. induction l as [|x l IH]; cbn; auto. destruct (p x); cbn; rewrite IH; auto. Qed.

Lemma filter_product {A B} (p : A -> bool) (q : B -> bool) l l' :
  filter (fun d => p (fst d) && q (snd d)) (product l l') = product (filter p l) (filter q l').
Proof.
  unfold product. induction l as [|x l IH]; cbn; auto.
  rewrite filter_app, IH.
  assert (E : filter (fun d => p (fst d) && q (snd d)) (map (fun j => (x, j)) l') =
              if p x then map (fun j => (x, j)) (filter q l') else []).
  { clear IH. induction l' as [|y l' IH']; cbn; [destruct (p x); auto|].
    rewrite IH'. destruct (p x); cbn; [destruct (q y); cbn; auto|auto]. }
  rewrite E. destruct (p x); cbn; auto.
Qed.

Lemma filter_interval lo hi a b :
  filter (fun x => (lo <=? x) && (x <? hi)) (zrange a b) = zrange (Z.max a lo) (Z.min b hi).
Proof.
  destruct (Z_le_dec b a) as [Hba|Hba].
  { rewrite (zrange_nil a b) by auto. rewrite zrange_nil by lia. auto. }
  remember (Z.to_nat (b - a)) as n eqn:En. revert a Hba En.
  induction n as [|n IH]; intros a Hab En; [lia|].
  rewrite (zrange_cons a b) by lia. cbn [filter].
  assert (IH' : filter (fun x => (lo <=? x) && (x <? hi)) (zrange (a + 1) b) =
                zrange (Z.max (a + 1) lo) (Z.min b hi)).
  { destruct (Z_le_dec b (a + 1)).
    - rewrite (zrange_nil (a + 1) b) by auto. rewrite zrange_nil by lia. auto.
    - apply IH; lia. }
  rewrite IH'. destruct (Z.leb_spec lo a), (Z.ltb_spec a hi); cbn [andb].
  - rewrite (zrange_cons (Z.max a lo)) by lia. f_equal; [lia|]. f_equal; lia.
  - rewrite !zrange_nil by lia. auto.
  - f_equal; lia.
  - rewrite !zrange_nil by lia. auto.
Qed.

Lemma fold_product {A B S} (f : S -> A * B -> S) l l' : forall s,
  fold_left (fun s i => fold_left (fun s j => f s (i, j)) l' s) l s = fold_left f (product l l') s.
Proof.
  unfold product. induction l as [|x l IH]; intros s; cbn; auto.
  rewrite fold_left_app, IH. f_equal. clear. revert s. induction l' as [|y l' IH]; intros s; cbn; auto.
Qed.

Lemma fold_flat_map {A B S} (h : S -> B -> S) (g : A -> list B) l : forall s,
  fold_left (fun s x => fold_left h (g x) s) l s = fold_left h (flat_map g l) s.
Proof. induction l as [|x l IH]; intros s; cbn; auto. rewrite fold_left_app; auto. Qed.

Lemma fold_map {A B S} (f : S -> B -> S) (g : A -> B) l : forall s,
  fold_left f (map g l) s = fold_left (fun s x => f s (g x)) l s.
Proof. induction l as [|x l IH]; intros s; cbn; auto. Qed.

Lemma fold_ext {A S} (f g : S -> A -> S) l : (forall x s, In x l -> f s x = g s x) ->
  forall s, fold_left f l s = fold_left g l s.
Proof.
  induction l as [|x l IH]; intros H s; cbn; auto. rewrite H by (left; auto).
  apply IH. intros; apply H; right; auto.
Qed.

Lemma flat_map_filter {A B} (p : A -> bool) (g : A -> list B) l :
  flat_map g (filter p l) = flat_map (fun x => if p x then g x else []) l.
Proof. induction l as [|x l IH]; cbn; auto. destruct (p x); cbn; rewrite IH; auto. Qed.

Lemma flat_map_ext_in {A B} (f g : A -> list B) l : (forall x, In x l -> f x = g x) ->
  flat_map f l = flat_map g l.
Proof.
  induction l as [|x l IH]; intros H; cbn; auto.
  rewrite H by (left; auto). f_equal. apply IH. intros; apply H; right; auto.
Qed.

Lemma flat_map_map {A B D} (f : B -> list D) (g : A -> B) l :
  flat_map f (map g l) = flat_map (fun x => f (g x)) l.
Proof. induction l as [|x l IH]; cbn; auto. rewrite IH; auto. Qed.

Lemma product_shift d e a b a' b' :
  product (zrange (a + d) (b + d)) (zrange (a' + e) (b' + e)) =
  map (fun c => (fst c + d, snd c + e)) (product (zrange a b) (zrange a' b')).
Proof.
  unfold product. rewrite !zrange_shift. induction (zrange a b) as [|x l IH]; cbn; auto.
  rewrite map_app, IH. f_equal. rewrite !map_map. reflexivity.
Qed.

Lemma in_product {A B} (x : A) (y : B) l l' : In (x, y) (product l l') <-> In x l /\ In y l'.
Proof.
  unfold product. rewrite in_flat_map. split.
  - intros (i & Hi & H). apply in_map_iff in H as (j & E & Hj). inversion E; subst; auto.
  - intros [H1 H2]. exists x. split; auto. apply in_map_iff; eauto.
Qed.

(** ** Loops that only read *)

Section Read.
Context {V : Type}.
Variables (C : loc -> bool) (m : mem V).

Lemma flat_map_nil {A B} (l : list A) : flat_map (fun _ => @nil B) l = [].
Proof. induction l; auto. Qed.

Lemma does_pure {A} b e (body : Z -> A -> prog V A) (f : Z -> A -> A) a0 :
  (forall j a, b <= j < e -> does C m (body j a) [] (f j a)) ->
  does C m (fold_range b e body a0) [] (fold_left (fun a j => f j a) (zrange b e) a0).
Proof.
  intros H. destruct (Z_le_dec b e).
  - rewrite <- (flat_map_nil (B := wr V) (zrange b e)).
    set (s := fun j => fold_left (fun a j => f j a) (zrange b j) a0).
    replace a0 with (s b) at 1.
    2: { unfold s. rewrite zrange_nil by lia. auto. }
    apply (does_fold_range C m b e body s (fun _ => [])); auto.
    intros j Hj. unfold s. rewrite zrange_snoc by lia. rewrite fold_left_app. cbn. apply H; auto.
  - rewrite zrange_nil by lia. rewrite fold_range_empty by lia. split; auto.
Qed.

(** One running index. *)
Lemma does_row1 {A} b e (body : Z -> A * Z -> prog V (A * Z)) (f : Z -> A -> A) a0 i0 :
  (forall j a, b <= j < e -> does C m (body j (a, i0 + (j - b))) [] (f j a, i0 + (j - b) + 1)) ->
  does C m (bind (fold_range b e body (a0, i0)) (fun x => Ret (fst x))) []
    (fold_left (fun a j => f j a) (zrange b e) a0).
Proof.
  intros H. cut (exists i1, does C m (fold_range b e body (a0, i0)) []
    (fold_left (fun a j => f j a) (zrange b e) a0, i1)).
  { intros [i1 Hd]. eapply does_bind0; [exact Hd|]. split; auto. }
  destruct (Z_le_dec b e).
  - rewrite <- (flat_map_nil (B := wr V) (zrange b e)).
    set (s := fun j => (fold_left (fun a j => f j a) (zrange b j) a0, i0 + (j - b))).
    replace (a0, i0) with (s b).
    2: { unfold s. rewrite zrange_nil by lia. cbn. f_equal; lia. }
    exists (i0 + (e - b)).
    apply (does_fold_range C m b e body s (fun _ => [])); auto.
    intros j Hj. unfold s. rewrite zrange_snoc by lia. rewrite fold_left_app. cbn.
    replace (i0 + (j + 1 - b)) with (i0 + (j - b) + 1) by lia. apply H; auto.
  - exists i0. rewrite zrange_nil by lia. rewrite fold_range_empty by lia. split; auto.
Qed.

(** Two running indices. *)
Lemma does_row2 {A} e (body : Z -> A * Z * Z -> prog V (A * Z * Z)) (f : Z -> A -> A) a0 i0 k0 :
  (forall j a, 0 <= j < e -> does C m (body j (a, i0 + j, k0 + j)) [] (f j a, i0 + j + 1, k0 + j + 1)) ->
  does C m (bind (fold_range 0 e body (a0, i0, k0)) (fun x => Ret (fst (fst x)))) []
    (fold_left (fun a j => f j a) (zrange 0 e) a0).
Proof.
  intros H. cut (exists i1 k1, does C m (fold_range 0 e body (a0, i0, k0)) []
    (fold_left (fun a j => f j a) (zrange 0 e) a0, i1, k1)).
  { intros (i1 & k1 & Hd). eapply does_bind0; [exact Hd|]. split; auto. }
  destruct (Z_le_dec 0 e).
  - rewrite <- (flat_map_nil (B := wr V) (zrange 0 e)).
    set (s := fun j => (fold_left (fun a j => f j a) (zrange 0 j) a0, i0 + j, k0 + j)).
    replace (a0, i0, k0) with (s 0).
    2: { unfold s. rewrite zrange_nil by lia. cbn. f_equal; [f_equal|]; lia. }
    exists (i0 + e), (k0 + e).
    apply (does_fold_range C m 0 e body s (fun _ => [])); auto.
    intros j Hj. unfold s. rewrite zrange_snoc by lia. rewrite fold_left_app. cbn.
    replace (i0 + (j + 1)) with (i0 + j + 1) by lia.
    replace (k0 + (j + 1)) with (k0 + j + 1) by lia. apply H; auto.
  - exists i0, k0. rewrite zrange_nil by lia. rewrite fold_range_empty by lia. split; auto.
Qed.
End Read.

Section Focus.
Context {V W SV SW : Type}.
Variable ar : arith V W SV SW.
Variables (ip : inpol V) (op : outpol V) (src dst : buf) (rows cols : Z) (k : kernel W).
Variables (alt : alternative) (oi : out_of_image) (keep : bool).
Variable m : mem V.

Hypothesis Hex : forall i, 0 <= i < rows * cols -> arg_exists ip src m i.
Hypothesis Hsrc : src <> dst.
Hypothesis Hap : policy_apart ip op dst.

Notation C := (unwritten op dst).
Notation value_at := (value_at ip src cols m).
Notation in_image := (in_image rows cols).
Notation focal_average := (focal_average ar ip src rows cols m).

Lemma in_image_spec c : in_image c = true <-> (0 <= fst c < rows /\ 0 <= snd c < cols).
Proof.
  unfold ConvolveSpec.in_image. rewrite !andb_true_iff, !Z.leb_le, !Z.ltb_lt. tauto.
Qed.

Lemma index_bounds i j : 0 <= i < rows -> 0 <= j < cols -> 0 <= i * cols + j < rows * cols.
Proof. nia. Qed.

Lemma does_read i : 0 <= i < rows * cols -> nd_at ip m i = false ->
  exists v, arg_at ip src m i = Some v /\ does C m (rdv src i) [] v.
Proof.
  intros Hi Hnd. destruct (Hex i Hi) as [Hr Hv]. unfold arg_at. rewrite Hnd.
  destruct (mval m src i) as [v|] eqn:E; [|congruence]. exists v. split; auto.
  cbn. split; [|exists v; auto].
  unfold unwritten. cbn. destruct (Nat.eqb_spec src dst); [congruence|auto].
Qed.

Lemma does_no_data i : 0 <= i < rows * cols -> does C m (is_no_data ip i) [] (nd_at ip m i).
Proof. intros Hi. apply does_nd; auto. apply (Hex i Hi). Qed.

(** *** Focal averages *)

Definition rect (row last_row col last_col : Z) : list (Z * Z) :=
  product (zrange row (last_row + 1)) (zrange col (last_col + 1)).

Definition values (skip_cell : Z -> Z -> bool) (l : list (Z * Z)) : list V :=
  flat_map (fun c => if skip_cell (fst c) (snd c) then [] else listed (value_at c)) l.

Definition add_seen (s : SV * Z) (v : V) : SV * Z := (add ar (fst s) v, snd s + 1).

Lemma fold_add_seen l : forall s,
  fold_left add_seen l s = (fold_left (add ar) l (fst s), snd s + Z.of_nat (length l)).
Proof.
  induction l as [|v l IH]; intros [sum n]; cbn [fold_left length fst snd].
  - f_equal; lia.
  - rewrite IH. unfold add_seen. cbn [fst snd]. f_equal; lia.
Qed.

Lemma does_scan skip_cell row last_row col last_col :
  0 <= row -> last_row < rows -> 0 <= col -> last_col < cols ->
  does C m (scan ar ip src cols skip_cell row last_row col last_col) []
    (let l := values skip_cell (rect row last_row col last_col) in
     (fold_left (add ar) l (zero_v ar), Z.of_nat (length l))).
Proof.
  intros H1 H2 H3 H4. cbn zeta.
  set (step := fun (s : SV * Z) (c : Z * Z) =>
     fold_left add_seen (if skip_cell (fst c) (snd c) then [] else listed (value_at c)) s).
  assert (E : (fold_left (add ar) (values skip_cell (rect row last_row col last_col)) (zero_v ar),
     Z.of_nat (length (values skip_cell (rect row last_row col last_col)))) =
     fold_left (fun s i => fold_left (fun s j => step s (i, j)) (zrange col (last_col + 1)) s)
        (zrange row (last_row + 1)) (zero_v ar, 0)).
  { rewrite fold_product. unfold step.
    rewrite (fold_flat_map add_seen
       (fun c : Z * Z => if skip_cell (fst c) (snd c) then [] else listed (value_at c))).
    rewrite fold_add_seen. reflexivity. }
  rewrite E. unfold scan.
  apply does_pure with (f := fun i s => fold_left (fun s j => step s (i, j)) (zrange col (last_col + 1)) s).
  intros i [sum seen] Hi.
  apply does_row1 with (f := fun j s => step s (i, j)).
  intros j [s n] Hj. cbn beta iota.
  replace (i * cols + col + (j - col)) with (i * cols + j) by lia.
  unfold step. cbn [fst snd]. destruct (skip_cell i j).
  { split; auto. }
  eapply does_ifp; [apply does_no_data; apply index_bounds; lia|].
  unfold ConvolveSpec.value_at, linear. cbn [fst snd].
  destruct (nd_at ip m (i * cols + j)) eqn:En.
  - unfold arg_at. rewrite En. split; auto.
  - destruct (does_read (i * cols + j)) as (v & Ev & Hv); auto; [apply index_bounds; lia|].
    eapply does_bind0; [exact Hv|]. rewrite Ev. split; auto.
Qed.

(** The neighbours of a cell are a rectangle of the image, without that cell. *)
Lemma neighbours_rect i j :
  neighbours rows cols (i, j) =
  filter (fun d => negb (same_cell d (i, j)))
    (rect (Z.max 0 (i - 1)) (Z.min rows (i + 2) - 1) (Z.max 0 (j - 1)) (Z.min cols (j + 2) - 1)).
Proof.
  clear. unfold neighbours, rect.
  assert (E : [(i - 1, j - 1); (i - 1, j); (i - 1, j + 1); (i, j - 1); (i, j); (i, j + 1);
     (i + 1, j - 1); (i + 1, j); (i + 1, j + 1)] = product (zrange (i - 1) (i + 2)) (zrange (j - 1) (j + 2))).
  { assert (Z3 : forall x, zrange (x - 1) (x + 2) = [x - 1; x; x + 1]).
    { intros x. rewrite (zrange_cons (x - 1)) by lia. rewrite (zrange_cons (x - 1 + 1)) by lia.
      rewrite (zrange_cons (x - 1 + 1 + 1)) by lia. rewrite zrange_nil by lia.
      repeat f_equal; lia. }
    rewrite !Z3. reflexivity. }
  rewrite E. clear E.
  assert (F : forall (p q : Z * Z -> bool) l, filter (fun d => p d && q d) l = filter q (filter p l)).
  { intros p q l. induction l as [|x l IH]; cbn; auto.
    destruct (p x); cbn; rewrite IH; auto. }
  rewrite F. f_equal. unfold ConvolveSpec.in_image.
  rewrite (filter_product (fun x => (0 <=? x) && (x <? rows)) (fun x => (0 <=? x) && (x <? cols))).
  rewrite !filter_interval. f_equal; f_equal; lia.
Qed.

Lemma focal_average_rect i j : focal_average (i, j) =
  let l := values (fun r c => (r =? i) && (c =? j))
    (rect (Z.max 0 (i - 1)) (Z.min rows (i + 2) - 1) (Z.max 0 (j - 1)) (Z.min cols (j + 2) - 1)) in
  if 0 <? Z.of_nat (length l)
  then Some (average ar (fold_left (add ar) l (zero_v ar)) (Z.of_nat (length l))) else None.
Proof.
  unfold ConvolveSpec.focal_average. rewrite neighbours_rect, flat_map_filter.
  unfold values. cbn zeta.
  assert (E : forall (l : list (Z * Z)),
     flat_map (fun x => if negb (same_cell x (i, j)) then listed (value_at x) else []) l =
     flat_map (fun c => if (fst c =? i) && (snd c =? j) then [] else listed (value_at c)) l).
  { intros l. apply flat_map_ext_in. intros x _. unfold same_cell. cbn [fst snd].
    destruct ((fst x =? i) && (snd x =? j)); auto. }
  rewrite E.
  match goal with |- match ?l with _ => _ end = _ => destruct l end; cbn [length]; auto.
Qed.

Lemma does_scan_all i j row last_row col last_col :
  in_image (i, j) = false ->
  row = Z.max 0 (i - 1) -> last_row = Z.min rows (i + 2) - 1 ->
  col = Z.max 0 (j - 1) -> last_col = Z.min cols (j + 2) - 1 ->
  does C m (scan_all ar ip src cols row last_row col last_col) [] (focal_average (i, j)).
Proof.
  intros Hin -> -> -> ->. unfold scan_all.
  eapply does_bind0; [apply does_scan; lia|]. cbn zeta. cbn [average_if_seen].
  rewrite focal_average_rect. cbn zeta. unfold average_if_seen. cbn [fst snd].
  set (R := rect _ _ _ _).
  assert (E : values (fun _ _ => false) R = values (fun r c => (r =? i) && (c =? j)) R).
  { apply flat_map_ext_in. intros [r c] Hr. cbn [fst snd].
    destruct (Z.eqb_spec r i), (Z.eqb_spec c j); auto. cbn. exfalso. subst r c.
    apply in_product in Hr as [A B]. apply in_zrange in A, B.
    assert (in_image (i, j) = true) by (apply in_image_spec; cbn; lia). congruence. }
  rewrite E. split; auto.
Qed.

Lemma focal_average_far i j :
  i + 1 < 0 \/ rows < i \/ j + 1 < 0 \/ cols < j -> focal_average (i, j) = None.
Proof.
  intros H. rewrite focal_average_rect. unfold rect.
  assert (E : product (zrange (Z.max 0 (i - 1)) (Z.min rows (i + 2) - 1 + 1))
     (zrange (Z.max 0 (j - 1)) (Z.min cols (j + 2) - 1 + 1)) = []).
  { destruct H as [H|[H|[H|H]]].
    - rewrite zrange_nil by lia. auto.
    - rewrite zrange_nil by lia. auto.
    - rewrite (zrange_nil (Z.max 0 (j - 1))) by lia. apply flat_map_nil.
    - rewrite (zrange_nil (Z.max 0 (j - 1))) by lia. apply flat_map_nil. }
  rewrite E. reflexivity.
Qed.

Lemma does_alternative_average i j : rows < 2 ^ 64 -> cols < 2 ^ 64 -> in_image (i, j) = true ->
  focal_average (i, j) <> None ->
  does C m (no_data_by_focal_average ar ip src rows cols i j) [] (focal_average (i, j)).
Proof.
  intros Hr Hc Hin Hav. apply in_image_spec in Hin. cbn [fst snd] in Hin.
  unfold no_data_by_focal_average. rewrite !size_t_small by (unfold size_t_max_plus_1; lia).
  replace (if 0 <? i then i - 1 else i) with (Z.max 0 (i - 1)) by (destruct (Z.ltb_spec 0 i); lia).
  replace (if 0 <? j then j - 1 else j) with (Z.max 0 (j - 1)) by (destruct (Z.ltb_spec 0 j); lia).
  replace (if i <? rows - 1 then i + 1 else i) with (Z.min rows (i + 2) - 1)
    by (destruct (Z.ltb_spec i (rows - 1)); lia).
  replace (if j <? cols - 1 then j + 1 else j) with (Z.min cols (j + 2) - 1)
    by (destruct (Z.ltb_spec j (cols - 1)); lia).
  eapply does_bind0; [apply does_scan; lia|].
  revert Hav. rewrite focal_average_rect. cbn zeta. cbn [fst snd].
  destruct (0 <? _); [split; auto|congruence].
Qed.

(** *** Windows *)

Notation r := (radius k).

(** The window of focus [f]: the kernel, clipped by the image. *)
Record window_of (f : Z * Z) (w : window) : Prop := {
  wo_frk : first_row_kernel w = Z.max 0 (r - fst f);
  wo_nrk : first_row_kernel w + nr_rows_kernel w = Z.min (2 * r + 1) (rows - fst f + r);
  wo_frs : first_row_source w = fst f - r + first_row_kernel w;
  wo_fck : first_col_kernel w = Z.max 0 (r - snd f);
  wo_nck : first_col_kernel w + nr_cols_kernel w = Z.min (2 * r + 1) (cols - snd f + r);
  wo_fcs : first_col_source w = snd f - r + first_col_kernel w
}.

(** Where the focus cells of a border region are. *)
Definition low n x := 0 <= x < Z.min r n.
Definition middle n x := r <= x < n - r.
Definition high n x := n - r <= x < n.
Definition at_side (s : side) (f : Z * Z) : Prop :=
  match s with
  | NorthWest => low rows (fst f) /\ low cols (snd f)
  | NorthEast => low rows (fst f) /\ high cols (snd f)
  | SouthWest => high rows (fst f) /\ low cols (snd f)
  | SouthEast => high rows (fst f) /\ high cols (snd f)
  | North => low rows (fst f) /\ middle cols (snd f)
  | West => middle rows (fst f) /\ low cols (snd f)
  | East => middle rows (fst f) /\ high cols (snd f)
  | South => high rows (fst f) /\ middle cols (snd f)
  end.

Hypothesis Hlarge : large_enough rows cols k oi.

Lemma sizes : 0 <= r /\ 2 * r <= rows < 2 ^ 64 /\ 2 * r <= cols < 2 ^ 64.
Proof. destruct Hlarge as (A & B & D & E). destruct oi; lia. Qed.

Lemma outside_spec s f w kr kc : at_side s f -> window_of f w ->
  0 <= kr < width k -> 0 <= kc < width k ->
  outside w kr kc s = negb (in_image (below k f (kr, kc))) /\ outside_assertion w kr kc s = true.
Proof.
  intros Hs [A1 A2 A3 A4 A5 A6] Hr Hc. destruct sizes as (S1 & S2 & S3). unfold width in *.
  assert (E : in_image (below k f (kr, kc)) = true <->
     (0 <= fst f + kr - r < rows /\ 0 <= snd f + kc - r < cols)).
  { rewrite in_image_spec. reflexivity. }
  split.
  - apply eq_true_iff_eq. rewrite negb_true_iff, <- not_true_iff_false, E.
    clear E. destruct s; cbv [outside at_side low middle high] in *;
      rewrite ?orb_true_iff, ?Z.ltb_lt, ?Z.leb_le; lia.
  - destruct s; cbv [outside_assertion at_side low middle high] in *; auto; apply Z.leb_le; lia.
Qed.

Lemma does_out_of_image s f w kr kc : at_side s f -> window_of f w ->
  0 <= kr < width k -> 0 <= kc < width k -> in_image (below k f (kr, kc)) = false ->
  oi = OutOfImageByFocalAverage ->
  does C m (out_of_image_value ar ip src rows cols oi w kr kc s) [] (focal_average (below k f (kr, kc))).
Proof.
  intros Hs [A1 A2 A3 A4 A5 A6] Hr Hc Hin Hoi. rewrite Hoi. unfold large_enough in Hlarge.
  rewrite Hoi in Hlarge. destruct Hlarge as (L1 & L2 & L3 & L4 & L5). clear Hlarge.
  unfold width in *. unfold below in *. cbn [fst snd] in *.
  assert (Hout : ~ (0 <= fst f + kr - r < rows /\ 0 <= snd f + kc - r < cols)).
  { intros H. assert (in_image (fst f + kr - r, snd f + kc - r) = true) by (apply in_image_spec; auto).
    congruence. }
  destruct f as [fr fc]. cbn [fst snd] in *.
  set (i := fr + kr - r) in *. set (j := fc + kc - r) in *.
  assert (Ei : kr = i - fr + r) by (unfold i; lia). assert (Ej : kc = j - fc + r) by (unfold j; lia).
  clearbody i j. subst kr kc.
  destruct w as [frk fck nrk nck frs fcs].
  cbn [first_row_kernel first_col_kernel nr_rows_kernel nr_cols_kernel first_row_source
    first_col_source fst snd] in A1, A2, A3, A4, A5, A6.
  assert (Er : size_t (rows - 1) = rows - 1) by (apply size_t_small; unfold size_t_max_plus_1; lia).
  assert (Ec : size_t (cols - 1) = cols - 1) by (apply size_t_small; unfold size_t_max_plus_1; lia).
  destruct s; cbv [at_side low middle high fst snd] in Hs; destruct Hs as [Hs1 Hs2];
    try rewrite Z.min_l in Hs1 by lia; try rewrite Z.min_l in Hs2 by lia;
    (first [rewrite Z.max_r in A1 by lia|rewrite Z.max_l in A1 by lia]);
    (first [rewrite Z.max_r in A4 by lia|rewrite Z.max_l in A4 by lia]);
    (first [rewrite Z.min_r in A2 by lia|rewrite Z.min_l in A2 by lia]);
    (first [rewrite Z.min_r in A5 by lia|rewrite Z.min_l in A5 by lia]);
    assert (Erk : size_t (frk + nrk - 1) = frk + nrk - 1) by (apply size_t_small; unfold size_t_max_plus_1; lia);
    assert (Eck : size_t (fck + nck - 1) = fck + nck - 1) by (apply size_t_small; unfold size_t_max_plus_1; lia);
    rewrite A2 in Erk; rewrite A5 in Eck;
    cbn [out_of_image_value];
    unfold value_north_west, value_north_east, value_south_west, value_south_east,
      value_north, value_west, value_east, value_south;
    cbn [first_row_kernel first_col_kernel nr_rows_kernel nr_cols_kernel first_row_source
      first_col_source]; cbv zeta;
    rewrite ?Er, ?Ec, ?A2, ?A5, ?Erk, ?Eck; clear A2 A5 Er Ec Erk Eck Hoi; subst frk fck frs fcs;
    repeat match goal with
    | |- context[if ?a <? ?b then _ else _] => destruct (Z.ltb_spec a b); try (exfalso; lia)
    | |- context[if (?a <=? ?b) && (?c <=? ?d) then _ else _] =>
        destruct (Z.leb_spec a b), (Z.leb_spec c d); cbn [andb]
    | |- context[if ?a <=? ?b then _ else _] => destruct (Z.leb_spec a b); try (exfalso; lia)
    end;
    try (rewrite focal_average_far by lia; split; reflexivity);
    clear Hout; apply does_scan_all; try assumption; clear Hin;
    try rewrite size_t_small by (unfold size_t_max_plus_1; lia); lia.
Qed.

(** *** Contributions *)

Notation sums := (@sums SV SW).
Notation contribution_outside := (contribution_outside ar ip src rows cols k oi m).
Notation contribution_inside := (contribution_inside ar ip src rows cols k alt m).
Notation contributions := (contributions ar ip src rows cols k alt oi m).
Notation ignored := (ignored ar rows cols k).
Notation convolved := (convolved ar ip src rows cols k alt oi keep m).

Definition contribute (s : sums) (x : V * W) : sums := handle_value ar k (fst x) (snd x) s.

Lemma fold_contribute l : forall sv sw seen,
  fold_left contribute l (sv, sw, seen) =
  (if weigh_values k then
     (fold_left (fun s x => add_scaled ar s (fst x) (snd x)) l sv,
      fold_left (fun s x => add_weight ar s (snd x)) l sw,
      match l with [] => seen | _ => true end)
   else
     let l' := filter (fun x => nonzero ar (snd x)) l in
     (fold_left (fun s x => add ar s (fst x)) l' sv,
      fold_left (fun s _ => add_one ar s) l' sw,
      match l with [] => seen | _ => true end)).
Proof.
  induction l as [|[v w] l IH]; intros sv sw seen.
  - cbn. destruct (weigh_values k); auto.
  - cbn [fold_left]. unfold contribute at 2. unfold handle_value. cbn [fst snd filter].
    destruct (weigh_values k).
    + rewrite IH. cbn [fold_left fst snd]. f_equal. destruct l; auto.
    + destruct (nonzero ar w); rewrite IH; cbn [fold_left fst snd]; cbv zeta; f_equal;
        destruct l; auto.
Qed.

Lemma fold_total l :
  fold_left contribute l (zero_v ar, zero_w ar, false) =
  (fst (total ar k l), snd (total ar k l), match l with [] => false | _ => true end).
Proof. rewrite fold_contribute. unfold total. destruct (weigh_values k); auto. Qed.

Lemma kernel_cells_product : kernel_cells k = product (zrange 0 (width k)) (zrange 0 (width k)).
Proof. reflexivity. Qed.

Lemma in_kernel_cells kr kc :
  In (kr, kc) (kernel_cells k) <-> 0 <= kr < width k /\ 0 <= kc < width k.
Proof. rewrite kernel_cells_product, in_product, !in_zrange. reflexivity. Qed.

Lemma does_weight q : In q (kernel_cells k) ->
  does C m (weight k (linear (width k) q) : prog V W) [] (weight_at k q).
Proof.
  destruct q as [kr kc]. intros H. apply in_kernel_cells in H. unfold weight, linear. cbn [fst snd].
  destruct (Z.leb_spec 0 (kr * width k + kc)); [|nia].
  destruct (Z.ltb_spec (kr * width k + kc) (width k * width k)); [|nia].
  cbn [andb]. split; auto.
Qed.

Lemma does_outside_cells s f w acc : at_side s f -> window_of f w ->
  does C m (outside_cells ar ip src rows cols k oi s w acc) []
    (fold_left contribute
       (flat_map (fun q => if in_image (below k f q) then [] else listed (contribution_outside f q))
          (kernel_cells k)) acc).
Proof.
  intros Hs Hw. rewrite <- (fold_flat_map contribute), kernel_cells_product, <- fold_product.
  unfold outside_cells.
  apply does_pure with (f := fun kr acc => fold_left (fun acc kc => fold_left contribute
     (if in_image (below k f (kr, kc)) then [] else listed (contribution_outside f (kr, kc))) acc)
     (zrange 0 (width k)) acc).
  intros kr a Hkr.
  apply does_row1 with (f := fun kc acc => fold_left contribute
     (if in_image (below k f (kr, kc)) then [] else listed (contribution_outside f (kr, kc))) acc).
  intros kc a' Hkc. cbn beta iota.
  destruct (outside_spec s f w kr kc Hs Hw Hkr Hkc) as [E1 E2]. rewrite E1, E2.
  replace (kr * width k + (kc - 0)) with (kr * width k + kc) by lia.
  destruct (in_image (below k f (kr, kc))) eqn:Ein; cbn [negb].
  - cbn. split; auto.
  - eapply does_bind0; [|split; reflexivity].
    unfold ConvolveSpec.contribution_outside.
    pose proof (does_out_of_image s f w kr kc Hs Hw Hkr Hkc Ein) as Hd.
    clear Hlarge E1 E2 Hs Hw. destruct oi.
    + eapply does_bind0; [unfold out_of_image_value; split; reflexivity|]. cbn. auto.
    + eapply does_bind0; [apply Hd; auto|].
      destruct (focal_average (below k f (kr, kc))) as [v|]; cbn [option_map listed].
      * eapply does_bind0; [apply (does_weight (kr, kc)), in_kernel_cells; auto|]. split; auto.
      * split; auto.
Qed.

Lemma does_alternative i j : in_image (i, j) = true ->
  (alt = NoDataByFocalAverage -> focal_average (i, j) <> None) ->
  does C m (alternative_value ar ip src rows cols alt i j) []
    (match alt with SkipNoDataCells => None | NoDataByFocalAverage => focal_average (i, j) end).
Proof.
  intros Hin Hav. destruct sizes as (_ & S2 & S3). unfold alternative_value.
  destruct alt; [split; auto|]. apply does_alternative_average; auto; lia.
Qed.

Hypothesis Hrep : replaceable ar ip src rows cols k alt keep m.

Section Inside.
Variable f : Z * Z.
Hypothesis Hf : in_image f = true.
Hypothesis Hkeep : keep && nd_at ip m (linear cols f) = false.

Lemma does_inside_cell q acc : In q (kernel_cells k) -> in_image (below k f q) = true ->
  ignored f q = false ->
  does C m (inside_cell ar ip src rows cols k alt (fst (below k f q)) (snd (below k f q))
              (linear cols (below k f q)) (linear (width k) q) acc) []
    (fold_left contribute (listed (contribution_inside f q)) acc).
Proof.
  intros Hq Hin Hig. unfold inside_cell.
  assert (Hi : 0 <= linear cols (below k f q) < rows * cols).
  { apply in_image_spec in Hin. apply index_bounds; tauto. }
  pose proof (fun Ha => Hrep Ha f q Hf Hkeep Hq Hin Hig) as Hr.
  eapply does_ifp; [apply does_no_data; auto|].
  unfold ConvolveSpec.contribution_inside in *. unfold ConvolveSpec.value_at in *.
  rewrite Hig.
  destruct (nd_at ip m (linear cols (below k f q))) eqn:En.
  - assert (Ev : arg_at ip src m (linear cols (below k f q)) = None).
    { unfold arg_at. rewrite En. auto. }
    rewrite Ev in *.
    eapply does_bind0.
    { apply does_alternative; [destruct (below k f q); exact Hin|].
      intros Ha. destruct (below k f q); apply (Hr Ha eq_refl). }
    replace (fst (below k f q), snd (below k f q)) with (below k f q)
      by (destruct (below k f q); auto).
    destruct alt; [split; auto|].
    destruct (focal_average (below k f q)) as [v|]; cbn [option_map listed]; [|split; auto].
    eapply does_bind0; [apply does_weight; auto|]. split; auto.
  - destruct (does_read _ Hi En) as (v & Ev & Hv). rewrite Ev.
    eapply does_bind0; [apply does_weight; auto|].
    destruct (nonzero ar (weight_at k q)); [|split; auto].
    eapply does_bind0; [exact Hv|]. split; auto.
Qed.

(** The kernel cells above the image. *)
Lemma kernel_cells_above w : window_of f w ->
  filter (fun q => in_image (below k f q)) (kernel_cells k) =
  map (fun q => (fst q + first_row_kernel w, snd q + first_col_kernel w))
    (product (zrange 0 (nr_rows_kernel w)) (zrange 0 (nr_cols_kernel w))).
Proof.
  intros [A1 A2 A3 A4 A5 A6]. destruct sizes as (S1 & S2 & S3).
  rewrite <- product_shift, kernel_cells_product.
  rewrite (filter_ext _ (fun q => ((r - fst f <=? fst q) && (fst q <? rows - fst f + r)) &&
     ((r - snd f <=? snd q) && (snd q <? cols - snd f + r)))).
  - rewrite (filter_product (fun x => (r - fst f <=? x) && (x <? rows - fst f + r))
      (fun x => (r - snd f <=? x) && (x <? cols - snd f + r))).
    rewrite !filter_interval. unfold width. f_equal; f_equal; lia.
  - intros q. unfold ConvolveSpec.in_image, below. cbn [fst snd].
    apply eq_true_iff_eq. rewrite !andb_true_iff, !Z.leb_le, !Z.ltb_lt. lia.
Qed.

Lemma does_inside_cells w acc : window_of f w ->
  (forall q, In q (kernel_cells k) -> ignored f q = false) ->
  does C m (inside_cells ar ip src rows cols k alt w acc) []
    (fold_left contribute
       (flat_map (fun q => if in_image (below k f q) then listed (contribution_inside f q) else [])
          (kernel_cells k)) acc).
Proof.
  intros Hw Hig. rewrite <- flat_map_filter.
  assert (Habove : forall q, In q (filter (fun q => in_image (below k f q)) (kernel_cells k)) ->
     In q (kernel_cells k) /\ in_image (below k f q) = true).
  { intros q Hq. apply filter_In in Hq. auto. }
  rewrite (kernel_cells_above w Hw) in *. rewrite flat_map_map.
  rewrite <- (fold_flat_map contribute), <- fold_product. unfold inside_cells.
  apply does_pure with (f := fun row acc => fold_left (fun acc col => fold_left contribute
     (listed (contribution_inside f (row + first_row_kernel w, col + first_col_kernel w))) acc)
     (zrange 0 (nr_cols_kernel w)) acc).
  intros row a Hrow.
  apply does_row2 with (f := fun col acc => fold_left contribute
     (listed (contribution_inside f (row + first_row_kernel w, col + first_col_kernel w))) acc).
  intros col a' Hcol. cbn beta iota.
  set (q := (row + first_row_kernel w, col + first_col_kernel w)).
  assert (Hq : In q (kernel_cells k) /\ in_image (below k f q) = true).
  { apply Habove. apply in_map_iff. exists (row, col). split; auto.
    apply in_product. rewrite !in_zrange. auto. }
  destruct Hq as [Hq1 Hq2].
  eapply does_bind0; [|split; reflexivity].
  pose proof (does_inside_cell q a' Hq1 Hq2 (Hig q Hq1)) as Hd.
  destruct Hw as [A1 A2 A3 A4 A5 A6].
  replace (first_row_source w + row) with (fst (below k f q)) by (cbn; lia).
  replace (first_col_source w + col) with (snd (below k f q)) by (cbn; lia).
  replace (fst (below k f q) * cols + first_col_source w + col) with (linear cols (below k f q))
    by (unfold linear; cbn; lia).
  replace ((first_row_kernel w + row) * width k + first_col_kernel w + col) with (linear (width k) q)
    by (unfold linear; cbn; lia).
  exact Hd.
Qed.

(** The loop of [offset_cells]. *)
Definition offset_loop (w : window) :=
  fix loop (tuples : list (Z * Z * Z)) (acc : sums) : prog V sums :=
  match tuples with
  | [] => Ret acc
  | (row, col, offset) :: tuples' =>
      let '(sv, sw, seen) := acc in
      bind (ifp (is_no_data ip (first_row_source w * cols + first_col_source w + offset))
              (bind (alternative_value ar ip src rows cols alt (first_row_source w + row)
                      (first_col_source w + col))
               (fun o => match o with
                         | Some v => Ret (add ar sv v, add_one ar sw, true)
                         | None => Ret acc
                         end))
              (bind (rdv src (first_row_source w * cols + first_col_source w + offset))
                 (fun v => Ret (add ar sv v, add_one ar sw, true))))
        (fun acc' => loop tuples' acc')
  end.

Lemma offset_cells_loop w acc :
  offset_cells ar ip src rows cols k alt w acc =
  offset_loop w (flat_map (fun q => if nonzero ar (weight_at k q)
                                    then [(fst q, snd q, linear cols q)] else []) (kernel_cells k)) acc.
Proof.
  change (offset_cells ar ip src rows cols k alt w acc) with
    (offset_loop w (cell_offset_tuples ar cols k) acc).
  f_equal. unfold cell_offset_tuples, kernel_cells, raster_cells, zrange.
  rewrite Z.sub_0_r, flat_map_map.
  induction (List.seq 0 (Z.to_nat (width k))) as [|x l IH] at 2 4; auto.
  cbn [flat_map]. rewrite IH, flat_map_app. f_equal.
  rewrite !flat_map_map. reflexivity.
Qed.

Lemma does_offset_cells w acc : inner rows cols k f = true -> weigh_values k = false ->
  window_of f w ->
  does C m (offset_cells ar ip src rows cols k alt w acc) []
    (fold_left contribute
       (flat_map (fun q => if in_image (below k f q) then listed (contribution_inside f q) else [])
          (kernel_cells k)) acc).
Proof.
  intros Hinner Hwv [A1 A2 A3 A4 A5 A6]. rewrite offset_cells_loop.
  unfold inner in Hinner. rewrite !andb_true_iff, !Z.leb_le, !Z.ltb_lt in Hinner.
  assert (Hin : forall q, In q (kernel_cells k) -> in_image (below k f q) = true).
  { intros [kr kc] Hq. apply in_kernel_cells in Hq. unfold width in Hq.
    apply in_image_spec. cbn [below fst snd]. lia. }
  assert (Hsub : forall q, In q (kernel_cells k) -> In q (kernel_cells k)) by auto.
  revert Hsub acc. generalize (kernel_cells k) at 1 3 4 as l.
  induction l as [|q l IH]; intros Hsub acc; [split; auto|].
  assert (Hq : In q (kernel_cells k)) by (apply Hsub; left; auto).
  assert (IH' := fun acc => IH (fun q' Hq' => Hsub q' (or_intror Hq')) acc). clear IH.
  cbn [flat_map]. rewrite (Hin q Hq). rewrite fold_left_app.
  assert (Hi : 0 <= linear cols (below k f q) < rows * cols).
  { specialize (Hin q Hq). apply in_image_spec in Hin. apply index_bounds; tauto. }
  assert (Eq1 : first_row_source w + fst q = fst (below k f q)) by (cbn; lia).
  assert (Eq2 : first_col_source w + snd q = snd (below k f q)) by (cbn; lia).
  assert (Eq3 : first_row_source w * cols + first_col_source w + linear cols q =
                linear cols (below k f q)).
  { unfold linear. rewrite <- Eq1, <- Eq2. lia. }
  destruct (nonzero ar (weight_at k q)) eqn:Ew.
  - cbn [app offset_loop]. destruct acc as [[sv sw] seen]. rewrite Eq1, Eq2, Eq3.
    assert (Hig : ignored f q = false).
    { unfold ConvolveSpec.ignored. rewrite Ew. cbn. rewrite andb_false_r. auto. }
    pose proof (fun Ha => Hrep Ha f q Hf Hkeep Hq (Hin q Hq) Hig) as Hr.
    assert (Hstep : forall v, (add ar sv v, add_one ar sw, true) =
      contribute (sv, sw, seen) (v, weight_at k q)).
    { intros v. unfold contribute, handle_value. cbn [fst snd]. rewrite Hwv, Ew. auto. }
    eapply does_bind0; [|apply IH'].
    eapply does_ifp; [apply does_no_data; auto|].
    unfold ConvolveSpec.contribution_inside in *. unfold ConvolveSpec.value_at in *. rewrite Hig, Ew.
    destruct (nd_at ip m (linear cols (below k f q))) eqn:En.
    + assert (Ev : arg_at ip src m (linear cols (below k f q)) = None).
      { unfold arg_at. rewrite En. auto. }
      rewrite Ev in *.
      eapply does_bind0.
      { apply does_alternative.
        - specialize (Hin q Hq). destruct (below k f q); exact Hin.
        - intros Ha. specialize (Hr Ha eq_refl). destruct (below k f q); exact Hr. }
      replace (fst (below k f q), snd (below k f q)) with (below k f q)
        by (destruct (below k f q); auto).
      destruct alt; [split; auto|].
      destruct (focal_average (below k f q)) as [v|]; cbn [option_map listed]; split; auto.
      apply Hstep.
    + destruct (does_read _ Hi En) as (v & Ev & Hv). rewrite Ev.
      eapply does_bind0; [exact Hv|]. split; auto. apply Hstep.
  - cbn [app].
    assert (E : contribution_inside f q = None).
    { unfold ConvolveSpec.contribution_inside. rewrite Ew.
      destruct (value_at (below k f q)); auto.
      replace (ignored f q) with true; auto.
      unfold ConvolveSpec.ignored, inner. rewrite Hwv, Ew. cbn [negb]. rewrite !andb_true_r.
      symmetry. rewrite !andb_true_iff, !Z.leb_le, !Z.ltb_lt. auto. }
    rewrite E. cbn [listed fold_left]. apply IH'.
Qed.
End Inside.

(** *** One focus cell *)

Definition result (i : Z) : option V := convolved (i / cols, i mod cols).

Lemma result_at f : in_image f = true -> result (linear cols f) = convolved f.
Proof.
  intros H. apply in_image_spec in H. unfold result, linear. destruct f as [i j]. cbn [fst snd] in *.
  rewrite Z.div_add_l by lia. rewrite (Z.div_small j) by lia.
  rewrite (Z.add_comm (i * cols)), Z.mod_add by lia. rewrite Z.mod_small by lia.
  rewrite Z.add_0_r. auto.
Qed.

Definition region_ok (s : option side) (f : Z * Z) : Prop :=
  match s with Some s => at_side s f | None => inner rows cols k f = true end.

Lemma inner_spec f : inner rows cols k f = true <->
  middle rows (fst f) /\ middle cols (snd f).
Proof.
  unfold inner, middle. rewrite !andb_true_iff, !Z.leb_le, !Z.ltb_lt. tauto.
Qed.

Lemma does_focus s offsets f w : in_image f = true -> region_ok s f -> window_of f w ->
  offsets = match s with Some _ => false | None => negb (weigh_values k) end ->
  does C m (focus ar ip op src dst rows cols k alt oi keep s offsets w (linear cols f))
    (leave op dst result (linear cols f)) tt.
Proof.
  intros Hf Hs Hw Ho. unfold focus. destruct sizes as (S1 & S2 & S3).
  assert (Hi : 0 <= linear cols f < rows * cols).
  { apply in_image_spec in Hf. apply index_bounds; tauto. }
  eapply (does_ifp C m _ _ _ (keep && nd_at ip m (linear cols f))).
  { destruct keep; [apply does_no_data; auto|split; auto]. }
  unfold leave. rewrite result_at by auto. unfold ConvolveSpec.convolved.
  destruct (keep && nd_at ip m (linear cols f)) eqn:Hkeep; [apply does_mark|].
  set (l1 := flat_map (fun q => if in_image (below k f q) then []
                                else listed (contribution_outside f q)) (kernel_cells k)).
  set (l2 := flat_map (fun q => if in_image (below k f q) then listed (contribution_inside f q)
                                else []) (kernel_cells k)).
  change (contributions f) with (l1 ++ l2).
  cbv zeta.
  eapply does_bind0 with (a := fold_left contribute l1 (zero_v ar, zero_w ar, false)).
  { destruct s as [s|]; [apply does_outside_cells; auto|].
    replace l1 with (@nil (V * W)); [split; auto|]. unfold l1. symmetry.
    rewrite (flat_map_ext_in _ (fun _ => [])); [apply flat_map_nil|].
    intros [kr kc] Hq. apply in_kernel_cells in Hq. unfold width in Hq.
    cbn in Hs. rewrite inner_spec in Hs. unfold middle in Hs.
    replace (in_image (below k f (kr, kc))) with true; auto.
    symmetry. apply in_image_spec. cbn [below fst snd]. lia. }
  eapply does_bind0 with (a := fold_left contribute l2 (fold_left contribute l1 (zero_v ar, zero_w ar, false))).
  { destruct offsets.
    - destruct s; [discriminate|]. apply does_offset_cells; auto.
      destruct (weigh_values k); [discriminate|auto].
    - apply does_inside_cells; auto. intros q _. unfold ConvolveSpec.ignored.
      destruct s as [s|].
      + replace (inner rows cols k f) with false; auto. symmetry.
        apply not_true_iff_false. rewrite inner_spec. unfold middle. intros H.
        destruct s; cbv [region_ok at_side low middle high] in Hs; lia.
      + destruct (weigh_values k); [|discriminate]. cbn. rewrite andb_false_r. auto. }
  rewrite <- fold_left_app, fold_total.
  destruct (l1 ++ l2) as [|x l]; [cbn [negb orb]; apply does_mark|].
  destruct (total ar k (x :: l)) as [sv sw]. cbn [fst snd negb orb].
  destruct (in_range ar sv); cbn [negb orb].
  - cbn. exists []. repeat split.
  - apply does_mark.
Qed.

(** ** Regions *)

Definition places (r1 r2 : range) : list Z := map (linear cols) (product (indices r1) (indices r2)).

Lemma leave_places b e b' e' :
  flat_map (leave op dst result) (places {| rbegin := b; rend := e |} {| rbegin := b'; rend := e' |}) =
  flat_map (fun i => flat_map (fun j => leave op dst result (linear cols (i, j))) (zrange b' e'))
    (zrange b e).
Proof.
  unfold places, indices, product. cbn [rbegin rend].
  induction (zrange b e) as [|x l IH]; cbn [flat_map map]; auto.
  rewrite map_app, flat_map_app, IH. f_equal. rewrite map_map, flat_map_map. reflexivity.
Qed.

(** Two nested loops. *)
Lemma does_rows {X} b e b' e' (body : Z -> X -> prog V X) (so : Z -> X) x0 :
  b <= e -> x0 = so b ->
  (forall i, b <= i < e -> does C m (body i (so i))
     (flat_map (fun j => leave op dst result (linear cols (i, j))) (zrange b' e')) (so (i + 1))) ->
  does C m (seq (fold_range b e body x0) skip)
    (flat_map (leave op dst result) (places {| rbegin := b; rend := e |} {| rbegin := b'; rend := e' |})) tt.
Proof.
  intros H1 -> H2. rewrite leave_places. eapply does_seq_skip.
  apply (does_fold_range C m b e _ so); auto.
Qed.

Lemma does_cols {X Y} i b e (body : Z -> Y -> prog V Y) (si : Z -> Y) y0 (x x' : X) :
  b <= e -> y0 = si b -> x = x' ->
  (forall j, b <= j < e ->
     does C m (body j (si j)) (leave op dst result (linear cols (i, j))) (si (j + 1))) ->
  does C m (seq (fold_range b e body y0) (Ret x))
    (flat_map (fun j => leave op dst result (linear cols (i, j))) (zrange b e)) x'.
Proof.
  intros H1 -> <- H2. rewrite <- (app_nil_r (flat_map _ (zrange b e))).
  eapply does_seq; [|split; reflexivity]. apply (does_fold_range C m b e _ si); auto.
Qed.

Lemma does_step {Y} s offsets f w i (y y' : Y) : i = linear cols f ->
  in_image f = true -> region_ok s f -> window_of f w ->
  offsets = match s with Some _ => false | None => negb (weigh_values k) end -> y = y' ->
  does C m (seq (focus ar ip op src dst rows cols k alt oi keep s offsets w i) (Ret y))
    (leave op dst result (linear cols f)) y'.
Proof.
  intros -> Hf Hs Hw Ho <-. rewrite <- (app_nil_r (leave _ _ _ _)).
  eapply does_seq; [apply does_focus; auto|split; reflexivity].
Qed.

(** The intervals of rows, or columns, next to both sides of the image and between them. *)
Definition low_range : range := {| rbegin := 0; rend := r |}.
Definition high_range (n : Z) : range := {| rbegin := n - r; rend := n |}.
Definition middle_range (n : Z) : range := {| rbegin := r; rend := n - r |}.

Ltac states := rewrite ?size_t_small by (unfold size_t_max_plus_1; lia);
  repeat match goal with |- (_, _) = (_, _) => f_equal end; lia.
Ltac region S I :=
  destruct sizes as (S1 & S2 & S3);
  rewrite ?(size_t_small (rows - r)), ?(size_t_small (cols - r)), ?(size_t_small (rows - r - r)),
    ?(size_t_small (cols - r - r)) by (unfold size_t_max_plus_1; lia);
  apply does_rows with (so := S); [lia|states|];
  let i := fresh "i" in let Hi := fresh "Hi" in let j := fresh "j" in let Hj := fresh "Hj" in
  intros i Hi; cbn beta iota;
  apply does_cols with (si := I i); [lia|states|states|];
  intros j Hj; cbn beta iota; unfold focus_at;
  apply does_step;
  [unfold linear; cbn [fst snd]; lia
  |apply in_image_spec; cbn [fst snd]; lia
  |cbn [region_ok at_side]; rewrite ?inner_spec; unfold low, middle, high; cbn [fst snd]; lia
  |constructor; cbn [first_row_kernel first_col_kernel nr_rows_kernel nr_cols_kernel
     first_row_source first_col_source fst snd]; unfold width; lia
  |reflexivity
  |states].

Notation writes_at r1 r2 := (flat_map (leave op dst result) (places r1 r2)).

Lemma does_north_west :
  does C m (convolve_north_west ar ip op src dst rows cols k alt oi keep)
    (writes_at low_range low_range) tt.
Proof.
  unfold convolve_north_west, low_range.
  region (fun i : Z => (r - i, r + 1 + i)) (fun i j : Z => (r - j, r + 1 + j, i * cols + j)).
Qed.

Lemma does_north_east :
  does C m (convolve_north_east ar ip op src dst rows cols k alt oi keep)
    (writes_at low_range (high_range cols)) tt.
Proof.
  unfold convolve_north_east, low_range, high_range.
  region (fun i : Z => (r - i, r + 1 + i)) (fun i j : Z => (j - r, cols - j + r, i * cols + j)).
Qed.

Lemma does_south_west :
  does C m (convolve_south_west ar ip op src dst rows cols k alt oi keep)
    (writes_at (high_range rows) low_range) tt.
Proof.
  unfold convolve_south_west, low_range, high_range.
  region (fun i : Z => (i - r, rows - i + r)) (fun i j : Z => (r - j, r + 1 + j, i * cols + j)).
Qed.

Lemma does_south_east :
  does C m (convolve_south_east ar ip op src dst rows cols k alt oi keep)
    (writes_at (high_range rows) (high_range cols)) tt.
Proof.
  unfold convolve_south_east, low_range, high_range.
  region (fun i : Z => (i - r, rows - i + r)) (fun i j : Z => (j - r, cols - j + r, i * cols + j)).
Qed.

Lemma does_north :
  does C m (convolve_north ar ip op src dst rows cols k alt oi keep)
    (writes_at low_range (middle_range cols)) tt.
Proof.
  unfold convolve_north, low_range, middle_range.
  region (fun i : Z => (r - i, r + 1 + i)) (fun i j : Z => (j - r, i * cols + j)).
Qed.

Lemma does_west :
  does C m (convolve_west ar ip op src dst rows cols k alt oi keep)
    (writes_at (middle_range rows) low_range) tt.
Proof.
  unfold convolve_west, low_range, middle_range.
  region (fun i : Z => i - r) (fun i j : Z => (r - j, r + 1 + j, i * cols + j)).
Qed.

Lemma does_east :
  does C m (convolve_east ar ip op src dst rows cols k alt oi keep)
    (writes_at (middle_range rows) (high_range cols)) tt.
Proof.
  unfold convolve_east, high_range, middle_range.
  region (fun i : Z => i - r) (fun i j : Z => (j - r, cols - j + r, i * cols + j)).
Qed.

Lemma does_south :
  does C m (convolve_south ar ip op src dst rows cols k alt oi keep)
    (writes_at (high_range rows) (middle_range cols)) tt.
Proof.
  unfold convolve_south, high_range, middle_range.
  region (fun i : Z => (i - r, rows - i + r)) (fun i j : Z => (j - r, i * cols + j)).
Qed.

Lemma does_inner blk :
  r <= rbegin (fst blk) <= rend (fst blk) -> rend (fst blk) <= rows - r ->
  r <= rbegin (snd blk) <= rend (snd blk) -> rend (snd blk) <= cols - r ->
  does C m (convolve_inner ar ip op src dst rows cols k alt oi keep blk)
    (writes_at (fst blk) (snd blk)) tt.
Proof.
  destruct blk as [[b e] [b' e']]. cbn [fst snd rbegin rend]. intros H1 H2 H3 H4.
  unfold convolve_inner. cbn [fst snd rbegin rend].
  region (fun i : Z => i - r) (fun i j : Z => (j - r, i * cols + j)).
Qed.

(** ** All regions *)

Definition border_places : list (list Z) :=
  [places low_range low_range; places low_range (high_range cols);
   places (high_range rows) low_range; places (high_range rows) (high_range cols);
   places low_range (middle_range cols); places (middle_range rows) low_range;
   places (middle_range rows) (high_range cols); places (high_range rows) (middle_range cols)].

Lemma does_border : Forall2 (fun p ds => does C m p (flat_map (leave op dst result) ds) tt)
  (border_regions ar ip op src dst rows cols k alt oi keep) border_places.
Proof.
  unfold border_regions, border_places. repeat constructor.
  - apply does_north_west. - apply does_north_east. - apply does_south_west. - apply does_south_east.
  - apply does_north. - apply does_west. - apply does_east. - apply does_south.
Qed.

Lemma in_places r1 r2 i : 0 <= rbegin r2 -> rend r2 <= cols ->
  In i (places r1 r2) <->
  (rbegin r1 <= i / cols < rend r1 /\ rbegin r2 <= i mod cols < rend r2 /\ 0 < cols).
Proof.
  intros H1 H2. unfold places. rewrite in_map_iff. split.
  - intros ((x & y) & <- & H). apply in_product in H as [A B].
    unfold indices in A, B. apply in_zrange in A, B. unfold linear. cbn [fst snd].
    rewrite Z.div_add_l by lia. rewrite (Z.div_small y) by lia.
    rewrite (Z.add_comm (x * cols)), Z.mod_add by lia. rewrite Z.mod_small by lia. lia.
  - intros (A & B & D). exists (i / cols, i mod cols). split.
    + unfold linear. cbn [fst snd]. pose proof (Z.div_mod i cols). lia.
    + apply in_product. unfold indices. rewrite !in_zrange. auto.
Qed.

Lemma length_product {A B} (l : list A) (l' : list B) :
  length (product l l') = (length l * length l')%nat.
Proof.
  unfold product. induction l as [|x l IH]; cbn; auto. rewrite app_length, map_length, IH. auto.
Qed.

Lemma length_places r1 r2 : rbegin r1 <= rend r1 -> rbegin r2 <= rend r2 ->
  Z.of_nat (length (places r1 r2)) = (rend r1 - rbegin r1) * (rend r2 - rbegin r2).
Proof.
  intros. unfold places, indices. rewrite map_length, length_product, !length_zrange. nia.
Qed.

Definition all_places : list Z := concat (border_places ++ [places (middle_range rows) (middle_range cols)]).

Lemma all_places_spec : NoDup all_places /\ forall i, In i all_places <-> In i (zrange 0 (rows * cols)).
Proof.
  destruct sizes as (S1 & S2 & S3).
  assert (Hin : forall i, In i all_places <-> In i (zrange 0 (rows * cols))).
  { intros i. unfold all_places, border_places. cbn [concat app].
    rewrite !in_app_iff, in_zrange.
    rewrite !in_places by (cbn; lia).
    unfold low_range, middle_range, high_range. cbn [rbegin rend].
    destruct (Z_le_dec cols 0) as [Hc|Hc].
    { assert (Ec0 : cols = 0) by lia. cbn [In]. split; [intros Hi; exfalso; lia|]. intros Hi. exfalso. nia. }
    pose proof (Z.mod_pos_bound i cols ltac:(lia)).
    assert (Hrow : 0 <= i < rows * cols <-> 0 <= i / cols < rows).
    { pose proof (Z.div_mod i cols ltac:(lia)). nia. }
    rewrite Hrow. cbn [In]. clear Hrow. generalize dependent (i mod cols). intros y Hy.
    generalize (i / cols). intros x. clear -Hc S1 S2 S3 Hy. split.
    - intros H. repeat (destruct H as [H|H]; [lia|]). contradiction.
    - intros H. destruct (Z_lt_dec x r), (Z_lt_dec x (rows - r)), (Z_lt_dec y r), (Z_lt_dec y (cols - r));
        try (exfalso; lia); repeat first [left; lia | right]. }
  split; auto.
  apply (NoDup_incl_NoDup (l := zrange 0 (rows * cols))).
  - apply NoDup_zrange.
  - apply Nat2Z.inj_le. rewrite length_zrange. unfold all_places, border_places. cbn [concat app].
    rewrite !app_length, !Nat2Z.inj_add. rewrite !length_places by (cbn; lia).
    unfold low_range, middle_range, high_range. cbn [rbegin rend length]. nia.
  - intros i Hi. apply Hin; auto.
Qed.

Lemma run_seq_all ps dss : Forall2 (fun p ds => does C m p (flat_map (leave op dst result) ds) tt) ps dss ->
  exists us, does C m (seq_all ps) (flat_map (leave op dst result) (concat dss)) us.
Proof.
  induction 1 as [|p ds ps dss Hp Hps [us IH]]; cbn [seq_all concat flat_map].
  - exists []. split; auto.
  - exists (tt :: us). rewrite flat_map_app. eapply does_bind; [exact Hp|].
    rewrite <- (app_nil_r (flat_map (leave op dst result) (concat dss))).
    eapply does_bind; [exact IH|split; auto].
Qed.

Hypothesis Hres : forall i, 0 <= i < rows * cols -> result_exists op dst m i.
Hypothesis Hmarks : marks_result op dst.

Lemma middle_blocks bs :
  concat (map cells2 bs) = raster_cells (rows - 2 * r) (cols - 2 * r) ->
  concat (map (fun b => places (fst b) (snd b)) (map (shift_block k) bs)) =
  places (middle_range rows) (middle_range cols).
Proof.
  intros H.
  assert (E : forall b, places (fst (shift_block k b)) (snd (shift_block k b)) =
     map (fun c => linear cols (fst c + r, snd c + r)) (cells2 b)).
  { intros [r1 r2]. unfold places, shift_block, indices. cbn [fst snd rbegin rend].
    rewrite product_shift, map_map. reflexivity. }
  rewrite map_map, (map_ext _ _ E), <- (map_map cells2), <- concat_map, H.
  unfold places, middle_range, indices. cbn [rbegin rend].
  assert (E' : product (zrange r (rows - r)) (zrange r (cols - r)) =
     product (zrange (0 + r) (rows - 2 * r + r)) (zrange (0 + r) (cols - 2 * r + r))).
  { f_equal; f_equal; lia. }
  rewrite E', product_shift, map_map. reflexivity.
Qed.

Theorem convolve_computes :
  computes_on (convolve_sequential ar ip op src dst rows cols k alt oi keep)
    (convolve_parallel ar ip op src dst rows cols k alt oi keep)
    op dst (zrange 0 (rows * cols)) (fun i => value_or_no_data (result i)) m.
Proof.
  destruct sizes as (S1 & S2 & S3). destruct all_places_spec as [Hnd Hin].
  assert (Hex' : forall d, In d all_places -> result_exists op dst m d).
  { intros d Hd. apply Hres. apply in_zrange. apply Hin; auto. }
  exists (writes (flat_map (leave op dst result) all_places) m).
  destruct (writes_moves op dst result Hmarks all_places m Hex') as [H1 H2].
  split; [|split; [|split]].
  - apply moves_sequential; auto.
    unfold convolve_sequential.
    rewrite !size_t_small by (unfold size_t_max_plus_1; lia).
    unfold index_range. destruct (Z.leb_spec r (rows - r)); [|lia].
    destruct (Z.leb_spec r (cols - r)); [|lia].
    unfold all_places. rewrite concat_app, flat_map_app. cbn [concat]. rewrite app_nil_r.
    destruct (run_seq_all _ _ does_border) as [us Hus]. eapply does_seq; [exact Hus|].
    apply (does_inner (middle_range rows, middle_range cols)); cbn; lia.
  - intros i Hi. apply H1, Hin; auto.
  - destruct H2 as [A B]. split; intros b i Hb.
    + apply A. destruct Hb as [Hb|Hb]; [auto|]. right. rewrite Hin; auto.
    + apply B. destruct Hb as [Hb|Hb]; [auto|]. right. rewrite Hin; auto.
  - intros n Hn. unfold convolve_parallel.
    destruct (Z.leb_spec (2 * r) rows); [|lia]. destruct (Z.leb_spec (2 * r) cols); [|lia]. cbn [andb].
    rewrite !size_t_small by (unfold size_t_max_plus_1; lia).
    destruct (index_ranges_2d_spec n (rows - 2 * r) (cols - 2 * r) Hn) as (bs & E1 & _ & E3 & E4);
      [unfold size_t_max_plus_1; lia|lia|].
    rewrite E1. cbn [option_map]. eexists; split; [reflexivity|].
    set (dss := border_places ++ map (fun b => places (fst b) (snd b)) (map (shift_block k) bs)).
    assert (Ed : concat dss = all_places).
    { unfold dss, all_places. rewrite !concat_app. f_equal. cbn [concat]. rewrite app_nil_r.
      apply middle_blocks; auto. }
    rewrite <- Ed. apply moves_parallel; auto.
    + apply Forall2_app; [apply does_border|].
      clear -E4 Hex Hsrc Hap Hlarge Hrep S1 S2 S3.
      induction bs as [|b bs IH]; [constructor|]. inversion E4 as [|? ? Hb Hbs]; subst.
      cbn [map]. constructor; [|apply IH; auto].
      destruct b as [[b e] r2]. cbn [fst snd] in Hb. destruct Hb as (Q & Q0 & ->).
      destruct Q as [Q1 Q2]. cbn [rbegin rend] in *.
      apply does_inner; cbn [shift_block fst snd rbegin rend]; lia.
    + apply NoDup_concat_disjoint. rewrite Ed; auto.
    + rewrite Ed; auto.
Qed.
End Focus.
