(** Proofs about gradients. *)
From Coq Require Import ZArith List Bool Lia.
From Verif Require Import LangModel LangProofs ConcModel IndexModel IndexSpec IndexProofs
  LoopModel LoopSpec LoopProofs PolicyModel LocalSpec LocalProofs FrozenProofs CoreModel
  CoreSpec CoreProofs MoveProofs CopySpec CopyProofs OffsetProofs ConvolveSpec ConvolveProofs
  GradientModel GradientSpec.
Import ListNotations.
Open Scope Z_scope.

Section Gradient.
Context {V D : Type}.
Variable ds : differences V D.
Variable cell_size : Z -> D.
Variables (ip : inpol V) (op : outpol V) (src dst : buf) (rows cols : Z) (m : mem V).
Hypothesis Hstored : stored_apart ip src rows cols m op dst.

Notation C := (unwritten op dst).
Notation in_image := (in_image rows cols).
Notation cell_value := (cell_value ip src rows cols m).

Section Cells.
Variable x : Z -> option V.
Notation leave := (leave op dst x).

Lemma bounds c : in_image c = true -> 0 <= linear cols c < rows * cols.
Proof. intros H. apply in_image_spec in H. unfold linear. nia. Qed.

Lemma does_rd c v : in_image c = true -> cell_value c = Some v ->
  does C m (rdv src (linear cols c)) [] v.
Proof.
  intros Hc Hv. unfold cell_value in Hv. rewrite Hc in Hv. unfold value_at, arg_at in Hv.
  destruct (nd_at ip m (linear cols c)); [discriminate|].
  cbn. split; [|eauto]. destruct Hstored as (_ & Hsrc & _). unfold unwritten. cbn.
  destruct (Nat.eqb_spec src dst); [congruence|auto].
Qed.

Lemma does_is_no_data c : in_image c = true ->
  does C m (is_no_data ip (linear cols c)) []
    (match cell_value c with Some _ => false | None => true end).
Proof.
  intros Hc. pose proof (bounds c Hc) as Hb. destruct Hstored as (Hex & _ & Hap & _).
  destruct (Hex _ Hb) as [[H1 H2] _].
  replace (match cell_value c with Some _ => false | None => true end) with (nd_at ip m (linear cols c)).
  - apply does_nd; auto.
  - unfold cell_value. rewrite Hc. unfold value_at, arg_at. destruct (nd_at ip m (linear cols c)); auto.
    destruct (mval m src (linear cols c)); [auto|congruence].
Qed.

Lemma does_valid c : in_image c = true ->
  does C m (valid ip (linear cols c)) []
    (match cell_value c with Some _ => true | None => false end).
Proof.
  intros Hc. eapply does_bind0; [apply does_is_no_data; auto|].
  destruct (cell_value c); cbn; auto.
Qed.

Lemma does_write_gradient c1 c2 d c v1 v2 : in_image c1 = true -> in_image c2 = true ->
  cell_value c1 = Some v1 -> cell_value c2 = Some v2 ->
  x (linear cols c) = Some (gradient ds v1 v2 d) ->
  does C m (write_gradient ds src dst (linear cols c1) (linear cols c2) d (linear cols c))
    (leave (linear cols c)) tt.
Proof.
  intros H1 H2 E1 E2 Ex. unfold write_gradient, MoveProofs.leave. rewrite Ex.
  eapply does_bind0; [apply does_rd; eauto|]. eapply does_bind0; [apply does_rd; eauto|].
  cbn. eauto.
Qed.

Lemma does_zero c : x (linear cols c) = Some (zero ds) ->
  does C m (wrv dst (linear cols c) (zero ds)) (leave (linear cols c)) tt.
Proof. intros Ex. unfold MoveProofs.leave. rewrite Ex. cbn. eauto. Qed.

Lemma does_first_cell d c n ic iN inside : ic = linear cols c -> iN = linear cols n ->
  in_image c = true -> in_image n = true -> inside = true ->
  x ic = option_map (fun v => slope_between ds d None v (cell_value n)) (cell_value c) ->
  does C m (first_cell ds ip op src dst inside d ic iN) (leave ic) tt.
Proof.
  intros -> -> Hc Hn -> Ex. unfold first_cell.
  eapply does_ifp; [apply does_is_no_data; auto|].
  destruct (cell_value c) as [v|] eqn:Ec; cbn [option_map] in Ex.
  - eapply does_ifp; [apply does_valid; auto|].
    destruct (cell_value n) as [w|] eqn:En; cbn in Ex.
    + eapply does_write_gradient; eauto.
    + apply does_zero; auto.
  - unfold MoveProofs.leave. rewrite Ex. apply does_mark.
Qed.

Lemma does_last_cell d p c iP ic inside : ic = linear cols c -> iP = linear cols p ->
  in_image c = true -> in_image p = true -> inside = true ->
  x ic = option_map (fun v => slope_between ds d (cell_value p) v None) (cell_value c) ->
  does C m (last_cell ds ip op src dst inside d iP ic) (leave ic) tt.
Proof.
  intros -> -> Hc Hn -> Ex. unfold last_cell.
  eapply does_ifp; [apply does_is_no_data; auto|].
  destruct (cell_value c) as [v|] eqn:Ec; cbn [option_map] in Ex.
  - eapply does_ifp; [apply does_valid; auto|].
    destruct (cell_value p) as [w|] eqn:En; cbn in Ex.
    + eapply does_write_gradient; eauto.
    + apply does_zero; auto.
  - unfold MoveProofs.leave. rewrite Ex. apply does_mark.
Qed.

Lemma does_inner_cell d p c n iP ic iN inside : ic = linear cols c -> iP = linear cols p ->
  iN = linear cols n ->
  in_image c = true -> in_image p = true -> in_image n = true -> inside = true ->
  x ic = option_map (fun v => slope_between ds d (cell_value p) v (cell_value n)) (cell_value c) ->
  does C m (inner_cell ds ip op src dst inside d (add_distance ds d d) iP ic iN) (leave ic) tt.
Proof.
  intros -> -> -> Hc Hp Hn -> Ex. unfold inner_cell.
  eapply does_ifp; [apply does_is_no_data; auto|].
  destruct (cell_value c) as [v|] eqn:Ec; cbn [option_map] in Ex.
  - eapply does_ifp; [apply does_valid; auto|].
    destruct (cell_value p) as [w|] eqn:Ep; (eapply does_ifp; [apply does_valid; auto|]);
      destruct (cell_value n) as [u|] eqn:En; cbn in Ex;
      try (eapply does_write_gradient; eauto); apply does_zero; auto.
  - unfold MoveProofs.leave. rewrite Ex. apply does_mark.
Qed.

(** Rows of cells. *)
Lemma does_row {Y} i b e (body : Z -> Y -> prog V Y) (s : Z -> Y) :
  (forall j, b <= j < e -> does C m (body j (s j)) (leave (i * cols + j)) (s (j + 1))) ->
  does C m (seq (fold_range b e body (s b)) skip)
    (flat_map leave (map (fun j => i * cols + j) (zrange b e))) tt.
Proof.
  intros H. rewrite flat_map_map. destruct (Z_le_dec b e).
  - eapply does_seq_skip. apply (does_fold_range C m b e body s (fun j => leave (i * cols + j))); auto.
  - rewrite zrange_nil by lia. rewrite fold_range_empty by lia. cbn. auto.
Qed.

Lemma does_rect b e b' e' (row : Z -> prog V unit) :
  (forall i, b <= i < e ->
     does C m (row i) (flat_map leave (map (fun j => i * cols + j) (zrange b' e'))) tt) ->
  does C m (for_range b e row)
    (flat_map leave (block_elements cols ({| rbegin := b; rend := e |}, {| rbegin := b'; rend := e' |}))) tt.
Proof.
  intros H.
  assert (E : flat_map leave (block_elements cols ({| rbegin := b; rend := e |}, {| rbegin := b'; rend := e' |})) =
     flat_map (fun i => flat_map leave (map (fun j => i * cols + j) (zrange b' e'))) (zrange b e)).
  { unfold block_elements, cells2, indices. cbn [fst snd rbegin rend]. clear H.
    induction (zrange b e) as [|i l IH]; cbn; auto.
    rewrite map_app, flat_map_app, IH. f_equal. rewrite map_map. reflexivity. }
  rewrite E. apply (does_loop1 C m {| rbegin := b; rend := e |} row).
  intros j Hj. apply H. apply in_zrange in Hj; auto.
Qed.
End Cells.

Definition mk (b e : Z) : range := {| rbegin := b; rend := e |}.

Definition res_x (i : Z) : option V :=
  expected_x ds ip src rows cols m (cell_size 0) (i / cols, i mod cols).
Definition res_y (i : Z) : option V :=
  expected_y ds ip src rows cols m (cell_size 1) (i / cols, i mod cols).

Lemma outside c : in_image c = false -> cell_value c = None.
Proof. intros H. unfold GradientSpec.cell_value. rewrite H; auto. Qed.

Lemma not_inside i j : ~ (0 <= i < rows /\ 0 <= j < cols) -> in_image (i, j) = false.
Proof.
  intros H. destruct (in_image (i, j)) eqn:E; auto. apply in_image_spec in E. cbn in E. tauto.
Qed.

Lemma inside i j : 0 <= i < rows -> 0 <= j < cols -> in_image (i, j) = true.
Proof. intros. apply in_image_spec. cbn. auto. Qed.

Lemma divmod_cell i j : 0 <= j < cols -> (i * cols + j) / cols = i /\ (i * cols + j) mod cols = j.
Proof.
  intros H. split.
  - rewrite Z.div_add_l, Z.div_small by lia. lia.
  - rewrite Z.add_comm, Z.mod_add, Z.mod_small by lia. auto.
Qed.

Lemma res_x_at i j : 0 <= i < rows -> 0 <= j < cols ->
  res_x (i * cols + j) =
  option_map (fun v => slope_between ds (cell_size 0) (cell_value (i, j - 1)) v (cell_value (i, j + 1)))
    (cell_value (i, j)).
Proof.
  intros Hi Hj. unfold res_x. destruct (divmod_cell i j Hj) as [-> ->]. reflexivity.
Qed.

Lemma res_y_at i j : 0 <= i < rows -> 0 <= j < cols ->
  res_y (i * cols + j) =
  option_map (fun v => slope_between ds (cell_size 1) (cell_value (i - 1, j)) v (cell_value (i + 1, j)))
    (cell_value (i, j)).
Proof.
  intros Hi Hj. unfold res_y. destruct (divmod_cell i j Hj) as [-> ->]. reflexivity.
Qed.

(** The elements of a block, in the order in which they are visited. *)
Definition places_x (b e : Z) : list Z :=
  block_elements cols (mk b e, mk 0 1) ++ block_elements cols (mk b e, mk (cols - 1) cols) ++
  block_elements cols (mk b e, mk 1 (cols - 1)).
Definition places_y (b e : Z) : list Z :=
  block_elements cols (mk b 1, mk 0 cols) ++ block_elements cols (mk (rows - 1) e, mk 0 cols) ++
  block_elements cols (mk (Z.max 1 b) (Z.min (rows - 1) e), mk 0 cols).

Lemma does_x b e : 0 <= b <= e -> e <= rows -> 2 <= cols < 2 ^ 64 ->
  does C m (gradient_x_2d ds cell_size ip op src dst cols (mk b e, whole1 cols))
    (flat_map (leave op dst res_x) (places_x b e)) tt.
Proof.
  intros Hb He Hc. unfold gradient_x_2d, places_x, whole1, mk. cbn [rbegin rend].
  rewrite size_t_small by (unfold size_t_max_plus_1; lia).
  rewrite Z.max_l, Z.min_l by lia. rewrite !flat_map_app.
  eapply does_seq; [|eapply does_seq].
  - apply does_rect. intros i Hi.
    apply (does_row res_x i 0 1 _ (fun j => (i * cols + j, i * cols + j + 1))).
    intros j Hj. rewrite <- (app_nil_r (leave op dst res_x (i * cols + j))).
    eapply does_seq; [|cbn; split; [auto|f_equal; lia]].
    eapply (does_first_cell res_x _ (i, j) (i, j + 1)); unfold linear; cbn [fst snd].
    + auto. + lia. + apply inside; lia. + apply inside; lia. + apply Z.ltb_lt; lia.
    + rewrite res_x_at by lia. rewrite (outside (i, j - 1)); auto. apply not_inside; lia.
  - apply does_rect. intros i Hi.
    destruct (Z.ltb_spec 0 (i * cols + (cols - 1))); [|nia].
    apply (does_row res_x i (cols - 1) cols _ (fun j => (i * cols + j - 1, i * cols + j))).
    intros j Hj. rewrite <- (app_nil_r (leave op dst res_x (i * cols + j))).
    eapply does_seq; [|cbn; split; [auto|f_equal; lia]].
    eapply (does_last_cell res_x _ (i, j - 1) (i, j)); unfold linear; cbn [fst snd].
    + auto. + lia. + apply inside; lia. + apply inside; lia. + apply Z.ltb_lt; lia.
    + rewrite res_x_at by lia. rewrite (outside (i, j + 1)); auto. apply not_inside; lia.
  - apply does_rect. intros i Hi.
    apply (does_row res_x i 1 (cols - 1) _ (fun j => (i * cols + j - 1, i * cols + j, i * cols + j + 1))).
    intros j Hj. rewrite <- (app_nil_r (leave op dst res_x (i * cols + j))).
    eapply does_seq; [|cbn; split; [auto|f_equal; [f_equal|]; lia]].
    eapply (does_inner_cell res_x _ (i, j - 1) (i, j) (i, j + 1)); unfold linear; cbn [fst snd].
    + auto. + lia. + lia. + apply inside; lia. + apply inside; lia. + apply inside; lia.
    + apply andb_true_iff. split; apply Z.ltb_lt; lia.
    + rewrite res_x_at by lia. reflexivity.
Qed.

Lemma does_y b e : 0 <= b <= e -> e <= rows -> 2 <= rows < 2 ^ 64 -> 0 <= cols ->
  does C m (gradient_y_2d ds cell_size ip op src dst rows cols (mk b e, whole1 cols))
    (flat_map (leave op dst res_y) (places_y b e)) tt.
Proof.
  intros Hb He Hr Hc. unfold gradient_y_2d, places_y, whole1, mk. cbn [rbegin rend].
  rewrite (size_t_small (rows - 1)) by (unfold size_t_max_plus_1; lia).
  rewrite !flat_map_app.
  eapply does_seq; [|eapply does_seq].
  - apply does_rect. intros i Hi.
    apply (does_row res_y i 0 cols _ (fun j => (i * cols + j, (i + 1) * cols + j))).
    intros j Hj. rewrite <- (app_nil_r (leave op dst res_y (i * cols + j))).
    eapply does_seq; [|cbn [does]; split; [auto|f_equal; lia]].
    eapply (does_first_cell res_y _ (i, j) (i + 1, j)); unfold linear; cbn [fst snd].
    + auto. + lia. + apply inside; lia. + apply inside; lia. + apply Z.ltb_lt; lia.
    + rewrite res_y_at by lia. rewrite (outside (i - 1, j)); auto. apply not_inside; lia.
  - apply does_rect. intros i Hi. rewrite (size_t_small (i - 1)) by (unfold size_t_max_plus_1; lia).
    apply (does_row res_y i 0 cols _ (fun j => ((i - 1) * cols + j, i * cols + j))).
    intros j Hj. rewrite <- (app_nil_r (leave op dst res_y (i * cols + j))).
    eapply does_seq; [|cbn [does]; split; [auto|f_equal; lia]].
    eapply (does_last_cell res_y _ (i - 1, j) (i, j)); unfold linear; cbn [fst snd].
    + auto. + lia. + apply inside; lia. + apply inside; lia. + apply Z.ltb_lt; lia.
    + rewrite res_y_at by lia. rewrite (outside (i + 1, j)); auto. apply not_inside; lia.
  - apply does_rect. intros i Hi.
    assert (Hi' : 1 <= i < rows - 1) by lia.
    rewrite (size_t_small (i - 1)) by (unfold size_t_max_plus_1; lia).
    apply (does_row res_y i 0 cols _ (fun j => ((i - 1) * cols + j, i * cols + j, (i + 1) * cols + j))).
    intros j Hj. rewrite <- (app_nil_r (leave op dst res_y (i * cols + j))).
    eapply does_seq; [|cbn [does]; split; [auto|f_equal; [f_equal|]; lia]].
    eapply (does_inner_cell res_y _ (i - 1, j) (i, j) (i + 1, j)); unfold linear; cbn [fst snd].
    + auto. + lia. + lia. + apply inside; lia. + apply inside; lia. + apply inside; lia.
    + apply andb_true_iff. split; apply Z.ltb_lt; lia.
    + rewrite res_y_at by lia. reflexivity.
Qed.

Lemma in_mk a b c d x : In x (block_elements cols (mk a b, mk c d)) <->
  exists i j, a <= i < b /\ c <= j < d /\ x = i * cols + j.
Proof. apply in_block_elements. Qed.

Lemma in_places_x b e x : 2 <= cols ->
  In x (places_x b e) <-> In x (block_elements cols (mk b e, whole1 cols)).
Proof.
  intros Hc. unfold places_x. change (whole1 cols) with (mk 0 cols). rewrite !in_app_iff, !in_mk. split.
  - intros [(i & j & H)|[(i & j & H)|(i & j & H)]]; exists i, j; lia.
  - intros (i & j & H1 & H2 & H3).
    destruct (Z.eq_dec j 0); [left; exists i, j; lia|]. right.
    destruct (Z.eq_dec j (cols - 1)); [left; exists i, j; lia|]. right. exists i, j; lia.
Qed.

Lemma in_places_y b e x : 0 <= b < e -> e <= rows -> 2 <= rows ->
  In x (places_y b e) <-> In x (block_elements cols (mk b e, whole1 cols)).
Proof.
  intros Hb He Hr. unfold places_y. change (whole1 cols) with (mk 0 cols). rewrite !in_app_iff, !in_mk. split.
  - intros [(i & j & H)|[(i & j & H)|(i & j & H)]]; exists i, j; lia.
  - intros (i & j & H1 & H2 & H3).
    destruct (Z.eq_dec i 0); [left; exists i, j; lia|]. right.
    destruct (Z.eq_dec i (rows - 1)); [left; exists i, j; lia|]. right. exists i, j; lia.
Qed.

(** Writing results more than once, or in another order, makes no difference. *)
Lemma writes_same x l l' : (forall d, In d l -> result_exists op dst m d) ->
  (forall d, In d l <-> In d l') ->
  mem_eq (writes (flat_map (leave op dst x) l) m) (writes (flat_map (leave op dst x) l') m).
Proof.
  intros Hex Hin. destruct Hstored as (_ & _ & _ & Hmarks).
  destruct (writes_moves op dst x Hmarks l m Hex) as [H1 [H2 H3]].
  destruct (writes_moves op dst x Hmarks l' m) as [H1' [H2' H3']].
  { intros d Hd. apply Hex, Hin; auto. }
  intros [b i|b i]; cbn.
  - destruct (Nat.eq_dec b dst) as [->|Hb]; [|rewrite H2, H2'; auto].
    destruct (in_dec Z.eq_dec i l) as [Hi|Hi].
    + destruct (H1 i Hi) as [-> _]. destruct (H1' i (proj1 (Hin i) Hi)) as [-> _]. auto.
    + rewrite H2, H2'; auto. right. rewrite <- Hin; auto.
  - destruct (in_dec Z.eq_dec i l) as [Hi|Hi].
    + destruct (mask_buffer op) as [c|] eqn:Ec.
      * destruct (Nat.eq_dec c b) as [->|Hb]; [|rewrite H3, H3'; auto; left; congruence].
        destruct (H1 i Hi) as [_ ->]; auto. destruct (H1' i (proj1 (Hin i) Hi)) as [_ ->]; auto.
      * rewrite H3, H3'; auto; left; congruence.
    + rewrite H3, H3'; auto. right. rewrite <- Hin; auto.
Qed.

Lemma yields_eq tasks m1 m2 : always_yields tasks m m1 -> mem_eq m1 m2 -> always_yields tasks m m2.
Proof.
  intros [H1 H2] E. split; auto. intros sched. destruct (H2 sched) as (ps & m' & A & B & F).
  exists ps, m'. split; auto. split; auto. intros Hd l. eapply same_at_trans; [apply B; auto|apply E].
Qed.

(** A function on blocks that visits the elements of its block. *)
Lemma blocks_compute (f : block2 -> prog V unit) x (places : Z -> Z -> list Z) :
  0 <= rows < 2 ^ 64 -> 0 <= cols -> 
  (forall b e, 0 <= b < e -> e <= rows ->
     does C m (f (mk b e, whole1 cols)) (flat_map (leave op dst x) (places b e)) tt /\
     forall i, In i (places b e) <-> In i (block_elements cols (mk b e, whole1 cols))) ->
  (0 < rows \/ f (whole2 rows cols) = Ret tt) ->
  computes_on (f (whole2 rows cols)) (fun n => par2 n rows cols f) op dst
    (zrange 0 (rows * cols)) (fun i => value_or_no_data (x i)) m.
Proof.
  intros Hr Hc Hf H0. pose proof Hstored as (Hex & _ & _ & Hmarks).
  assert (Hz : forall b e i, 0 <= b -> e <= rows -> In i (block_elements cols (mk b e, whole1 cols)) ->
             result_exists op dst m i).
  { intros b e i Hb He Hi. apply Hex. apply in_block_elements in Hi as (r & c & A & B & ->).
    cbn in A, B. nia. }
  destruct (Z.eq_dec rows 0) as [E0|N0].
  { destruct H0 as [H0|H0]; [lia|]. rewrite H0, E0. cbn [Z.mul]. rewrite zrange_nil by lia.
    exists m. split; [reflexivity|]. split; [intros i []|]. split; [split; auto|].
    intros n Hn. unfold par2.
    destruct (blocks2_elements n 0 cols Hn) as (bs & E1 & E2 & E3); try lia.
    rewrite E1. cbn [option_map].
    assert (bs = []) as ->.
    { destruct bs as [|b bs]; auto. inversion E3 as [|? ? Hb _]; subst. destruct Hb as (A & B & _).
      unfold well_formed in A. lia. }
    eexists. split; [reflexivity|]. cbn [map]. apply (moves_parallel op dst x Hmarks [] []); auto.
    - intros i j ds0 ds' d _ H. destruct i; discriminate.
    - intros d []. }
  assert (Hpos : 0 < rows) by lia. clear H0 N0.
  destruct (Hf 0 rows) as [D1 D2]; try lia.
  change (mk 0 rows, whole1 cols) with (whole2 rows cols) in D1, D2.
  rewrite block_elements_whole in D2 by auto.
  assert (He : forall d, In d (places 0 rows) -> result_exists op dst m d).
  { intros d Hd. apply Hex. apply in_zrange. apply D2; auto. }
  destruct (writes_moves op dst x Hmarks (places 0 rows) m He) as [W1 [W2 W3]].
  exists (writes (flat_map (leave op dst x) (places 0 rows)) m). split; [|split; [|split]].
  - apply moves_sequential; auto.
  - intros i Hi. apply W1, D2; auto.
  - split; intros b i Hb; [apply W2|apply W3]; destruct Hb as [Hb|Hb]; auto; right; rewrite D2; auto.
  - intros n Hn. unfold par2.
    destruct (blocks2_elements n rows cols Hn) as (bs & E1 & E2 & E3); try lia.
    rewrite E1. cbn [option_map]. eexists. split; [reflexivity|].
    set (dss := map (fun b : block2 => places (rbegin (fst b)) (rend (fst b))) bs).
    assert (Hd : forall k b, nth_error bs k = Some b -> 
        does C m (f b) (flat_map (leave op dst x) (places (rbegin (fst b)) (rend (fst b)))) tt /\
        forall i, In i (places (rbegin (fst b)) (rend (fst b))) <-> In i (block_elements cols b)).
    { intros k b Hk. apply nth_error_In in Hk. rewrite Forall_forall in E3.
      destruct (E3 b Hk) as (A & B & F). destruct b as [[b e] r2]. cbn [fst snd rbegin rend] in *.
      subst r2. unfold well_formed in A. cbn in A. apply (Hf b e); auto; lia. }
    assert (Hin : forall d, In d (concat dss) <-> In d (zrange 0 (rows * cols))).
    { intros d. rewrite <- E2. unfold dss. rewrite !in_concat. split.
      - intros (l & Hl & Hdl). apply in_map_iff in Hl as (b & <- & Hb).
        exists (block_elements cols b). split; [apply in_map; auto|].
        apply In_nth_error in Hb as (k & Hk). apply (Hd k b Hk); auto.
      - intros (l & Hl & Hdl). apply in_map_iff in Hl as (b & <- & Hb).
        exists (places (rbegin (fst b)) (rend (fst b))). split.
        + apply (in_map (fun b : block2 => places (rbegin (fst b)) (rend (fst b)))); auto.
        + apply In_nth_error in Hb as (k & Hk). apply (Hd k b Hk); auto. }
    assert (Hex2 : forall d, In d (concat dss) -> result_exists op dst m d).
    { intros d Hdd. apply Hex. apply in_zrange. apply Hin; auto. }
    eapply yields_eq.
    + apply (moves_parallel op dst x Hmarks (map f bs) dss); auto.
      * unfold dss. clear -Hd. assert (G : forall k b, nth_error bs k = Some b ->
          does C m (f b) (flat_map (leave op dst x) (places (rbegin (fst b)) (rend (fst b)))) tt)
          by (intros k b Hk; apply (Hd k b Hk)). clear Hd.
        induction bs as [|b bs IH]; cbn; constructor.
        -- apply (G O); auto.
        -- apply IH. intros k c Hk. apply (G (S k)); auto.
      * intros i j d1 d2 d Hij Hi Hj H1 H2. unfold dss in Hi, Hj. rewrite nth_error_map in Hi, Hj.
        destruct (nth_error bs i) as [b1|] eqn:B1; [|discriminate].
        destruct (nth_error bs j) as [b2|] eqn:B2; [|discriminate].
        injection Hi as <-. injection Hj as <-.
        apply (Hd i b1 B1) in H1. apply (Hd j b2 B2) in H2.
        apply (NoDup_concat_disjoint (map (block_elements cols) bs)) with (i := i) (j := j)
          (ds := block_elements cols b1) (ds' := block_elements cols b2) (d := d); auto.
        -- rewrite E2. apply NoDup_zrange.
        -- rewrite nth_error_map, B1; auto.
        -- rewrite nth_error_map, B2; auto.
    + apply writes_same; auto. intros d. rewrite Hin, D2. tauto.
Qed.

Theorem gradient_x_computes : 0 <= rows < 2 ^ 64 -> 2 <= cols < 2 ^ 64 ->
  computes_on (gradient_x_sequential ds cell_size ip op src dst rows cols)
    (gradient_x_parallel ds cell_size ip op src dst rows cols) op dst
    (zrange 0 (rows * cols)) (fun i => value_or_no_data (res_x i)) m.
Proof.
  intros Hr Hc. apply (blocks_compute (gradient_x_2d ds cell_size ip op src dst cols) res_x places_x); try lia.
  - intros b e Hb He. split; [apply does_x; lia|]. intros i. apply in_places_x; lia.
  - destruct (Z.eq_dec rows 0) as [->|N]; [|lia]. right.
    unfold gradient_x_2d, whole2, whole1. cbn [rbegin rend]. unfold for_range, fold_range at 1 3 5.
    cbn. reflexivity.
Qed.

Theorem gradient_y_computes : 2 <= rows < 2 ^ 64 -> 0 <= cols ->
  computes_on (gradient_y_sequential ds cell_size ip op src dst rows cols)
    (gradient_y_parallel ds cell_size ip op src dst rows cols) op dst
    (zrange 0 (rows * cols)) (fun i => value_or_no_data (res_y i)) m.
Proof.
  intros Hr Hc. apply (blocks_compute (gradient_y_2d ds cell_size ip op src dst rows cols) res_y places_y); try lia.
  intros b e Hb He. split; [apply does_y; lia|]. intros i. apply in_places_y; lia.
Qed.
End Gradient.
