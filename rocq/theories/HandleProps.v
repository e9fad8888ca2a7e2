(** * C91: handles of datasets *)
From Coq Require Import ZArith List Bool Arith Permutation Lia.
From Verif Require Import HandleModel HandleSpec HandleProofs.
Import ListNotations.
Open Scope Z_scope.

(** Whether handles of a kind are never empty *)
Lemma kind_dec k : (k = Gdal \/ k = Netcdf) \/ (k = Hdf5 \/ k = Hdf5File).
Proof. destruct k; auto. Qed.

Definition full (k : kind) (s : state) : Prop := k = Gdal \/ k = Netcdf -> forall h, ~ holds s h 0.

Lemma act_one k debug a s : one_handle s -> full k s -> possible k a s -> k = Hdf5 \/ ~ is_move a ->
  exists s', act k debug a s = Ok s' /\ one_handle s' /\ full k s'.
Proof.
  intros O F P M. pose proof O as (N & D & Q & G & R).
  destruct a as [h id|h|h g|h g|h|h|h]; cbn [act possible] in *.
  - destruct P as (A & Z & I). eexists. split; [reflexivity|]. split.
    + split; [|split; [|split; [|split]]]; cbn [handles opened refused map fst].
      * constructor; assumption.
      * constructor; assumption.
      * rewrite held_ids. cbn [set_handles handles]. rewrite ids_cons. destruct (Z.eqb_spec id 0); [lia|]. constructor. exact Q.
      * constructor; assumption.
      * exact R.
    + intros K x [E|E]; [injection E as _ E; lia|exact (F K x E)].
  - destruct P as (A & K). eexists. split; [reflexivity|]. split.
    + split; [|split; [|split; [|split]]]; cbn; try assumption. constructor; assumption.
    + intros K'. destruct K as [->| ->]; destruct K'; discriminate.
  - destruct M as [->|M]; [|exfalso; apply M; exact I]. destruct P as (A & B & _).
    destruct (get_alive _ _ B) as (id & E). rewrite E. apply get_in in E.
    destruct (handle_split _ _ _ N E) as (l & r & L & _ & _ & _ & U & _). rewrite U. eexists. split; [reflexivity|]. split.
    + split; [|split; [|split; [|split]]]; cbn [set_handles handles opened refused]; try assumption.
      * cbn. constructor.
        -- intros X. apply A. unfold alive. rewrite L. rewrite map_app in *. exact X.
        -- rewrite L in N. rewrite map_app in *. exact N.
      * rewrite held_ids in *. cbn [set_handles handles]. rewrite L in Q. rewrite ids_app, ids_cons in Q.
        rewrite ids_cons, ids_app, ids_cons. cbn [left_behind Z.eqb app].
        etransitivity; [exact Q|]. rewrite app_assoc, app_assoc. apply Permutation_app_tail. apply Permutation_app_comm.
    + intros [K|K]; discriminate.
  - destruct M as [->|M]; [|exfalso; apply M; exact I]. destruct P as (A & B & _).
    destruct (get_alive _ _ A) as (old & Eo). destruct (get_alive _ _ B) as (id & E). rewrite Eo, E. apply get_in in Eo.
    destruct (handle_split _ _ _ N Eo) as (l & r & L & Al & Ar & _ & U & _).
    destruct (release_one Hdf5 s h old l r O L) as (s1 & R1 & H1 & Z1 & T1 & D1 & F1 & P1 & I1); [intros [K|K]; discriminate|].
    rewrite R1. cbn [bind]. rewrite H1, U. apply get_in in E.
    assert (N' : NoDup (map fst (l ++ (h, id) :: r))).
    { rewrite L in N. rewrite map_app in *. exact N. }
    destruct (Nat.eq_dec g h) as [->|Ng].
    + destruct (handle_split _ h id N' (in_elt _ _ _)) as (l' & r' & L' & _ & _ & _ & U' & _).
      rewrite put_app, (put_absent l) by exact Al.
      change (put ((h, id) :: r) h (left_behind Hdf5 id)) with ((if Nat.eqb h h then (h, 0) else (h, id)) :: put r h 0).
      rewrite Nat.eqb_refl, put_absent by exact Ar. eexists. split; [reflexivity|]. split; [|intros [K|K]; discriminate].
      split; [|split; [|split; [|split]]]; cbn [set_handles handles opened refused]; try assumption.
      * rewrite map_app in *. exact N'.
      * rewrite held_ids. cbn [set_handles handles]. rewrite ids_app, ids_cons. cbn [Z.eqb app]. rewrite <- ids_app. exact P1.
    + assert (Eg : In (g, id) (l ++ (h, id) :: r)).
      { rewrite L in E. apply in_app_iff in E. apply in_app_iff. destruct E as [E|[E|E]]; auto.
        - injection E as E _. congruence.
        - right. right. exact E. }
      destruct (handle_split _ g id N' Eg) as (l' & r' & L' & _ & _ & _ & U' & _). rewrite U'.
      eexists. split; [reflexivity|]. split; [|intros [K|K]; discriminate].
      split; [|split; [|split; [|split]]]; cbn [set_handles handles opened refused]; try assumption.
      * rewrite L' in N'. rewrite map_app in *. exact N'.
      * rewrite held_ids. cbn [set_handles handles]. cbn [left_behind].
        assert (X : Permutation (ids (l ++ (h, id) :: r)) ((if id =? 0 then [] else [id]) ++ ids (l ++ r))).
        { rewrite !ids_app, ids_cons, !app_assoc. apply Permutation_app_tail, Permutation_app_comm. }
        assert (Y : Permutation (ids (l' ++ (g, id) :: r')) ((if id =? 0 then [] else [id]) ++ ids (l' ++ (g, 0) :: r'))).
        { rewrite !ids_app, !ids_cons. cbn [Z.eqb app]. rewrite !app_assoc. apply Permutation_app_tail, Permutation_app_comm. }
        rewrite <- L' in Y. etransitivity; [exact P1|]. apply (Permutation_app_inv_l (if id =? 0 then [] else [id])).
        etransitivity; [symmetry; exact X|exact Y].
  - destruct (get_alive _ _ P) as (id & E). rewrite E. apply get_in in E.
    destruct (handle_split _ _ _ N E) as (l & r & L & Al & Ar & _ & _ & U).
    destruct (release_one k s h id l r O L) as (s1 & R1 & H1 & Z1 & T1 & D1 & F1 & P1 & I1).
    { intros K ->. exact (F K h E). }
    rewrite R1. cbn [bind]. rewrite H1, U. eexists. split; [reflexivity|]. split.
    + split; [|split; [|split; [|split]]]; cbn [set_handles handles opened refused]; try assumption.
      rewrite L, map_app in N. cbn in N. apply NoDup_remove_1 in N. rewrite map_app. exact N.
    + intros K x X. cbn in X. apply (F K x). unfold holds. rewrite L. apply in_app_iff in X. apply in_app_iff.
      destruct X; [left|right; right]; assumption.
  - destruct P as (id & H & Nz). destruct (handle_split _ _ _ N H) as (l & r & L & Al & Ar & E & _ & _). rewrite E.
    destruct (one_positive s h id O H) as [|[C I]]; [contradiction|]. unfold use, check.
    replace (0 <? id) with true by (symmetry; apply Z.ltb_lt; exact C).
    exists s. split; [|auto]. destruct k; cbn [negb]; rewrite andb_false_r; cbn [bind]; rewrite (proj2 (is_open_spec s id) I); reflexivity.
  - destruct P as (-> & id & H & Nz). destruct (handle_split _ _ _ N H) as (l & r & L & Al & Ar & E & _ & _). rewrite E.
    destruct (one_positive s h id O H) as [|[C I]]; [contradiction|]. unfold use, check.
    replace (0 <? id) with true by (symmetry; apply Z.ltb_lt; exact C).
    cbn [negb]. rewrite andb_false_r. cbn [bind]. rewrite (proj2 (is_open_spec s id) I). cbn [bind].
    rewrite (proj2 (is_open_spec s id) I). eexists. split; [reflexivity|]. split; [exact O|]. intros [K|K]; discriminate.
Qed.

Lemma run_one k debug l : forall s, one_handle s -> full k s -> possible_all k debug l s -> k = Hdf5 \/ (forall a, In a l -> ~ is_move a) ->
  exists s', run k debug l s = Ok s' /\ one_handle s' /\ full k s'.
Proof.
  induction l as [|a l IH]; intros s O F P M; [exists s; auto|].
  destruct P as [P Q]. destruct (act_one k debug a s O F P) as (s1 & E & O1 & F1).
  { destruct M as [M|M]; [left; exact M|right; apply M; left; reflexivity]. }
  cbn [run]. rewrite E. cbn [bind]. apply IH; auto. destruct M as [M|M]; [left; exact M|right; intros b B; apply M; right; exact B].
Qed.

Lemma start_one : one_handle start.
Proof. repeat split; cbn; constructor. Qed.

(** Whatever a program does with handles of HDF5's groups and datasets, and whatever it does with other
    handles except moving them, what is open is at any time what is held by exactly one handle, and no
    library is asked for what is not open *)
Theorem C91_one k debug l :
  possible_all k debug l start -> k = Hdf5 \/ (forall a, In a l -> ~ is_move a) ->
  exists s, run k debug l start = Ok s /\ one_handle s.
Proof.
  intros P M. destruct (run_one k debug l start start_one) as (s & R & O & _); auto; [intros _ h []|eauto].
Qed.
Print Assumptions C91_one.

(** So all is closed once all handles are destroyed *)
Corollary C91_closed k debug l s :
  possible_all k debug l start -> k = Hdf5 \/ (forall a, In a l -> ~ is_move a) ->
  run k debug l start = Ok s -> (forall h, ~ alive s h) -> opened s = [].
Proof.
  intros P M R A. destruct (C91_one k debug l P M) as (s' & R' & O). rewrite R in R'. injection R' as <-.
  destruct O as (_ & _ & Q & _). unfold held in Q. destruct (handles s) as [|[h id] hs] eqn:E.
  - apply Permutation_nil, Permutation_sym. exact Q.
  - destruct (A h). unfold alive. rewrite E. left. reflexivity.
Qed.
Print Assumptions C91_closed.

(** Moving a handle of HDF5: what the target had is closed, and nothing else; the other is left empty.
    A handle moved to itself closes what it has *)
Theorem C91_move debug s h g old id :
  one_handle s -> holds s h old -> holds s g id ->
  exists s', act Hdf5 debug (MoveAssign h g) s = Ok s' /\
    (forall x, In x (opened s') <-> In x (opened s) /\ x <> old) /\
    (h <> g -> holds s' h id) /\ holds s' g 0 /\
    (forall x z, x <> h -> x <> g -> (holds s' x z <-> holds s x z)).
Proof.
  intros O H G. pose proof O as (N & _). destruct (handle_split _ _ _ N H) as (l & r & L & Al & Ar & E & U & _).
  destruct (handle_split _ _ _ N G) as (lg & rg & Lg & _ & _ & Eg & _ & _).
  destruct (release_one Hdf5 s h old l r O L) as (s1 & R1 & H1 & Z1 & T1 & D1 & F1 & P1 & I1); [intros [K|K]; discriminate|].
  cbn [act]. rewrite E, Eg, R1. cbn [bind]. rewrite H1. eexists. split; [reflexivity|]. cbn [set_handles opened handles].
  split; [exact I1|]. unfold holds. cbn [handles set_handles left_behind].
  assert (M : forall l x y z, In (x, z) (put l y 0) <-> (x <> y /\ In (x, z) l) \/ (x = y /\ z = 0 /\ In y (map fst l))).
  { clear. intros l x y z. unfold put. rewrite in_map_iff. split.
    - intros ([n w] & Q & I). cbn in Q. destruct (Nat.eqb_spec n y) as [->|X].
      + injection Q as <- <-. right. repeat split. apply in_map_iff. exists (y, w). auto.
      + injection Q as <- <-. left. auto.
    - intros [[X I]|(-> & -> & I)].
      + exists (x, z). cbn. destruct (Nat.eqb_spec x y); [contradiction|]. auto.
      + apply in_map_iff in I as ([n w] & <- & I). exists (n, w). cbn. rewrite Nat.eqb_refl. auto. }
  rewrite U. repeat split.
  - intros Ne. apply M. left. split; [exact Ne|]. apply in_elt.
  - apply M. right. repeat split. rewrite <- (U id), put_fst. apply in_map_iff. exists (g, id). auto.
  - intros X. apply M in X as [[_ X]|(-> & _)]; [|congruence]. rewrite L. apply in_app_iff in X. apply in_app_iff.
    destruct X as [X|[X|X]]; [left; exact X| |right; right; exact X]. injection X as X _. congruence.
  - intros X. apply M. left. split; [assumption|]. rewrite L in X. apply in_app_iff in X. apply in_app_iff.
    destruct X as [X|[X|X]]; [left; exact X| |right; right; exact X]. injection X as X _. congruence.
Qed.
Print Assumptions C91_move.

(** "There can be only one handle to a dataset" does not hold of the others: a handle that is moved is
    still a handle of the same dataset, which is closed twice: undefined for GDAL, refused by NetCDF *)
Theorem C91_twice_refuted debug s g h id :
  one_handle s -> holds s g id -> id <> 0 -> ~ alive s h ->
  let l := [MoveConstruct h g; Destroy h; Destroy g] in
  run Gdal debug l s = Undefined /\ exists s', run Netcdf debug l s = Ok s' /\ refused s' = 1%nat.
Proof.
  intros O G Nz A. cbv zeta. pose proof O as (N & D & P & F & R).
  destruct (handle_split _ _ _ N G) as (l & r & L & Al & Ar & E & U & _).
  destruct (one_positive s g id O G) as [|[C I]]; [contradiction|].
  assert (Ng : h <> g). { intros ->. apply A. unfold alive. apply in_map_iff. exists (g, id). auto. }
  assert (S : put (handles s) g id = handles s) by (rewrite U, L; reflexivity).
  assert (X : get ((h, id) :: handles s) h = Some id) by (unfold get; cbn; rewrite Nat.eqb_refl; reflexivity).
  assert (Y : drop ((h, id) :: handles s) h = handles s).
  { change (drop ((h, id) :: handles s) h) with (if negb (Nat.eqb h h) then (h, id) :: drop (handles s) h else drop (handles s) h).
    rewrite Nat.eqb_refl. cbn [negb]. apply drop_absent. exact A. }
  assert (Z : ~ In id (remove Z.eq_dec id (opened s))) by apply remove_In.
  split.
  - cbn [run act]. rewrite E. cbn [left_behind bind]. rewrite S. cbn [set_handles handles]. rewrite X. unfold release, close.
    rewrite (proj2 (is_open_spec _ id)) by exact I. cbn [bind handles opened set_handles refused types]. rewrite Y, E.
    destruct (is_open _ id) eqn:Q; [|reflexivity]. apply is_open_spec in Q. cbn in Q. contradiction.
  - cbn [run act]. rewrite E. cbn [left_behind bind]. rewrite S. cbn [set_handles handles]. rewrite X. unfold release, close.
    rewrite (proj2 (is_open_spec _ id)) by exact I. cbn [bind handles opened set_handles refused types]. rewrite Y, E.
    destruct (is_open _ id) eqn:Q; [apply is_open_spec in Q; cbn in Q; contradiction|].
    eexists. split; [reflexivity|]. cbn. rewrite R. reflexivity.
Qed.
Print Assumptions C91_twice_refuted.

(** If NetCDF gives the number again, what a handle that was moved from closes is a dataset of another
    handle *)
Theorem C91_other_refuted debug s g h c id :
  one_handle s -> holds s g id -> id <> 0 -> ~ alive s h -> ~ alive s c -> h <> c ->
  let l := [MoveConstruct h g; Destroy h; Open c id; Destroy g] in
  possible_all Netcdf debug l s /\
  exists s', run Netcdf debug l s = Ok s' /\ holds s' c id /\ ~ In id (opened s').
Proof.
  intros O G Nz A B Nc. cbv zeta. pose proof O as (N & D & P & F & R).
  destruct (handle_split _ _ _ N G) as (l & r & L & Al & Ar & E & U & W).
  destruct (one_positive s g id O G) as [|[C I]]; [contradiction|].
  assert (Ag : alive s g) by (unfold alive; apply in_map_iff; exists (g, id); auto).
  assert (Ng : h <> g) by (intros ->; contradiction). assert (Mg : c <> g) by (intros ->; contradiction).
  assert (S : put (handles s) g id = handles s) by (rewrite U, L; reflexivity).
  assert (X : get ((h, id) :: handles s) h = Some id) by (unfold get; cbn; rewrite Nat.eqb_refl; reflexivity).
  assert (Y : drop ((h, id) :: handles s) h = handles s).
  { change (drop ((h, id) :: handles s) h) with (if negb (Nat.eqb h h) then (h, id) :: drop (handles s) h else drop (handles s) h).
    rewrite Nat.eqb_refl. cbn [negb]. apply drop_absent. exact A. }
  set (o := remove Z.eq_dec id (opened s)).
  assert (Z : ~ In id o) by apply remove_In.
  assert (R1 : act Netcdf debug (MoveConstruct h g) s = Ok (State (opened s) ((h, id) :: handles s) (refused s) (types s))).
  { cbn [act]. rewrite E. cbn [left_behind]. rewrite S. reflexivity. }
  assert (R2 : act Netcdf debug (Destroy h) (State (opened s) ((h, id) :: handles s) (refused s) (types s)) =
    Ok (State o (handles s) (refused s) (types s))).
  { cbn [act handles]. rewrite X. unfold release, close. rewrite (proj2 (is_open_spec _ id)) by exact I.
    cbn [bind handles opened set_handles refused types]. rewrite Y. reflexivity. }
  assert (R4 : act Netcdf debug (Destroy g) (State (id :: o) ((c, id) :: handles s) (refused s) (types s)) =
    Ok (State o ((c, id) :: drop (handles s) g) (refused s) (types s))).
  { cbn [act handles]. unfold get. cbn [find fst]. destruct (Nat.eqb_spec c g); [contradiction|].
    fold (get (handles s) g). rewrite E. unfold release, close. rewrite (proj2 (is_open_spec _ id)) by (left; reflexivity).
    cbn [bind handles opened set_handles refused types remove]. destruct (Z.eq_dec id id); [|contradiction].
    rewrite notin_remove by exact Z.
    change (drop ((c, id) :: handles s) g) with (if negb (Nat.eqb c g) then (c, id) :: drop (handles s) g else drop (handles s) g).
    destruct (Nat.eqb_spec c g); [contradiction|]. reflexivity. }
  split.
  - cbn [possible_all]. split; [cbn; repeat split; try assumption; discriminate|]. intros s1 E1. rewrite R1 in E1. injection E1 as <-.
    split; [cbn; left; reflexivity|]. intros s2 E2. rewrite R2 in E2. injection E2 as <-.
    split; [cbn; repeat split; assumption|]. intros s3 E3. cbn [act opened handles refused types] in E3. injection E3 as <-.
    split; [cbn; right; exact Ag|]. auto.
  - cbn [run]. rewrite R1. cbn [bind]. rewrite R2. cbn [bind act opened handles refused types].
    fold (act Netcdf debug (Destroy g) (State (id :: o) ((c, id) :: handles s) (refused s) (types s))). 
    change (match get ((c, id) :: handles s) g with
            | Some id0 => bind (release Netcdf id0 (State (id :: o) ((c, id) :: handles s) (refused s) (types s)))
                (fun s0 => Ok (set_handles s0 (drop (handles s0) g)))
            | None => Undefined end)
      with (act Netcdf debug (Destroy g) (State (id :: o) ((c, id) :: handles s) (refused s) (types s))).
    rewrite R4. cbn [bind]. eexists. split; [reflexivity|]. split; [left; reflexivity|exact Z].
Qed.
Print Assumptions C91_other_refuted.

(** What is open and held by no handle stays open *)
Lemma lost_stays k debug id l : forall s s', In id (opened s) -> (forall h, ~ holds s h id) -> id <> 0 ->
  possible_all k debug l s -> run k debug l s = Ok s' -> In id (opened s') /\ forall h, ~ holds s' h id.
Proof.
  assert (PUT : forall l h z x y, In (x, y) (put l h z) -> In (x, y) l \/ (x = h /\ y = z)).
  { clear. intros l h z x y H. unfold put in H. apply in_map_iff in H as ([n w] & E & I). cbn in E.
    destruct (Nat.eqb_spec n h); injection E as <- <-; auto. }
  assert (CL : forall k z s s', close k z s = Ok s' -> handles s' = handles s /\ forall x, x <> z -> In x (opened s) -> In x (opened s')).
  { clear. intros k z s s' H. unfold close in H. destruct (is_open s z).
    - injection H as <-. cbn. split; [reflexivity|]. intros x N I. apply in_remove_iff. auto.
    - destruct k; cbn in H; try discriminate; injection H as <-; auto. }
  assert (RE : forall k z s s', release k z s = Ok s' -> handles s' = handles s /\ forall x, x <> z -> In x (opened s) -> In x (opened s')).
  { intros k' z s s' H. unfold release in H. destruct k'; eauto; destruct (0 <? z); eauto; injection H as <-; auto. }
  assert (US : forall z s s', use k debug z s = Ok s' -> handles s' = handles s /\ opened s' = opened s).
  { clear. intros z s s' H. unfold use, check, bind in H. destruct (debug && _); [discriminate|].
    destruct (is_open s z); [injection H as <-; auto|]. destruct k; cbn in H; try discriminate; injection H as <-; auto. }
  assert (LB : forall z, left_behind k z = z \/ left_behind k z = 0) by (intros z; destruct k; auto).
  induction l as [|a l IH]; intros s s' I H Nz P R; [injection R as <-; auto|].
  destruct P as [P Q]. cbn [run] in R. destruct (act k debug a s) as [s1| |] eqn:E; cbn [bind] in R; try discriminate.
  apply (IH s1); auto; clear IH R Q.
  - destruct a as [h z|h|h g|h g|h|h|h]; cbn [act] in E.
    + injection E as <-. right. exact I.
    + injection E as <-. exact I.
    + destruct (get _ _); [|discriminate]. injection E as <-. exact I.
    + destruct (get (handles s) h) as [old|] eqn:G1; [|discriminate]. destruct (get (handles s) g); [|discriminate].
      apply get_in in G1. assert (old <> id) by (intros ->; exact (H h G1)).
      destruct k; cbn [bind] in E; try (injection E as <-; exact I);
        (destruct (release _ old s) as [s2| |] eqn:R; try discriminate; cbn [bind] in E; injection E as <-; cbn;
         apply (RE _ _ _ _ R); auto).
    + destruct (get (handles s) h) as [old|] eqn:G1; [|discriminate]. apply get_in in G1.
      assert (old <> id) by (intros ->; exact (H h G1)).
      destruct (release _ old s) as [s2| |] eqn:R; try discriminate. cbn [bind] in E. injection E as <-. cbn.
      apply (RE _ _ _ _ R); auto.
    + destruct (get (handles s) h); [|discriminate]. destruct (US _ _ _ E) as [_ ->]. exact I.
    + destruct (get (handles s) h) as [z|]; [|discriminate]. destruct (use k debug z s) as [s2| |] eqn:U; try discriminate.
      cbn [bind] in E. destruct (US _ _ _ U) as [_ V]. destruct (is_open s2 z); injection E as <-; cbn; rewrite V; exact I.
  - unfold holds in *. intros x X. destruct a as [h z|h|h g|h g|h|h|h]; cbn [act] in E.
    + injection E as <-. destruct X as [X|X]; [|exact (H x X)]. injection X as _ ->. destruct P as (_ & _ & P). contradiction.
    + injection E as <-. destruct X as [X|X]; [|exact (H x X)]. injection X as _ X. congruence.
    + destruct (get (handles s) g) as [z|] eqn:G1; [|discriminate]. injection E as <-. apply get_in in G1.
      destruct X as [X|X]; [injection X as _ ->; exact (H _ G1)|]. apply PUT in X as [X|[_ X]]; [exact (H _ X)|].
      destruct (LB z) as [Y|Y]; [|congruence]. rewrite Y in X. subst. exact (H _ G1).
    + destruct (get (handles s) h) as [old|] eqn:G1; [|discriminate]. destruct (get (handles s) g) as [z|] eqn:G2; [|discriminate].
      apply get_in in G1, G2.
      assert (exists s2, handles s2 = handles s /\ s1 = set_handles s2 (put (put (handles s2) h z) g (left_behind k z))) as (s2 & V & ->).
      { destruct k; cbn [bind] in E; try (injection E as <-; exists s; auto; fail);
          (destruct (release _ old s) as [s2| |] eqn:R; try discriminate; cbn [bind] in E; injection E as <-; exists s2;
           split; [apply (RE _ _ _ _ R)|reflexivity]). }
      cbn in X. rewrite V in X. apply PUT in X as [X|[_ X]].
      * apply PUT in X as [X|[_ X]]; [exact (H _ X)|]. subst. exact (H _ G2).
      * destruct (LB z) as [Y|Y]; [|congruence]. rewrite Y in X. subst. exact (H _ G2).
    + destruct (get (handles s) h) as [old|] eqn:G1; [|discriminate].
      destruct (release _ old s) as [s2| |] eqn:R; try discriminate. cbn [bind] in E. injection E as <-. cbn in X.
      rewrite (proj1 (RE _ _ _ _ R)) in X. apply filter_In in X as [X _]. exact (H _ X).
    + destruct (get (handles s) h); [|discriminate]. rewrite (proj1 (US _ _ _ E)) in X. exact (H _ X).
    + destruct (get (handles s) h) as [z|]; [|discriminate]. destruct (use k debug z s) as [s2| |] eqn:U; try discriminate.
      cbn [bind] in E. destruct (US _ _ _ U) as [V _]. destruct (is_open s2 z); injection E as <-; cbn in X; rewrite V in X; exact (H _ X).
Qed.

(** A handle of GDAL or NetCDF that is assigned loses what it had: whatever the program does, it is never
    closed *)
Theorem C91_lost_refuted k debug s h g old id l s' :
  k = Gdal \/ k = Netcdf -> one_handle s -> holds s h old -> holds s g id -> old <> 0 -> h <> g ->
  possible_all k debug (MoveAssign h g :: l) s -> run k debug (MoveAssign h g :: l) s = Ok s' ->
  In old (opened s') /\ forall x, ~ holds s' x old.
Proof.
  intros K O H G Nz Ne P R. pose proof O as (N & D & Q & _).
  destruct (handle_split _ _ _ N H) as (a & b & L & Al & Ar & E & U & _).
  destruct (handle_split _ _ _ N G) as (ag & bg & Lg & _ & _ & Eg & _ & _).
  destruct (one_positive s h old O H) as [|[C I]]; [contradiction|].
  destruct P as [P P']. cbn [run] in R.
  assert (A : act k debug (MoveAssign h g) s = Ok (set_handles s (put (put (handles s) h id) g id))).
  { cbn [act]. rewrite E, Eg. destruct K as [->| ->]; reflexivity. }
  rewrite A in R. cbn [bind] in R. apply (lost_stays k debug old l _ _) with (5 := R); auto.
  unfold holds. cbn [set_handles handles]. intros x X.
  assert (V : NoDup (ids (handles s))) by (apply (Permutation_NoDup Q); exact D).
  rewrite L, ids_app, ids_cons in V. destruct (Z.eqb_spec old 0); [contradiction|]. cbn [app] in V. apply NoDup_remove_2 in V.
  rewrite in_app_iff in V.
  assert (Ni : id <> old).
  { intros ->. unfold holds in G. rewrite L in G. apply in_app_iff in G as [G|[G|G]].
    - apply V. left. exact (in_ids _ _ _ G Nz).
    - injection G as G. congruence.
    - apply V. right. exact (in_ids _ _ _ G Nz). }
  rewrite U in X. unfold put in X. apply in_map_iff in X as ([y w] & X & Y). cbn in X.
  assert (w = old) as ->. { destruct (Nat.eqb y g); [injection X as _ X; congruence|injection X as _ X; exact X]. }
  apply in_app_iff in Y as [Y|[Y|Y]].
  - apply V. left. exact (in_ids _ _ _ Y Nz).
  - injection Y as _ Y. congruence.
  - apply V. right. exact (in_ids _ _ _ Y Nz).
Qed.
Print Assumptions C91_lost_refuted.

(** Every time the class of the type of an HDF5 dataset is asked for, one more type stays open *)
Theorem C91_types_refuted debug s h id n :
  one_handle s -> holds s h id -> id <> 0 ->
  run Hdf5 debug (repeat (TypeClass h) n) s = Ok (State (opened s) (handles s) (refused s) (n + types s)).
Proof.
  intros O H Nz. pose proof O as (N & _). destruct (handle_split _ _ _ N H) as (l & r & L & Al & Ar & E & _ & _).
  destruct (one_positive s h id O H) as [|[C I]]; [contradiction|].
  assert (G : forall m, run Hdf5 debug (repeat (TypeClass h) n) (State (opened s) (handles s) (refused s) m) =
    Ok (State (opened s) (handles s) (refused s) (n + m))).
  { induction n as [|k IH]; intros m; [reflexivity|]. cbn [repeat run act handles]. rewrite E. unfold use, check.
    replace (0 <? id) with true by (symmetry; apply Z.ltb_lt; exact C). cbn [negb]. rewrite andb_false_r. cbn [bind].
    rewrite (proj2 (is_open_spec _ id)) by exact I. cbn [bind]. rewrite (proj2 (is_open_spec _ id)) by exact I.
    cbn [bind opened handles refused types]. rewrite IH. do 2 f_equal. lia. }
  destruct s. exact (G _).
Qed.
Print Assumptions C91_types_refuted.

(** ** Cases *)
Example C91_case :
  let l := [Open 1 7; Default 2; MoveAssign 2 1; Use 2; Open 3 9; MoveAssign 2 3; Destroy 1; Destroy 3; Use 2] in
  possible_all Hdf5 true l start /\ run Hdf5 true l start = Ok (State [9] [(2%nat, 9)] 0 0).
Proof.
  cbv zeta. split; [|vm_compute; reflexivity]. unfold alive, holds. cbn [possible_all].
  repeat match goal with
  | |- _ /\ (forall s', _ -> _) => split; [unfold possible, alive, holds|intros s' E; vm_compute in E; injection E as <-; cbn [possible_all]]
  | |- True => exact I
  end; cbn;
  repeat match goal with
  | |- _ /\ _ => split
  | |- ~ _ => intros X; repeat destruct X as [X|X]; try discriminate; try contradiction
  | |- exists id, _ => first [exists 7; split; [tauto|lia]|exists 9; split; [tauto|lia]]
  end; auto; try lia; try discriminate.
Qed.
Example C91_moved_case :
  one_handle (State [7; 8] [(1%nat, 7); (2%nat, 8)] 0 0) /\
  run Gdal true [MoveConstruct 3 1; Destroy 3; Destroy 1] (State [7; 8] [(1%nat, 7); (2%nat, 8)] 0 0) = Undefined /\
  run Netcdf true [MoveAssign 1 2; Destroy 1; Destroy 2] (State [7; 8] [(1%nat, 7); (2%nat, 8)] 0 0) = Ok (State [7] [] 1 0).
Proof.
  split; [|split; vm_compute; reflexivity]. repeat split; cbn.
  - repeat constructor; cbn; intuition discriminate.
  - repeat constructor; cbn; intuition discriminate.
  - reflexivity.
  - repeat constructor; lia.
Qed.
