(** * Arrays of NumPy made of rasters: what they have, and who changes it *)
From Coq Require Import ZArith List Bool Arith Lia.
From Verif Require Import NumpyModel NumpySpec NumpyProofs.
Import ListNotations.
Open Scope Z_scope.

(** An array made of a raster of a value type that is handled has the shape of the raster, and in every row and
    column the value the raster was made with, of the same sort: nothing is swapped, wrapped or misread. *)
Theorem C92_values debug s t rows cols values :
  reachable debug s -> length values = (rows * cols)%nat -> Forall (has_value t) values -> supported t = true ->
  exists s1 s2 raster array,
    act debug (Raster t rows cols values) s = Ok s1 /\ act debug (Array raster) s1 = Ok s2 /\
    raster_type s1 raster t /\ shape s1 array = None /\ shape s2 array = Some (rows, cols) /\
    forall i j v, (i < rows)%nat -> (j < cols)%nat -> nth_error values (i * cols + j) = Some v ->
      item s1 raster i j = Some (sort_of t, v) /\ item s2 array i j = Some (sort_of t, v).
Proof.
  intros R L F S. pose proof (reachable_good _ _ R) as G.
  assert (P : possible (Raster t rows cols values) s) by (split; assumption).
  destruct (possible_done debug _ s G P) as [s1 A1]. pose proof (good_act _ _ _ _ G P A1) as G1.
  destruct (item_raster debug s s1 t rows cols values L F A1) as (T & SH & V).
  assert (P1 : possible (Array (length (objects s))) s1) by (exists t; auto).
  destruct (possible_done debug _ s1 G1 P1) as [s2 A2].
  destruct (item_array debug s1 s2 (length (objects s)) t G1 T S A2) as [SH2 I2].
  exists s1, s2, (length (objects s)), (length (objects s1)). split; [exact A1|]. split; [exact A2|]. split; [exact T|]. split.
  - unfold shape, object_of. rewrite (proj2 (nth_error_None _ _)) by lia. reflexivity.
  - split; [rewrite SH2; exact SH|]. intros i j v I J N. rewrite I2. split; apply V; assumption.
Qed.
Print Assumptions C92_values.

(** In everything a program can have come to, all that is possible is done, without undefined behaviour, and
    the value at a row and column of a raster or array changes only when it is written there, or when that
    raster or array itself goes. *)
Theorem C92_own debug s a :
  reachable debug s -> possible a s ->
  exists s', act debug a s = Ok s' /\
    forall o i j, shape s o <> None -> ~ touches a o i j -> shape s' o = shape s o /\ item s' o i j = item s o i j.
Proof.
  intros R P. pose proof (reachable_good _ _ R) as G. destruct (possible_done debug a s G P) as [s' A].
  exists s'. split; [exact A|]. intros o i j O T. eapply item_frame; eauto. unfold shape in O. destruct (object_of s o); congruence.
Qed.
Print Assumptions C92_own.

(** What is written at a row and column of a raster is read there. *)
Theorem C92_write debug s o t rows cols i j v :
  reachable debug s -> raster_type s o t -> shape s o = Some (rows, cols) -> (i < rows)%nat -> (j < cols)%nat -> has_value t v ->
  exists s', act debug (Write o i j v) s = Ok s' /\ item s' o i j = Some (sort_of t, v).
Proof.
  intros R (x & O & T) SH I J H. pose proof (reachable_good _ _ R) as G. unfold shape in SH. rewrite O in SH. injection SH as <- <-.
  assert (P : possible (Write o i j v) s) by (exists (nr_rows x), (nr_cols x); unfold shape; rewrite O; auto).
  destruct (possible_done debug _ s G P) as [s' A]. exists s'. split; [exact A|].
  destruct (proj1 G o x O) as [(t' & E & [V|V]) _]; [congruence|]. assert (t' = t) by congruence. subst t'.
  eapply item_written; eauto.
Qed.
Print Assumptions C92_write.

(** An array keeps what its raster had, whatever happens next to the raster (also when it is written, or goes) and to
    all else, as long as the array itself is left alone. *)
Theorem C92_kept debug s o t l :
  reachable debug s -> raster_type s o t -> supported t = true ->
  exists s1 array, act debug (Array o) s = Ok s1 /\ shape s array = None /\
    forall s2, possible_all debug l s1 -> (forall a i j, In a l -> ~ touches a array i j) -> run debug l s1 = Ok s2 ->
      shape s2 array = shape s o /\ forall i j, item s2 array i j = item s o i j.
Proof.
  intros R T S. pose proof (reachable_good _ _ R) as G. assert (P : possible (Array o) s) by (exists t; auto).
  destruct (possible_done debug _ s G P) as [s1 A]. pose proof (good_act _ _ _ _ G P A) as G1.
  destruct (item_array debug s s1 o t G T S A) as [SH I].
  exists s1, (length (objects s)). split; [exact A|]. split.
  { unfold shape, object_of. rewrite (proj2 (nth_error_None _ _)) by lia. reflexivity. }
  intros s2. assert (O : shape s1 (length (objects s)) <> None).
  { rewrite SH. destruct T as (x & O & _). unfold shape. rewrite O. discriminate. }
  assert (C : forall l s1 s2 p, good s1 -> shape s1 p <> None -> possible_all debug l s1 -> (forall a i j, In a l -> ~ touches a p i j) ->
    run debug l s1 = Ok s2 -> shape s2 p = shape s1 p /\ forall i j, item s2 p i j = item s1 p i j).
  { clear. induction l as [|a l IH]; cbn [run possible_all In]; intros s1 s2 p G O P T R.
    - injection R as <-. auto.
    - destruct P as [P1 P2]. destruct (act debug a s1) as [s'| | |] eqn:A; try discriminate.
      assert (O' : object_of s1 p <> None) by (unfold shape in O; destruct (object_of s1 p); congruence).
      assert (F : forall i j, shape s' p = shape s1 p /\ item s' p i j = item s1 p i j)
        by (intros i j; eapply item_frame; eauto).
      destruct (IH s' s2 p) as [H1 H2]; auto.
      + eapply good_act; eauto.
      + rewrite (proj1 (F 0%nat 0%nat)). exact O.
      + split; [rewrite H1; apply (F 0%nat 0%nat)|]. intros i j. rewrite H2. apply F. }
  intros P2 NT R2. destruct (C l s1 s2 _ G1 O P2 NT R2) as [H1 H2]. split; [congruence|]. intros i j. rewrite H2. apply I.
Qed.
Print Assumptions C92_kept.

(** Rasters that are read from files can have integers of 16 bits (python/io/gdal.cc:26-50), and the class of rasters
    takes boolean values and integers of 8 bits with a sign too.  NumPy has types for all of them, but no array is made of them: debug builds abort, and release builds give what has nothing of the raster. *)
Theorem C92_types_refuted debug s o t :
  raster_type s o t ->
  (act debug (Array o) s = (if debug then Aborts else Nothing)) <-> (In t [Bool; S8; U16; S16]).
Proof.
  intros (x & O & T). cbn [act In]. unfold raster_as_numpy_array. rewrite O, T. split.
  - intros H. destruct t; cbn [supported] in H; auto 6; exfalso; unfold copy_array in H; destruct (bytes_of s _), debug; discriminate.
  - intros [<-|[<-|[<-|[<-|[]]]]]; reflexivity.
Qed.
Print Assumptions C92_types_refuted.

(** ** Cases *)
Example C92_case :
  let history := [Raster S32 2 3 [1; -2; 3; 4; -5; 2147483647]; Array 0; Write 0 1 1 7; Destroy 0; Write 1 0 0 9] in
  possible_all true history start /\
  exists s, run true history start = Ok s /\ reachable true s /\ shape s 0 = None /\ shape s 1 = Some (2, 3)%nat /\
    map (fun ij => item s 1 (fst ij) (snd ij)) [(0, 0); (0, 1); (1, 1); (1, 2); (2, 0); (0, 3)]%nat =
    [Some (Signed, 9); Some (Signed, -2); Some (Signed, -5); Some (Signed, 2147483647); None; None].
Proof.
  cbv zeta. match goal with |- possible_all true ?l start /\ _ => set (history := l) end.
  assert (P : possible_all true history start).
  { unfold history. cbn [possible_all].
    split; [split; [reflexivity|repeat constructor; cbn; lia]|]. intros s1 E. vm_compute in E. injection E as <-.
    split; [exists S32; split; [eexists; split; reflexivity|reflexivity]|]. intros s2 E. vm_compute in E. injection E as <-.
    split; [exists 2%nat, 3%nat; split; [reflexivity|lia]|]. intros s3 E. vm_compute in E. injection E as <-.
    split; [discriminate|]. intros s4 E. vm_compute in E. injection E as <-.
    split; [exists 2%nat, 3%nat; split; [reflexivity|lia]|]. intros s5 E. exact I. }
  split; [exact P|]. destruct (run true history start) as [s| | |] eqn:E; [|vm_compute in E; discriminate..].
  exists s. split; [reflexivity|]. split; [exists history; auto|]. vm_compute in E. injection E as <-. repeat split.
Qed.
