(** * Proofs about clients of libraries *)
From Coq Require Import String List Bool Arith NArith Lia.
From Verif Require Import ClientModel ClientSpec.
Import ListNotations.

Lemma has_in {A} (l : list (string * A)) n : has l n = true <-> In n (map fst l).
Proof.
  unfold has. rewrite existsb_exists, in_map_iff. split.
  - intros ([m a] & I & E). apply String.eqb_eq in E. exists (m, a). auto.
  - intros ([m a] & E & I). exists (m, a). split; [exact I|]. apply String.eqb_eq. exact E.
Qed.
Lemma has_not {A} (l : list (string * A)) n : has l n = false <-> ~ In n (map fst l).
Proof. rewrite <- has_in. destruct (has l n); split; congruence. Qed.
Lemma erase_in {A} (l : list (string * A)) n m a : In (m, a) (erase n l) <-> In (m, a) l /\ m <> n.
Proof.
  unfold erase. rewrite filter_In. cbn. rewrite negb_true_iff. split; intros [I E]; split; auto.
  - apply String.eqb_neq. exact E.
  - apply String.eqb_neq. exact E.
Qed.
Lemma erase_names {A} (l : list (string * A)) n m : In m (map fst (erase n l)) <-> In m (map fst l) /\ m <> n.
Proof.
  rewrite !in_map_iff. split.
  - intros ([x a] & <- & I). apply erase_in in I. destruct I as [I D]. split; [exists (x, a); auto|exact D].
  - intros [([x a] & <- & I) D]. exists (x, a). split; [reflexivity|]. apply erase_in. auto.
Qed.
Lemma erase_absent {A} (l : list (string * A)) n : ~ In n (map fst l) -> erase n l = l.
Proof.
  induction l as [|[m a] l IH]; cbn; intros N; [reflexivity|].
  destruct (String.eqb_spec m n) as [->|D]; [exfalso; apply N; auto|]. cbn. f_equal. apply IH. tauto.
Qed.
Lemma erase_nodup {A} (l : list (string * A)) n : NoDup (map fst l) -> NoDup (map fst (erase n l)).
Proof.
  induction l as [|[m a] l IH]; cbn; intros H; [constructor|]. inversion H; subst.
  destruct (String.eqb_spec m n) as [->|D]; cbn; [auto|]. constructor; [|auto]. intros K. apply (erase_names l n m) in K. tauto.
Qed.

Section Proofs.
Variable debug : bool.
Variables (available skip : list string) (limit : nat).

Lemma register_names l : forall m k, NoDup l -> (forall n, In n l -> ~ In n (map fst m)) ->
  map fst (fst (register_missing l m k)) = map fst m ++ l.
Proof.
  induction l as [|n l IH]; intros m k N H; cbn [register_missing]; [cbn; rewrite app_nil_r; reflexivity|].
  inversion N; subst. rewrite (proj2 (has_not m n)) by (apply H; left; reflexivity).
  rewrite IH; auto.
  - rewrite map_app, <- app_assoc. reflexivity.
  - intros p I. rewrite map_app, in_app_iff. cbn. intros [J|[<-|[]]]; [eapply H; [right; exact I|exact J]|contradiction].
Qed.

Lemma check_ok b : b = true -> check debug b = Ok tt.
Proof. intros ->. unfold check. cbn. rewrite andb_false_r. reflexivity. Qed.

Definition entries (m : list (string * nat)) : list (string * driver) := map (fun e => (fst e, GdalDriver (snd e))) m.
Lemma entries_names m : map fst (entries m) = map fst m.
Proof. unfold entries. rewrite map_map. reflexivity. Qed.

Lemma add_runs m : forall d, NoDup (map fst m) -> (forall n, In n (map fst m) -> ~ In n (map fst d)) ->
  add_drivers debug m d = Ok (d ++ entries m).
Proof.
  induction m as [|[n k] m IH]; intros d N H; cbn [add_drivers]; [cbn; rewrite app_nil_r; reflexivity|].
  cbn in N. inversion N; subst. rewrite check_ok by (rewrite (proj2 (has_not d n)); [reflexivity|apply H; left; reflexivity]).
  cbn [bind]. rewrite (erase_absent d n) by (apply H; left; reflexivity). rewrite IH; auto.
  - rewrite <- app_assoc. reflexivity.
  - intros p I. rewrite map_app, in_app_iff. cbn. intros [J|[<-|[]]]; [eapply H; [right; exact I|exact J]|contradiction].
Qed.

Lemma erase_runs l : forall m d, NoDup l -> (forall n, In n l -> In n (map fst d)) ->
  exists m' d', erase_drivers debug l (m, d) = Ok (m', d') /\
    (forall n k, In (n, k) m' <-> In (n, k) m /\ ~ In n l) /\ (forall n x, In (n, x) d' <-> In (n, x) d /\ ~ In n l) /\
    (NoDup (map fst m) -> NoDup (map fst m')).
Proof.
  induction l as [|n l IH]; intros m d N H; cbn [erase_drivers].
  - exists m, d. split; [reflexivity|]. cbn. repeat split; try tauto.
  - inversion N; subst. unfold erase_driver. cbn [fst snd].
    rewrite check_ok by (apply has_in, H; left; reflexivity). cbn [bind].
    destruct (IH (erase n m) (erase n d)) as (m' & d' & E & M & D & U); auto.
    { intros p I. apply erase_names. split; [apply H; right; exact I|]. intros ->. contradiction. }
    exists m', d'. split; [exact E|]. cbn [In]. split; [|split].
    + intros p k. rewrite M, erase_in. split; intros; intuition congruence.
    + intros p k. rewrite D, erase_in. split; intros; intuition congruence.
    + intros Q. apply U, erase_nodup, Q.
Qed.

(** ** Histories *)
Lemma run_app l : forall l' s, run debug available skip limit (l ++ l') s = bind (run debug available skip limit l s) (run debug available skip limit l').
Proof.
  induction l as [|e l IH]; intros l' s; cbn [app run bind]; [reflexivity|].
  destruct (step debug available skip limit e s); cbn [bind]; auto.
Qed.
Lemma possible_prefix l e : possible (l ++ [e]) -> possible l.
Proof. intros P k a b ->. apply (P k a (b ++ [e])). apply app_assoc_reverse. Qed.
Lemma made_snoc k l e : made k (l ++ [e]) = made k l + if event_eq e (Make k) then 1 else 0.
Proof. unfold made. rewrite count_occ_app. cbn. destruct (event_eq e (Make k)); lia. Qed.
Lemma destroyed_snoc k l e : destroyed k (l ++ [e]) = destroyed k l + if event_eq e (Destroy k) then 1 else 0.
Proof. unfold destroyed. rewrite count_occ_app. cbn. destruct (event_eq e (Destroy k)); lia. Qed.
Lemma possible_at k l : possible l -> destroyed k l <= made k l.
Proof. intros P. apply (P k l []). rewrite app_nil_r. reflexivity. Qed.
Lemma live_make k l : possible l -> live k (l ++ [Make k]) = S (live k l).
Proof.
  intros P. unfold live. rewrite made_snoc, destroyed_snoc. destruct (event_eq (Make k) (Make k)); [|congruence].
  destruct (event_eq (Make k) (Destroy k)); [discriminate|]. pose proof (possible_at k l P). lia.
Qed.
Lemma live_destroy k l : possible (l ++ [Destroy k]) -> live k l = S (live k (l ++ [Destroy k])).
Proof.
  intros P. pose proof (possible_at k _ P) as Q. unfold live. rewrite made_snoc, destroyed_snoc in *.
  destruct (event_eq (Destroy k) (Destroy k)); [|congruence].
  destruct (event_eq (Destroy k) (Make k)); [discriminate|]. lia.
Qed.
Lemma live_other k l e : ~ about k e -> live k (l ++ [e]) = live k l.
Proof.
  intros N. unfold live. rewrite made_snoc, destroyed_snoc.
  destruct (event_eq e (Make k)) as [->|_]; [exfalso; apply N; left; reflexivity|].
  destruct (event_eq e (Destroy k)) as [->|_]; [exfalso; apply N; right; reflexivity|]. rewrite !Nat.add_0_r. reflexivity.
Qed.

(** Without clients of [io/gdal] *)
Definition registered (l : list event) (s : state) : Prop :=
  hdf5_count s = live Hdf5 l /\ (hdf5_open s = true <-> 0 < live Hdf5 l) /\ fern_count s = live Fern l /\ gdal_count s = live Gdal l /\
  (forall n, In n (map fst (manager s)) <-> 0 < live Gdal l /\ In n available /\ ~ In n skip) /\
  (forall n, In n (map fst (drivers s)) <-> (n = "Fern"%string /\ 0 < live Fern l) \/ In n (map fst (manager s))) /\
  (forall n k, In (n, GdalDriver k) (drivers s) -> In (n, k) (manager s)) /\
  (forall n, In (n, FernDriver) (drivers s) -> n = "Fern"%string) /\
  NoDup (map fst (manager s)).

Hypotheses (Unique : NoDup available) (UniqueSkip : NoDup skip) (NotFern : ~ In "Fern"%string available).

Lemma in_names {A} (l : list (string * A)) n : In n (map fst l) <-> exists a, In (n, a) l.
Proof.
  rewrite in_map_iff. split.
  - intros ([m a] & <- & I). exists a. exact I.
  - intros (a & I). exists (n, a). auto.
Qed.

Ltac others l := rewrite !(live_other _ l) by (intros [|]; discriminate).

Ltac others2 a b l := rewrite ?(live_other a l), ?(live_other b l) by (intros [|]; discriminate).

Lemma registered_step l e s : possible (l ++ [e]) -> ~ about Raster e -> registered l s ->
  (forall s', step debug available skip limit e s = Ok s' -> registered (l ++ [e]) s') /\
  (about Hdf5 e \/ about Fern e \/ about Gdal e -> exists s', step debug available skip limit e s = Ok s').
Proof.
  intros P NR (H1 & H2 & F & G & M & D & A & B & N). pose proof (possible_prefix _ _ P) as Pl.
  assert (Same : forall s', hdf5_count s' = hdf5_count s -> hdf5_open s' = hdf5_open s -> fern_count s' = fern_count s -> gdal_count s' = gdal_count s ->
      manager s' = manager s -> drivers s' = drivers s -> ~ about Hdf5 e -> ~ about Fern e -> ~ about Gdal e -> registered (l ++ [e]) s').
  { intros s' E1 E2 E3 E4 E5 E6 N1 N2 N3. unfold registered. rewrite E1, E2, E3, E4, E5, E6. rewrite !live_other by assumption.
    tauto. }
  assert (Gone : forall k, ~ about k (Make Parser) \/ k = Parser) by (intros []; (right; reflexivity) || (left; intros [|]; discriminate)).
  destruct e as [k|k| |r].
  - destruct k.
    + (* Hdf5 *) split; [|eexists; reflexivity]. intros s' E. injection E as <-. unfold registered; cbn.
      rewrite (live_make Hdf5) by exact Pl. others l. rewrite H1.
      split; [reflexivity|]. split. { split; [lia|]. intros _. destruct (live Hdf5 l) eqn:Q; [reflexivity|]. apply H2. lia. }
      tauto.
    + (* Fern *) cbn [step make_fern]. unfold make_fern. rewrite F.
      assert (K : exists d, (if Nat.eqb (S (live Fern l)) 1 then bind (check debug (negb (has (drivers s) "Fern"))) (fun _ => Ok (erase "Fern" (drivers s) ++ [("Fern"%string, FernDriver)])) else Ok (drivers s)) = Ok d /\
        (forall n, In n (map fst d) <-> n = "Fern"%string \/ In n (map fst (manager s))) /\
        (forall n k, In (n, GdalDriver k) d -> In (n, k) (manager s)) /\ (forall n, In (n, FernDriver) d -> n = "Fern"%string)).
      { destruct (Nat.eqb_spec (S (live Fern l)) 1) as [Q|Q].
        - assert (Z : live Fern l = 0) by lia.
          assert (W : ~ In "Fern"%string (map fst (drivers s))).
          { rewrite D. intros [[_ K]|K]; [lia|]. apply M in K. tauto. }
          rewrite check_ok by (rewrite (proj2 (has_not _ _) W); reflexivity). cbn [bind].
          rewrite (erase_absent _ _ W). eexists; split; [reflexivity|]. split; [|split].
          + intros n. rewrite map_app, in_app_iff, D. cbn. intuition (subst; auto; lia || tauto).
          + intros n k I. apply in_app_or in I. destruct I as [I|[I|[]]]; [eauto|discriminate].
          + intros n I. apply in_app_or in I. destruct I as [I|[I|[]]]; [eauto|congruence].
        - eexists; split; [reflexivity|]. split; [|auto]. intros n. rewrite D. split; [tauto|]. intros [->|I]; [left; split; [reflexivity|lia]|auto]. }
      destruct K as (d & K & D1 & D2 & D3). rewrite K. cbn [bind]. split; [|eexists; reflexivity].
      intros s' E. injection E as <-. unfold registered; cbn. rewrite (live_make Fern) by exact Pl. others l.
      split; [exact H1|]. split; [exact H2|]. split; [reflexivity|]. split; [exact G|]. split; [exact M|].
      split. { intros n. rewrite D1. split; [intros [->|I]; [left; split; [reflexivity|lia]|auto]|tauto]. }
      auto.
    + (* Gdal *) cbn [step]. unfold make_gdal. rewrite G. destruct (Nat.eqb_spec (S (live Gdal l)) 1) as [Q|Q].
      * assert (Z : live Gdal l = 0) by lia.
        assert (E0 : manager s = []). { destruct (manager s) as [|[n k] m] eqn:E; [reflexivity|]. exfalso. assert (In n (map fst ((n, k) :: m))) as I by (left; reflexivity). apply M in I. lia. }
        rewrite E0. pose proof (register_names available [] (next s) Unique (fun _ _ K => K)) as R.
        destruct (register_missing available [] (next s)) as [m k] eqn:E. cbn [fst map app] in R.
        assert (W : forall n, In n (map fst m) -> ~ In n (map fst (drivers s))).
        { intros n I J. apply D in J. rewrite E0 in J. destruct J as [[-> _]|[]]. rewrite R in I. contradiction. }
        assert (Nm : NoDup (map fst m)) by (rewrite R; exact Unique).
        rewrite (add_runs m (drivers s) Nm W). cbn [bind].
        destruct (erase_runs (filter (has m) skip) m (drivers s ++ entries m)) as (m' & d' & X & M' & D' & N').
        { apply NoDup_filter. exact UniqueSkip. }
        { intros n I. apply filter_In in I. destruct I as [_ I]. apply has_in in I. rewrite map_app, entries_names, in_app_iff. auto. }
        rewrite X. cbn [bind fst snd]. split; [|eexists; reflexivity]. intros s' Y. injection Y as <-.
        assert (Sk : forall n, In n (map fst m) -> (In n (filter (has m) skip) <-> In n skip)).
        { intros n I. rewrite filter_In. apply has_in in I. rewrite I. tauto. }
        unfold registered; cbn. rewrite (live_make Gdal) by exact Pl. others l.
        assert (Mn : forall n, In n (map fst m') <-> In n available /\ ~ In n skip).
        { intros n. rewrite in_names. split.
          - intros (a & I). apply M' in I. destruct I as [I J]. assert (In n (map fst m)) as K by (apply in_names; eauto).
            rewrite (Sk n K) in J. rewrite R in K. auto.
          - intros [I J]. rewrite <- R in I. pose proof I as K. apply in_names in K. destruct K as (a & K). exists a. apply M'. split; [exact K|].
            rewrite (Sk n I). exact J. }
        split; [exact H1|]. split; [exact H2|]. split; [exact F|]. split; [reflexivity|].
        split. { intros n. rewrite Mn. split; [intros [I J]; repeat split; auto; lia|tauto]. }
        split.
        { intros n. rewrite in_names. split.
          - intros (a & I). apply D' in I. destruct I as [I J]. apply in_app_or in I. destruct I as [I|I].
            + assert (In n (map fst (drivers s))) as K by (apply in_names; eauto). apply D in K. rewrite E0 in K. cbn in K. tauto.
            + right. unfold entries in I. apply in_map_iff in I. destruct I as ([p q] & I & K). injection I as <- <-. apply in_names. exists q. apply M'. auto.
          - intros [[-> K]|I].
            + assert (In "Fern"%string (map fst (drivers s))) as J by (apply D; auto). apply in_names in J. destruct J as (a & J).
              exists a. apply D'. split; [apply in_or_app; auto|]. rewrite filter_In. intros [_ T]. apply has_in in T. rewrite R in T. contradiction.
            + apply in_names in I. destruct I as (a & I). apply M' in I. destruct I as [I J]. exists (GdalDriver a). apply D'. split; [|exact J].
              apply in_or_app. right. unfold entries. apply in_map_iff. exists (n, a). auto. }
        split. { intros n a I. apply D' in I. destruct I as [I J]. apply M'. split; [|exact J]. apply in_app_or in I. destruct I as [I|I].
          - apply A in I. rewrite E0 in I. destruct I.
          - unfold entries in I. apply in_map_iff in I. destruct I as ([p q] & I & K). injection I as <- <-. exact K. }
        split. { intros n I. apply D' in I. destruct I as [I J]. apply in_app_or in I. destruct I as [I|I]; [eauto|].
          unfold entries in I. apply in_map_iff in I. destruct I as ([p q] & I & K). discriminate. }
        auto.
      * split; [|eexists; reflexivity]. intros s' E. injection E as <-. unfold registered; cbn. rewrite (live_make Gdal) by exact Pl. others l.
        split; [exact H1|]. split; [exact H2|]. split; [exact F|]. split; [reflexivity|].
        split. { intros n. rewrite M. split; intros; intuition lia. }
        auto.
    + exfalso. apply NR. left; reflexivity.
    + (* Parser *) split; [|intros [K|[K|K]]; destruct K; discriminate]. intros s' E. injection E as <-. apply Same; try reflexivity; intros [|]; discriminate.
  - destruct k.
    + (* Hdf5 *) pose proof (live_destroy Hdf5 l P) as L. cbn [step]. unfold destroy_hdf5. rewrite H1, L. rewrite check_ok by reflexivity. cbn [bind pred].
      split; [|eexists; reflexivity]. intros s' E. injection E as <-. unfold registered; cbn. others2 Fern Gdal l.
      split; [reflexivity|]. split.
      { destruct (live Hdf5 (l ++ [Destroy Hdf5])) eqn:Q; cbn; [split; [discriminate|lia]|]. split; [lia|]. intros _. apply H2. lia. }
      tauto.
    + (* Fern *) pose proof (live_destroy Fern l P) as L. cbn [step]. unfold destroy_fern. rewrite F, L. rewrite check_ok by reflexivity. cbn [bind pred].
      destruct (Nat.eqb_spec (live Fern (l ++ [Destroy Fern])) 0) as [Q|Q].
      * rewrite check_ok by (apply has_in, D; left; split; [reflexivity|lia]). cbn [bind]. split; [|eexists; reflexivity].
        intros s' E. injection E as <-. unfold registered; cbn. others2 Hdf5 Gdal l. rewrite Q.
        split; [exact H1|]. split; [exact H2|]. split; [reflexivity|]. split; [exact G|]. split; [exact M|].
        split. { intros n. rewrite erase_names, D. split.
          - intros [[[-> _]|I] T]; [congruence|auto].
          - intros [[_ T]|I]; [lia|]. split; [auto|]. intros ->. apply M in I. tauto. }
        split. { intros n k I. apply erase_in in I. apply A. tauto. }
        split; [|exact N]. intros n I. apply erase_in in I. apply B. tauto.
      * cbn [bind]. split; [|eexists; reflexivity]. intros s' E. injection E as <-. unfold registered; cbn. others2 Hdf5 Gdal l.
        split; [exact H1|]. split; [exact H2|]. split; [reflexivity|]. split; [exact G|]. split; [exact M|].
        split; [|auto]. intros n. rewrite D. split; intros; intuition lia.
    + (* Gdal *) pose proof (live_destroy Gdal l P) as L. cbn [step]. unfold destroy_gdal. rewrite G, L. rewrite check_ok by reflexivity. cbn [bind pred].
      destruct (Nat.eqb_spec (live Gdal (l ++ [Destroy Gdal])) 0) as [Q|Q].
      * destruct (erase_runs (map fst (manager s)) (manager s) (drivers s)) as (m' & d' & X & M' & D' & N').
        { exact N. } { intros n I. apply D. auto. }
        rewrite X. cbn [bind fst snd]. split; [|eexists; reflexivity]. intros s' E. injection E as <-. unfold registered; cbn. others2 Hdf5 Fern l. rewrite Q.
        assert (E0 : m' = []). { destruct m' as [|[n k] m']; [reflexivity|]. exfalso. destruct (proj1 (M' n k)) as [I J]; [left; reflexivity|]. apply J, in_names. eauto. }
        subst m'. split; [exact H1|]. split; [exact H2|]. split; [exact F|]. split; [reflexivity|].
        split. { intros n. cbn. split; [tauto|lia]. }
        split. { intros n. rewrite in_names. split.
          - intros (a & I). apply D' in I. destruct I as [I J]. assert (In n (map fst (drivers s))) as K by (apply in_names; eauto). apply D in K. tauto.
          - intros [[-> K]|[]]. assert (In "Fern"%string (map fst (drivers s))) as J by (apply D; auto). apply in_names in J. destruct J as (a & J).
            exists a. apply D'. split; [exact J|]. intros I. apply M in I. tauto. }
        split. { intros n k I. apply D' in I. destruct I as [I J]. exfalso. apply J, in_names. eauto. }
        split; [|constructor]. intros n I. apply D' in I. apply B. tauto.
      * cbn [bind fst snd]. split; [|eexists; reflexivity]. intros s' E. injection E as <-. unfold registered; cbn. others2 Hdf5 Fern l.
        split; [exact H1|]. split; [exact H2|]. split; [exact F|]. split; [reflexivity|].
        split. { intros n. rewrite M. split; intros; intuition lia. }
        auto.
    + exfalso. apply NR. right; reflexivity.
    + (* Parser *) split; [|intros [K|[K|K]]; destruct K; discriminate]. intros s' E. cbn [step] in E. unfold destroy_parser in E.
      destruct (python_on s); [destruct (check debug (N.ltb 0 (python_count s))); try discriminate|]; injection E as <-; apply Same; try reflexivity; intros [|]; discriminate.
  - split; [|intros [K|[K|K]]; destruct K; discriminate]. intros s' E. cbn [step] in E. destruct (python_on s); [|discriminate]. injection E as <-.
    apply Same; try reflexivity; intros [|]; discriminate.
  - split; [|intros [K|[K|K]]; destruct K; discriminate]. intros s' E. cbn [step] in E. destruct (python_on s); [|discriminate].
    destruct (r && Nat.ltb (files s) limit); injection E as <-; apply Same; try reflexivity; intros [|]; discriminate.
Qed.

Lemma run_registered l : possible l -> (forall e, In e l -> ~ about Raster e) ->
  (forall s, run debug available skip limit l start = Ok s -> registered l s) /\
  ((forall e, In e l -> about Hdf5 e \/ about Fern e \/ about Gdal e) -> exists s, run debug available skip limit l start = Ok s).
Proof.
  induction l as [|e l IH] using rev_ind; intros P R.
  - split; [|eexists; reflexivity]. intros s E. injection E as <-. unfold registered, start, live; cbn.
    repeat split; try lia; try tauto; try discriminate; try constructor; intros; intuition lia.
  - destruct IH as [I1 I2]. { eapply possible_prefix; eauto. } { intros x I. apply R, in_or_app. auto. }
    rewrite run_app. split.
    + intros s E. destruct (run debug available skip limit l start) as [s0| |] eqn:Q; try discriminate.
      cbn [bind run] in E. destruct (step debug available skip limit e s0) as [s1| |] eqn:T; try discriminate. injection E as <-.
      eapply registered_step; [exact P|apply R, in_or_app; right; left; reflexivity|apply I1; reflexivity|exact T].
    + intros K. destruct I2 as (s0 & Q). { intros x I. apply K, in_or_app. auto. }
      rewrite Q. cbn [bind run].
      destruct (registered_step l e s0 P) as [_ T]; [apply R, in_or_app; right; left; reflexivity|apply I1; exact Q|].
      destruct T as (s1 & T). { apply K, in_or_app. right; left; reflexivity. } rewrite T. cbn. eauto.
Qed.
End Proofs.
