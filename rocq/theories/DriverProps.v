(** * Property C78: which driver opens a dataset, and numbers written by scripts *)
From Coq Require Import String ZArith List Bool SpecFloat Ascii Lia.
From Verif Require Import IntsModel ArithModel FloatModel StringModel StringSpec StringProps RasterModel FileSpec FileProps.
From Verif Require Import StoreModel StoreSpec StoreProps DriverModel DriverSpec.
Import ListNotations.

Lemma same_text_spec a b : same_text a b = true <-> a = b.
Proof. unfold same_text. destruct (list_eq_dec ascii_dec a b); split; congruence. Qed.
Lemma same_text_refl a : same_text a a = true.
Proof. apply same_text_spec. reflexivity. Qed.
Lemma same_text_other a b : a <> b -> same_text a b = false.
Proof. intros N. destruct (same_text a b) eqn:E; auto. apply same_text_spec in E. congruence. Qed.
Lemma set_file_same fs n c : set_file fs n c n = c.
Proof. unfold set_file. rewrite same_text_refl. reflexivity. Qed.
Lemma set_file_other fs n c : unchanged_but fs (set_file fs n c) n.
Proof. intros o N. unfold set_file. rewrite same_text_other by auto. reflexivity. Qed.
Lemma existsb_text d ds : existsb (same_text d) ds = true <-> In d ds.
Proof.
  rewrite existsb_exists. split.
  - intros (e & I & E). apply same_text_spec in E. congruence.
  - intros I. exists d. split; auto. apply same_text_refl.
Qed.
Lemma existsb_text_not d ds : ~ In d ds -> existsb (same_text d) ds = false.
Proof. intros N. destruct (existsb (same_text d) ds) eqn:E; auto. apply existsb_text in E. contradiction. Qed.
Lemma filter_others ds : ~ In fern_name ds -> filter (fun d => negb (same_text d fern_name)) ds = ds.
Proof.
  induction ds as [|d ds IH]; intros N; auto. cbn [filter]. rewrite same_text_other by (intros ->; apply N; left; auto). cbn [negb].
  f_equal. apply IH. intros I. apply N. right. auto.
Qed.
Lemma denotes_plain name database p : denotes name database p -> plain database.
Proof. intros (data & E & _). apply C53_data_name in E as (d & ns & (N & _) & Nd & _). split; auto. Qed.
Lemma denotes_fun name d1 p1 d2 p2 : denotes name d1 p1 -> denotes name d2 p2 -> d1 = d2 /\ p1 = p2.
Proof. intros (x & E & <-) (y & F & <-). rewrite E in F. inversion F. auto. Qed.

Section Drivers.
Variables (debug : bool) (convert : vty -> num -> num) (drivers : list text).
Variables (may_read may_write may_create directory_is_writable : text -> bool).
Variables (recognises updates deletes : text -> content -> bool).
Variables (write_raster : dataset -> files -> attribute -> path -> outcome files).
Variables (read_raster : dataset -> files -> path -> outcome attribute).

Notation can_open := (can_open may_read may_write may_create directory_is_writable recognises updates).
Notation open_first := (open_first debug may_read may_write may_create directory_is_writable recognises updates deletes).
Notation exists_first := (exists_first may_read may_write may_create directory_is_writable recognises updates).
Notation open_dataset := (open_dataset debug drivers may_read may_write may_create directory_is_writable recognises updates deletes).
Notation dataset_exists := (dataset_exists debug drivers may_read may_write may_create directory_is_writable recognises updates).
Notation able := (able may_read may_write recognises updates).
Notation write := (write debug convert drivers may_read may_write may_create directory_is_writable recognises updates deletes write_raster).
Notation read := (read debug drivers may_read may_write may_create directory_is_writable recognises updates deletes read_raster).

Lemma candidates_tried format ds : NoDup drivers -> candidates drivers format ds -> drivers_to_try drivers format = Some ds.
Proof.
  intros ND [(N & I & ->)|(-> & [(b & a & E & ->)|(N & ->)])]; unfold drivers_to_try.
  - destruct format; [congruence|]. apply existsb_text in I. rewrite I. reflexivity.
  - replace (existsb (same_text fern_name) drivers) with true by (symmetry; apply existsb_text; rewrite E; apply in_or_app; right; left; auto).
    rewrite E, filter_app in *. cbn [filter]. rewrite same_text_refl. cbn [negb]. apply NoDup_remove_2 in ND.
    rewrite !filter_others by (intros I; apply ND, in_or_app; auto). reflexivity.
  - rewrite existsb_text_not, filter_others by auto. reflexivity.
Qed.
Lemma candidates_some format ds : candidates drivers format ds -> drivers <> [] \/ ds = [].
Proof.
  intros [(N & I & ->)|(-> & [(b & a & E & ->)|(N & ->)])].
  - left. intros E. rewrite E in I. destruct I.
  - left. rewrite E. destruct b; discriminate.
  - destruct drivers; auto. left. discriminate.
Qed.
Lemma fern_tried format : In fern_name drivers -> format = [] \/ format = fern_name ->
  exists ds, drivers_to_try drivers format = Some (fern_name :: ds).
Proof.
  intros I Hf. apply existsb_text in I. unfold drivers_to_try. destruct Hf as [->| ->].
  - rewrite I. eexists. reflexivity.
  - rewrite I. exists []. reflexivity.
Qed.
Lemma nonempty {A} (k : outcome A) : drivers <> [] -> assert debug (match drivers with [] => false | _ => true end) k = k.
Proof. intros N. destruct drivers; [congruence|]. unfold assert. destruct debug; reflexivity. Qed.

Lemma can_open_spec fs d name m : m <> Overwrite ->
  (able fs name m d /\ can_open fs d name m = (fs, true)) \/ (~ able fs name m d /\ can_open fs d name m = (fs, false)).
Proof.
  intros Nm. unfold DriverModel.can_open, DriverSpec.able. destruct (same_text d fern_name) eqn:Ed.
  - apply same_text_spec in Ed as ->. unfold open_file. destruct m; [| |congruence].
    + destruct (fs name) as [[t|c]|] eqn:F.
      * destruct (may_read name) eqn:R.
        -- left. split; auto. left. repeat split; eauto. discriminate.
        -- right. split; auto. intros [(_ & _ & ? & _)|(? & _)]; congruence.
      * right. split; auto. intros [(_ & (t & ?) & _)|(? & _)]; congruence.
      * right. split; auto. intros [(_ & (t & ?) & _)|(? & _)]; congruence.
    + destruct (fs name) as [[t|c]|] eqn:F.
      * destruct (may_read name) eqn:R; [destruct (may_write name) eqn:W|]; cbn [andb].
        -- left. split; auto. left. repeat split; eauto.
        -- right. split; auto. intros [(_ & _ & _ & H)|(? & _)]; [specialize (H eq_refl)|]; congruence.
        -- right. split; auto. intros [(_ & _ & ? & _)|(? & _)]; congruence.
      * right. split; auto. intros [(_ & (t & ?) & _)|(? & _)]; congruence.
      * right. split; auto. intros [(_ & (t & ?) & _)|(? & _)]; congruence.
  - assert (Nd : d <> fern_name) by (intros ->; rewrite same_text_refl in Ed; discriminate).
    destruct m; [| |congruence]; destruct (fs name) as [c|] eqn:F.
    + destruct (recognises d c) eqn:R.
      * left. split; auto. right. split; auto. exists c. repeat split; auto. discriminate.
      * right. split; auto. intros [(? & _)|(_ & c' & E & H & _)]; [congruence|]. specialize (H eq_refl). congruence.
    + right. split; auto. intros [(? & _)|(_ & c' & E & _)]; congruence.
    + destruct (updates d c) eqn:R.
      * left. split; auto. right. split; auto. exists c. repeat split; auto. discriminate.
      * right. split; auto. intros [(? & _)|(_ & c' & E & _ & H)]; [congruence|]. specialize (H eq_refl). congruence.
    + right. split; auto. intros [(? & _)|(_ & c' & E & _)]; congruence.
Qed.
Lemma open_spec fs d name m : m <> Overwrite -> plain name -> able fs name m d ->
  open debug may_read may_write may_create directory_is_writable recognises updates deletes fs d name m = Done (fs, Dataset d name m).
Proof.
  intros Nm P Ab. destruct (can_open_spec fs d name m Nm) as [(_ & C)|(N & _)]; [|contradiction].
  unfold open. destruct (same_text d fern_name) eqn:Ed.
  - unfold parse_name. rewrite (plain_name name P). cbn [bind fst]. unfold DriverModel.can_open in C. rewrite Ed in C.
    destruct (open_file _ _ _ fs name m) as [fs'|]; [|discriminate]. inversion C. reflexivity.
  - destruct m; [| |congruence]; rewrite C; reflexivity.
Qed.

(** The first of the candidates that is able to open a file opens it, [dataset_exists] says so, and
    neither changes any file. *)
Theorem C78_first fs name m format ds : NoDup drivers -> drivers <> [] -> m <> Overwrite -> plain name ->
  candidates drivers format ds ->
  (forall d, first_able (able fs name m) ds d ->
     open_dataset fs name m format = Done (fs, Dataset d name m) /\ dataset_exists fs name m format = Done (fs, true)) /\
  ((forall d, In d ds -> ~ able fs name m d) ->
     open_dataset fs name m format = Thrown /\ dataset_exists fs name m format = Done (fs, false)).
Proof.
  intros ND Ne Nm P C. unfold DriverModel.open_dataset, DriverModel.dataset_exists. rewrite !nonempty, (candidates_tried _ _ ND C) by auto.
  clear C. split.
  - intros d (b & a & -> & Ab & Nb). induction b as [|e b IH]; cbn [app DriverModel.open_first DriverModel.exists_first].
    + destruct (can_open_spec fs d name m Nm) as [(_ & C)|(N & _)]; [|contradiction]. rewrite C. split; auto. apply open_spec; auto.
    + destruct (can_open_spec fs e name m Nm) as [(A & _)|(_ & C)]; [elim (Nb e); [left|]; auto|]. rewrite C. apply IH.
      intros x I. apply Nb. right. auto.
  - intros N. induction ds as [|e ds IH]; cbn [DriverModel.open_first DriverModel.exists_first]; auto.
    destruct (can_open_spec fs e name m Nm) as [(A & _)|(_ & C)]; [elim (N e); [left|]; auto|]. rewrite C. apply IH.
    intros x I. apply N. right. auto.
Qed.

(** A format without a driver is an error, and nothing is opened. *)
Theorem C78_no_driver fs name m format : drivers <> [] -> format <> [] -> ~ In format drivers ->
  open_dataset fs name m format = Thrown /\ dataset_exists fs name m format = Thrown.
Proof.
  intros Ne N NI. unfold DriverModel.open_dataset, DriverModel.dataset_exists. rewrite !nonempty by auto. unfold drivers_to_try.
  destruct format; [congruence|]. rewrite existsb_text_not by auto. auto.
Qed.

(** Opening a Fern dataset to overwrite it makes an empty one of whatever there was, and so does
    asking whether that is possible. *)
Theorem C78_overwrite fs name format : In fern_name drivers -> format = [] \/ format = fern_name -> plain name -> may_create name = true ->
  exists fs1 fs2,
    open_dataset fs name Overwrite format = Done (fs1, Dataset fern_name name Overwrite) /\
    dataset_exists fs name Overwrite format = Done (fs2, true) /\
    fs1 name = Some (Fern []) /\ fs2 name = Some (Fern []) /\ unchanged_but fs fs1 name /\ unchanged_but fs fs2 name.
Proof.
  intros I Hf P Mc. assert (Ne : drivers <> []) by (intros E; rewrite E in I; destruct I).
  unfold DriverModel.open_dataset, DriverModel.dataset_exists. rewrite !nonempty by auto.
  assert (exists ds, drivers_to_try drivers format = Some (fern_name :: ds)) as (ds & ->).
  { apply fern_tried; auto. }
  exists (set_file (set_file fs name (Some (Fern []))) name (Some (Fern []))), (set_file fs name (Some (Fern []))).
  cbn [DriverModel.open_first DriverModel.exists_first]. unfold DriverModel.can_open. rewrite same_text_refl. unfold open_file at 1 2. rewrite Mc.
  unfold open, parse_name. rewrite same_text_refl, (plain_name name P). cbn [bind fst]. unfold open_file. rewrite Mc.
  repeat split; try apply set_file_same; try apply set_file_other.
  intros o N. rewrite !set_file_other; auto.
Qed.

(** With another driver nothing is changed until the dataset is opened, and that deletes at most the
    file itself. *)
Theorem C78_overwrite_other fs name format : In format drivers -> format <> [] -> format <> fern_name ->
  let possible := (exists c, fs name = Some c /\ updates format c = true) \/ directory_is_writable name = true in
  (possible -> dataset_exists fs name Overwrite format = Done (fs, true) /\
     exists fs', open_dataset fs name Overwrite format = Done (fs', Dataset format name Overwrite) /\ unchanged_but fs fs' name /\
       (fs' name = None \/ fs' name = fs name)) /\
  (~ possible -> dataset_exists fs name Overwrite format = Done (fs, false) /\ open_dataset fs name Overwrite format = Thrown).
Proof.
  intros I N Nf possible. assert (Ne : drivers <> []) by (intros E; rewrite E in I; destruct I).
  unfold DriverModel.open_dataset, DriverModel.dataset_exists. rewrite !nonempty by auto.
  assert (drivers_to_try drivers format = Some [format]) as ->.
  { apply existsb_text in I. unfold drivers_to_try. rewrite I. destruct format; congruence. }
  cbn [DriverModel.open_first DriverModel.exists_first]. unfold DriverModel.can_open, open. rewrite !same_text_other by auto.
  set (b := (match fs name with Some c => updates format c | None => false end) || directory_is_writable name).
  assert (B : b = true <-> possible).
  { unfold b, possible. rewrite orb_true_iff. destruct (fs name) as [c|]; split; intros [H|H]; auto.
    - left. eauto.
    - destruct H as (c' & E & H). inversion E; subst. auto.
    - discriminate.
    - destruct H as (c' & E & H). discriminate. }
  split; intros H.
  - apply B in H. rewrite H. split; auto. eexists. split; [reflexivity|]. destruct (fs name) as [c|] eqn:F.
    + destruct (deletes format c); [|split; auto; intros o _; auto]. rewrite set_file_same. split; auto. apply set_file_other.
    + split; auto. intros o _; auto.
  - destruct b; [elim H; apply B; auto|]. auto.
Qed.

(** ** Scripts *)
Definition permitted (database : text) : Prop :=
  may_read database = true /\ may_write database = true /\ may_create database = true.

Lemma exists_fern fs db m format : m <> Overwrite -> In fern_name drivers -> format = [] \/ format = fern_name -> plain db ->
  able fs db m fern_name ->
  open_dataset fs db m format = Done (fs, Dataset fern_name db m) /\ dataset_exists fs db m format = Done (fs, true).
Proof.
  intros Nm I Hf P Ab. assert (Ne : drivers <> []) by (intros E; rewrite E in I; destruct I).
  unfold DriverModel.open_dataset, DriverModel.dataset_exists. rewrite !nonempty by auto.
  assert (exists ds, drivers_to_try drivers format = Some (fern_name :: ds)) as (ds & ->).
  { apply fern_tried; auto. }
  cbn [DriverModel.open_first DriverModel.exists_first].
  destruct (can_open_spec fs fern_name db m Nm) as [(_ & C)|(N & _)]; [|contradiction]. rewrite C. split; auto. apply open_spec; auto.
Qed.

(** Once a file is a Fern dataset, [read] reads what is in there. *)
Lemma read_spec fs name db p t : In fern_name drivers -> denotes name db p -> may_read db = true -> fs db = Some (Fern t) ->
  read fs name = bind (StoreModel.read_data debug t p) (fun r => Done (match r with Some n => Some (Constant n) | None => None end)).
Proof.
  intros I D R F. pose proof (denotes_plain _ _ _ D) as P. destruct D as (data & E & <-).
  unfold DriverModel.read, parse_name. rewrite E. cbn [bind fst snd].
  destruct (exists_fern fs db Read [] ltac:(discriminate) I (or_introl eq_refl) P) as [-> _].
  { left. repeat split; eauto. discriminate. }
  cbn [bind fst snd]. unfold read_data. cbn [driver dataset_name]. rewrite same_text_refl. unfold database. rewrite (plain_name db P), F. reflexivity.
Qed.
Lemma write_existing fs name db p t a format : In fern_name drivers -> denotes name db p -> permitted db -> format = [] \/ format = fern_name ->
  fs db = Some (Fern t) ->
  write fs a name format =
  bind (StoreModel.write_attribute debug convert t (match a with Constant n => Some n | Something _ => None end) p)
    (fun t' => Done (set_file fs db (Some (Fern t')))).
Proof.
  intros I D (R & W & _) Hf F. pose proof (denotes_plain _ _ _ D) as P. destruct D as (data & E & <-).
  unfold DriverModel.write, parse_name. rewrite E. cbn [bind fst snd].
  destruct (exists_fern fs db Update format ltac:(discriminate) I Hf P) as [O X].
  { left. repeat split; eauto. }
  rewrite X. cbn [bind fst snd]. rewrite O. cbn [bind fst snd]. unfold write_attribute. cbn [driver dataset_name].
  rewrite same_text_refl. unfold database. rewrite (plain_name db P), F. reflexivity.
Qed.
(** Nothing that could be updated: a new dataset *)
Lemma write_new fs name db p a format : NoDup drivers -> In fern_name drivers -> denotes name db p -> permitted db -> format = [] \/ format = fern_name ->
  (forall d, In d drivers -> format = [] \/ d = format -> ~ able fs db Update d) ->
  exists fs', fs' db = Some (Fern []) /\ unchanged_but fs fs' db /\
  write fs a name format =
  bind (StoreModel.write_attribute debug convert [] (match a with Constant n => Some n | Something _ => None end) p)
    (fun t' => Done (set_file fs' db (Some (Fern t')))).
Proof.
  intros ND I D (R & W & Mc) Hf N. pose proof (denotes_plain _ _ _ D) as P. destruct D as (data & E & <-).
  unfold DriverModel.write, parse_name. rewrite E. cbn [bind fst snd].
  destruct (C78_overwrite fs db format I Hf P Mc) as (fs1 & fs2 & O & _ & F & _ & U & _).
  assert (Ne : drivers <> []) by (intros E1; rewrite E1 in I; destruct I).
  assert (exists ds, candidates drivers format ds /\ forall d, In d ds -> In d drivers /\ (format = [] \/ d = format)) as (ds & C & Hd).
  { destruct Hf as [->| ->].
    - destruct (in_split _ _ I) as (b & a0 & E1). exists (fern_name :: b ++ a0). split.
      + right. split; auto. left. eauto.
      + intros d Id. split; auto. rewrite E1. destruct Id as [<-|Id]; apply in_or_app; [right; left; auto|]. apply in_app_or in Id as [Id|Id]; auto. right. right. auto.
    - exists [fern_name]. split; [left; repeat split; auto; discriminate|]. intros d [<-|[]]. auto. }
  destruct (C78_first fs db Update format ds ND Ne ltac:(discriminate) P C) as (_ & X).
  destruct X as [_ X]; [intros d Id; apply N; apply Hd; auto|].
  exists fs1. split; auto. split; auto. rewrite X. cbn [bind fst snd]. rewrite O. cbn [bind fst snd].
  unfold write_attribute. cbn [driver dataset_name]. rewrite same_text_refl. unfold database. rewrite (plain_name db P), F. reflexivity.
Qed.

(** A number that a script writes is what it reads back, by any name of the same data.  All other
    files stay, and all other numbers in datasets of the Fern format read as before.  [t] is what the
    file holds, if it is such a dataset; otherwise no driver is able to update it, and a new one
    replaces it. *)
Theorem C78_write fs name db p n format t : NoDup drivers -> In fern_name drivers -> denotes name db p -> permitted db ->
  format = [] \/ format = fern_name -> sound t -> ready t p n ->
  fs db = Some (Fern t) \/ (t = [] /\ forall d, In d drivers -> format = [] \/ d = format -> ~ able fs db Update d) ->
  exists fs', write fs (Constant n) name format = Done fs' /\ unchanged_but fs fs' db /\
    (forall name', denotes name' db p -> read fs' name' = Done (Some (Constant n))) /\
    (exists t', fs' db = Some (Fern t') /\ sound t' /\ forall q, q <> p -> q <> feature_of p -> find t' q = find t q) /\
    (forall name' db' p' t' m, denotes name' db' p' -> (db', p') <> (db, p) -> fs db' = Some (Fern t') ->
       (db' = db -> t' = t) -> may_read db' = true ->
       read fs name' = Done (Some (Constant m)) -> read fs' name' = Done (Some (Constant m))).
Proof.
  intros ND I D Pm Hf S Rd H.
  destruct (C77_write debug convert t p n S Rd) as (t' & Wt & St & Fp & Ff & Fo & _ & Rt).
  assert (exists fs1, write fs (Constant n) name format = Done (set_file fs1 db (Some (Fern t'))) /\ unchanged_but fs fs1 db) as (fs1 & Wr & U1).
  { destruct H as [F|(-> & N)].
    - exists fs. split; [|intros o _; auto]. rewrite (write_existing fs name db p t) by auto. rewrite Wt. reflexivity.
    - destruct (write_new fs name db p (Constant n) format ND I D Pm Hf N) as (fs1 & _ & U & E). exists fs1. split; auto. rewrite E, Wt. reflexivity. }
  set (fs' := set_file fs1 db (Some (Fern t'))) in *. assert (F' : fs' db = Some (Fern t')) by apply set_file_same.
  assert (U : unchanged_but fs fs' db). { intros o N. unfold fs'. rewrite set_file_other by auto. apply U1; auto. }
  destruct Pm as (Mr & _). exists fs'. split; auto. split; auto. split; [|split].
  - intros name' D'. rewrite (read_spec fs' name' db p t') by auto. rewrite Rt. reflexivity.
  - exists t'. auto.
  - intros name' db' p' t0 m D' Nq F0 Et Mr' E. rewrite (read_spec fs name' db' p' t0) in E by auto.
    destruct (list_eq_dec ascii_dec db' db) as [->|Ndb].
    + rewrite (Et eq_refl) in *. rewrite (read_spec fs' name' db p' t') by auto.
      assert (Np : p' <> p) by congruence.
      destruct (C77_read_script debug t p') as (H1 & H2). destruct (reachable t [] p') eqn:Re.
      2:{ apply reachable_false in Re. rewrite (H1 Re) in E. unfold failure in E. destruct debug; discriminate. }
      apply reachable_rooted in Re. rewrite (H2 Re) in E.
      assert (Fm : find t p' = Some (Scalar m)). { destruct (find t p') as [[|x|]|]; cbn in E; try (destruct debug; discriminate); try discriminate. inversion E. auto. }
      destruct Rd as (Np0 & Rf & Hfe & Hp).
      assert (Nf : p' <> feature_of p) by (intros ->; destruct Hfe; congruence).
      destruct (C77_read_script debug t' p') as (_ & H3). rewrite H3.
      * rewrite Fo, Fm by auto. reflexivity.
      * intros q Q. specialize (Re q Q). destruct (list_eq_dec (list_eq_dec ascii_dec) q p) as [->|Nqp].
        -- destruct Hp as [Hp|(x & Hp & _)]; congruence.
        -- destruct (list_eq_dec (list_eq_dec ascii_dec) q (feature_of p)) as [->|Nqf]; auto. rewrite Fo; auto.
    + rewrite (read_spec fs' name' db' p' t0); auto. rewrite U; auto.
Qed.

(** Names that are none, files that are not there, and features *)
Theorem C78_not_read fs name : In fern_name drivers -> NoDup drivers ->
  (data_name name = None ->
     (debug = true -> forall a format, read fs name = Aborted /\ write fs a name format = Aborted) /\
     (debug = false -> (forall d, In d drivers -> ~ able fs [] Read d) -> read fs name = Thrown)) /\
  (forall db p, denotes name db p ->
     ((forall d, In d drivers -> ~ able fs db Read d) -> read fs name = Thrown) /\
     (forall t, fs db = Some (Fern t) -> may_read db = true ->
        ((exists q, above q p /\ find t q <> Some Group) -> read fs name = failure debug) /\
        (rooted t p -> find t p = None -> read fs name = Thrown))).
Proof.
  intros I ND. split.
  - intros E. unfold DriverModel.read, DriverModel.write, parse_name. rewrite E. split.
    + intros -> a format. auto.
    + intros B N. rewrite B. cbn [bind fst snd]. rewrite <- B. assert (Ne : drivers <> []) by (intros E1; rewrite E1 in I; destruct I).
      unfold DriverModel.open_dataset. rewrite nonempty by auto. destruct (fern_tried [] I (or_introl eq_refl)) as (ds & T). rewrite T.
      assert (Sub : forall d, In d (fern_name :: ds) -> In d drivers).
      { intros d Id. assert (Q : In d (match drivers_to_try drivers [] with Some l => l | None => [] end)) by (rewrite T; exact Id).
        unfold drivers_to_try in Q. apply in_app_or in Q as [Q|Q]; [|apply filter_In in Q; tauto].
        destruct (existsb (same_text fern_name) drivers); [destruct Q as [<-|[]]; auto|destruct Q]. }
      revert Sub. generalize (fern_name :: ds). intros l. induction l as [|d l IH]; intros Sub; [reflexivity|]. cbn [DriverModel.open_first].
      destruct (can_open_spec fs d [] Read ltac:(discriminate)) as [(A & _)|(_ & C)]; [elim (N d); auto; apply Sub; left; auto|]. rewrite C.
      apply IH. intros x Ix. apply Sub. right. auto.
  - intros db p D. split.
    + intros N. pose proof (denotes_plain _ _ _ D) as P. assert (Ne : drivers <> []) by (intros E1; rewrite E1 in I; destruct I).
      destruct (in_split _ _ I) as (b & a0 & E1).
      destruct (C78_first fs db Read [] (fern_name :: b ++ a0) ND Ne ltac:(discriminate) P) as (_ & X).
      { right. split; auto. left. eauto. }
      destruct X as [X _].
      { intros d Id. apply N. rewrite E1. destruct Id as [<-|Id]; apply in_or_app; [right; left; auto|]. apply in_app_or in Id as [Id|Id]; auto. right. right. auto. }
      destruct D as (data & E & <-). unfold DriverModel.read, parse_name. rewrite E. cbn [bind fst]. rewrite X. reflexivity.
    + intros t F R. rewrite (read_spec fs name db p t) by auto. destruct (C77_read_script debug t p) as (H1 & H2). split.
      * intros H. rewrite H1 by auto. unfold failure. destruct debug; reflexivity.
      * intros H E. rewrite H2, E by auto. reflexivity.
Qed.

(** A sequence of writes by a script *)
Fixpoint write_each (fs : files) (ws : list (text * num)) (format : text) : outcome files :=
  match ws with
  | [] => Done fs
  | (name, n) :: ws => fs' <~ write fs (Constant n) name format ;; write_each fs' ws format
  end.
Lemma write_each_app fs a b format : write_each fs (a ++ b) format = bind (write_each fs a format) (fun fs' => write_each fs' b format).
Proof.
  revert fs. induction a as [|[x n] a IH]; intros fs; [reflexivity|]. cbn [app write_each].
  destruct (write fs (Constant n) x format); cbn [bind]; auto.
Qed.

(** Starting without files, numbers are written to attributes of features, of the same type each
    time: what is read is what was written last. *)
Theorem C78_history fs ws format : NoDup drivers -> In fern_name drivers -> format = [] \/ format = fern_name ->
  (forall name n, In (name, n) ws -> exists db feature attribute,
     denotes name db [feature; attribute] /\ permitted db /\ fs db = None) ->
  (forall name n name' n' db p, In (name, n) ws -> In (name', n') ws -> denotes name db p -> denotes name' db p -> vty_of n = vty_of n') ->
  exists fs', write_each fs ws format = Done fs' /\
    (forall db, (forall name n p, In (name, n) ws -> ~ denotes name db p) -> fs' db = fs db) /\
    forall before name n after db p, ws = before ++ (name, n) :: after -> denotes name db p ->
      (forall name' n', In (name', n') after -> ~ denotes name' db p) ->
      forall name', denotes name' db p -> read fs' name' = Done (Some (Constant n)).
Proof.
  intros ND I Hf. 
  set (at_most := fun (t : tree) => forall p, find t p <> None -> p = [] \/ (exists f, p = [f] /\ find t p = Some Group) \/ exists f a n, p = [f; a] /\ find t p = Some (Scalar n)).
  intros Hn Ht.
  assert (Inv : exists fs', write_each fs ws format = Done fs' /\
    (forall db, (forall name n p, In (name, n) ws -> ~ denotes name db p) -> fs' db = fs db) /\
    (forall db, (exists name n p, In (name, n) ws /\ denotes name db p) -> exists t, fs' db = Some (Fern t) /\ sound t /\ at_most t /\
      (forall p m, find t p = Some (Scalar m) -> exists name, In (name, m) ws /\ denotes name db p)) /\
    forall before name n after db p, ws = before ++ (name, n) :: after -> denotes name db p ->
      (forall name' n', In (name', n') after -> ~ denotes name' db p) ->
      exists t, fs' db = Some (Fern t) /\ rooted t p /\ find t p = Some (Scalar n)).
  { induction ws as [|[name n] ws IH] using rev_ind.
    - exists fs. split; [reflexivity|]. split; auto. split.
      + intros db (? & ? & ? & [] & _).
      + intros b ? ? ? ? ? E. destruct b; discriminate.
    - destruct IH as (fs1 & W1 & Old & New & Last).
      { intros x m Ix. apply (Hn x m). apply in_or_app. auto. }
      { intros x m y k db p Ix Iy. apply Ht; apply in_or_app; auto. }
      destruct (Hn name n) as (db & f & a & D & Pm & F0); [apply in_or_app; right; left; auto|].
      assert (exists t, sound t /\ at_most t /\ (forall p m, find t p = Some (Scalar m) -> exists name, In (name, m) ws /\ denotes name db p) /\
        (fs1 db = Some (Fern t) \/ (t = [] /\ forall d, In d drivers -> format = [] \/ d = format -> ~ able fs1 db Update d))) as (t & St & At & Or & Ft).
      { destruct (fs1 db) as [c|] eqn:F1.
        - destruct (New db) as (t & Ft & St & At & Or).
          + assert (Dec : forall l : list (text * num), (exists x m p, In (x, m) l /\ denotes x db p) \/ forall x m p, In (x, m) l -> ~ denotes x db p).
            { clear. induction l as [|[x m] l IH]; [right; intros ? ? ? []|]. destruct IH as [(y & k & p & Iy & Dy)|N]; [left; exists y, k, p; split; [right|]; auto|].
              destruct (data_name x) as [[db' data]|] eqn:E.
              - destruct (list_eq_dec ascii_dec db' db) as [->|Nd].
                + left. exists x, m, (names data). split; [left; auto|]. exists data. auto.
                + right. intros y k p [Ey|Iy]; [|eauto]. inversion Ey; subst. intros (d & E1 & _). congruence.
              - right. intros y k p [Ey|Iy]; [|eauto]. inversion Ey; subst. intros (d & E1 & _). congruence. }
            destruct (Dec ws) as [H|H]; auto. apply Old in H. congruence.
          + exists t. rewrite F1 in Ft. auto.
        - exists []. split; [|split; [|split]].
          + intros q o F r Q. destruct q; [apply above_nil in Q as []|discriminate F].
          + intros q F. destruct q; auto. elim F. reflexivity.
          + intros q m F. destruct q; discriminate.
          + right. split; auto. intros d _ _ [(_ & (t & E) & _)|(_ & c & E & _)]; congruence. }
      assert (Rd : ready t [f; a] n).
      { split; [discriminate|]. split; [|split].
        - intros q Q. apply (above_last [] f) in Q as [->|Q]; [reflexivity|apply above_nil in Q as []].
        - change (feature_of [f; a]) with [f]. destruct (find t [f]) eqn:E; auto. right.
          destruct (At [f]) as [H|[(g & _ & H)|(g & b & m & H & _)]]; congruence.
        - destruct (find t [f; a]) eqn:E; auto. right. destruct (At [f; a]) as [H|[(g & H & _)|(g & b & m & _ & H)]]; try congruence.
          exists m. split; [congruence|]. destruct (Or _ _ H) as (x & Ix & Dx).
          apply (Ht x m name n db [f; a]); auto; apply in_or_app; [auto|right; left; auto]. }
      destruct (C77_write debug convert t [f; a] n St Rd) as (t' & Wt & St' & Fp & Ff & Fo & _ & _).
      assert (exists fs2, write fs1 (Constant n) name format = Done fs2 /\ fs2 db = Some (Fern t') /\ unchanged_but fs1 fs2 db) as (fs2 & W2 & F2 & U2).
      { destruct Ft as [F|(-> & N)].
        - exists (set_file fs1 db (Some (Fern t'))). split; [|split; [apply set_file_same|apply set_file_other]].
          rewrite (write_existing fs1 name db [f; a] t) by auto. rewrite Wt. reflexivity.
        - destruct (write_new fs1 name db [f; a] (Constant n) format ND I D Pm Hf N) as (fs2 & _ & U & E).
          exists (set_file fs2 db (Some (Fern t'))). rewrite E, Wt. split; [reflexivity|]. split; [apply set_file_same|].
          intros o No. rewrite set_file_other by auto. apply U; auto. }
      change (feature_of [f; a]) with [f] in *.
      assert (Kept : forall p m, find t p = Some (Scalar m) -> p <> [f; a] -> find t' p = Some (Scalar m)).
      { intros p m E N. rewrite Fo; auto. intros ->. destruct Rd as (_ & _ & H & _). change (feature_of [f; a]) with [f] in H. destruct H; congruence. }
      exists fs2. split; [|split; [|split]].
      + rewrite write_each_app, W1. cbn [bind write_each]. rewrite W2. reflexivity.
      + intros db' N. assert (Nd : db' <> db). { intros ->. apply (N name n [f; a]); auto. apply in_or_app. right. left. auto. }
        rewrite U2 by auto. apply Old. intros x m p Ix. apply (N x m p). apply in_or_app. auto.
      + intros db' (x & m & p & Ix & Dx). destruct (list_eq_dec ascii_dec db' db) as [->|Nd].
        * exists t'. split; auto. split; auto. split.
          -- intros q E. destruct (list_eq_dec (list_eq_dec ascii_dec) q [f; a]) as [->|N1]; [right; right; eauto 6|].
             destruct (list_eq_dec (list_eq_dec ascii_dec) q [f]) as [->|N2]; [right; left; eauto|].
             rewrite Fo in * by auto. apply At; auto.
          -- intros q k E. destruct (list_eq_dec (list_eq_dec ascii_dec) q [f; a]) as [->|N1].
             ++ exists name. split; auto. apply in_or_app. right. left. congruence.
             ++ destruct (list_eq_dec (list_eq_dec ascii_dec) q [f]) as [->|N2]; [congruence|]. rewrite Fo in E by auto.
                destruct (Or q k E) as (y & Iy & Dy). exists y. split; auto. apply in_or_app. auto.
        * apply in_app_or in Ix as [Ix|[Ix|[]]].
          -- destruct (New db') as (t0 & E & S0 & A0 & O0); [eauto|]. exists t0. rewrite U2 by auto. split; auto. split; auto. split; auto.
             intros q k E1. destruct (O0 q k E1) as (y & Iy & Dy). exists y. split; auto. apply in_or_app. auto.
          -- inversion Ix; subst. destruct (denotes_fun _ _ _ _ _ D Dx). congruence.
      + intros b x m a0 db' p E Dx La. destruct a0 as [|y a0 _] using rev_ind.
        * apply app_inj_tail in E as [-> E]. inversion E; subst. destruct (denotes_fun _ _ _ _ _ D Dx) as [<- <-].
          exists t'. split; auto. split; auto. apply (St' _ _ Fp).
        * rewrite app_comm_cons, app_assoc in E. apply app_inj_tail in E as [-> <-].
          destruct (Last b x m a0 db' p eq_refl Dx) as (t0 & E0 & R0 & G0).
          { intros z k Iz. apply (La z k). apply in_or_app. auto. }
          assert (Nn : ~ denotes name db' p) by (apply (La name n); apply in_or_app; right; left; auto).
          destruct (list_eq_dec ascii_dec db' db) as [->|Nd].
          -- assert (Np : p <> [f; a]) by (intros ->; contradiction). destruct Ft as [Ft|(_ & Ft)].
             ++ assert (t0 = t) by congruence. subst t0. exists t'. split; auto. assert (G1 := Kept p m G0 Np). split; auto. apply (St' _ _ G1).
             ++ exfalso. destruct Pm as (P1 & P2 & _). apply (Ft fern_name); auto; [destruct Hf; auto|].
                left. repeat split; eauto.
          -- exists t0. rewrite U2 by auto. auto. }
  destruct Inv as (fs' & W & Old & New & Last). exists fs'. split; auto. split; auto.
  intros b name n a db p E D La name' D'. destruct (Last b name n a db p E D La) as (t & F & R & G).
  destruct (Hn name n) as (db1 & f & at1 & D1 & (Mr & _) & _); [rewrite E; apply in_or_app; right; left; auto|].
  destruct (denotes_fun _ _ _ _ _ D D1) as [<- _].
  rewrite (read_spec fs' name' db p t) by auto. destruct (C77_read_script debug t p) as (_ & H). rewrite H, G by auto. reflexivity.
Qed.
End Drivers.
Print Assumptions C78_first.
Print Assumptions C78_no_driver.
Print Assumptions C78_overwrite.
Print Assumptions C78_overwrite_other.
Print Assumptions C78_write.
Print Assumptions C78_not_read.
Print Assumptions C78_history.

(** ** Cases *)
Definition some_drivers : list text := [lit "Fern"; lit "GTiff"; lit "HFA"].
Definition yes (_ : text) : bool := true.
(** The driver for GeoTIFF files opens files of the first kind. *)
Definition of_geotiff (d : text) (c : content) : bool :=
  match c with Foreign 0 => same_text d (lit "GTiff") | _ => false end.
Definition no_writing (ds : dataset) (fs : files) (a : attribute) (p : path) : outcome files := Thrown.
Definition some_reading (ds : dataset) (fs : files) (p : path) : outcome attribute := Done (Something 0).
Definition some_files : files := fun name => if same_text name (lit "earth.tif") then Some (Foreign 0) else None.
Definition script_write debug := write debug saturate some_drivers yes yes yes yes of_geotiff of_geotiff of_geotiff no_writing.
Definition script_read debug := read debug some_drivers yes yes yes yes of_geotiff of_geotiff of_geotiff some_reading.
Definition script_open debug := open_dataset debug some_drivers yes yes yes yes of_geotiff of_geotiff of_geotiff.
Definition script_exists debug := dataset_exists debug some_drivers yes yes yes yes of_geotiff of_geotiff.

Lemma some_drivers_differ : NoDup some_drivers.
Proof. repeat constructor; cbn; intuition discriminate. Qed.
Lemma new_ready f a n : ready [] [f; a] n.
Proof.
  split; [discriminate|]. split; [|split; left; reflexivity].
  intros q Q. apply (above_last [] f) in Q as [->|Q]; [reflexivity|apply above_nil in Q as []].
Qed.
Example C78_first_case debug :
  first_able (able yes yes of_geotiff of_geotiff some_files (lit "earth.tif") Read) some_drivers (lit "GTiff") /\
  script_open debug some_files (lit "earth.tif") Read [] = Done (some_files, Dataset (lit "GTiff") (lit "earth.tif") Read) /\
  script_exists debug some_files (lit "moon.tif") Read [] = Done (some_files, false) /\
  script_open debug some_files (lit "earth.tif") Read (lit "HFA") = Thrown.
Proof.
  split; [|split; [|split]].
  - exists [fern_name], [lit "HFA"]. split; [reflexivity|]. split.
    + right. split; [discriminate|]. exists (Foreign 0). repeat split; discriminate.
    + intros e [<-|[]] [(_ & (t & E) & _)|(N & _)]; [discriminate E|congruence].
  - apply C78_first with (ds := some_drivers); try apply some_drivers_differ; try discriminate.
    + split; [discriminate|cbn; intuition discriminate].
    + right. split; auto. left. exists [], [lit "GTiff"; lit "HFA"]. auto.
    + exists [fern_name], [lit "HFA"]. split; [reflexivity|]. split.
      * right. split; [discriminate|]. exists (Foreign 0). repeat split; discriminate.
      * intros e [<-|[]] [(_ & (t & E) & _)|(N & _)]; [discriminate E|congruence].
  - destruct debug; reflexivity.
  - destruct debug; reflexivity.
Qed.
Example C78_write_case debug : exists fs', script_write debug some_files (Constant five) (lit "planet:earth/gravity") [] = Done fs' /\
  script_read debug fs' (lit "planet:/earth//gravity/") = Done (Some (Constant five)) /\ fs' (lit "earth.tif") = Some (Foreign 0).
Proof.
  destruct (C78_write debug saturate some_drivers yes yes yes yes of_geotiff of_geotiff of_geotiff no_writing some_reading
    some_files (lit "planet:earth/gravity") (lit "planet") [lit "earth"; lit "gravity"] five [] []) as (fs' & W & U & R & _).
  - apply some_drivers_differ.
  - left. reflexivity.
  - eexists. split; reflexivity.
  - repeat split.
  - auto.
  - intros q o F r Q. destruct q; [apply above_nil in Q as []|discriminate F].
  - apply new_ready.
  - right. split; auto. intros d _ _ [(_ & (t & E) & _)|(_ & c & E & _)]; discriminate E.
  - exists fs'. split; auto. split.
    + apply R. eexists. split; reflexivity.
    + rewrite U by discriminate. reflexivity.
Qed.
Example C78_history_case debug : exists fs',
  write_each debug saturate some_drivers yes yes yes yes of_geotiff of_geotiff of_geotiff no_writing some_files
    [(lit "planet:earth/gravity", NInt S64 5); (lit "star:sun/gravity", NInt S64 7); (lit "planet:/earth/gravity", NInt S64 9)] [] = Done fs' /\
  script_read debug fs' (lit "planet:earth/gravity") = Done (Some (Constant (NInt S64 9))) /\
  script_read debug fs' (lit "star:sun/gravity") = Done (Some (Constant (NInt S64 7))).
Proof.
  destruct (C78_history debug saturate some_drivers yes yes yes yes of_geotiff of_geotiff of_geotiff no_writing some_reading some_files
    [(lit "planet:earth/gravity", NInt S64 5); (lit "star:sun/gravity", NInt S64 7); (lit "planet:/earth/gravity", NInt S64 9)] []) as (fs' & W & _ & L).
  - apply some_drivers_differ.
  - left. reflexivity.
  - auto.
  - intros x n [E|[E|[E|[]]]]; inversion E; subst.
    + exists (lit "planet"), (lit "earth"), (lit "gravity"). split; [eexists; split; reflexivity|repeat split].
    + exists (lit "star"), (lit "sun"), (lit "gravity"). split; [eexists; split; reflexivity|repeat split].
    + exists (lit "planet"), (lit "earth"), (lit "gravity"). split; [eexists; split; reflexivity|repeat split].
  - intros x n y m db p [E|[E|[E|[]]]] [F|[F|[F|[]]]] _ _; inversion E; inversion F; subst; reflexivity.
  - exists fs'. split; auto. split.
    + apply (L [(lit "planet:earth/gravity", NInt S64 5); (lit "star:sun/gravity", NInt S64 7)] (lit "planet:/earth/gravity") (NInt S64 9) [] (lit "planet") [lit "earth"; lit "gravity"]); auto;
        eexists; split; reflexivity.
    + apply (L [(lit "planet:earth/gravity", NInt S64 5)] (lit "star:sun/gravity") (NInt S64 7) [(lit "planet:/earth/gravity", NInt S64 9)] (lit "star") [lit "sun"; lit "gravity"]); auto;
        try (eexists; split; reflexivity).
      intros x n [E|[]] (data & D & _). inversion E; subst. discriminate D.
Qed.

(** Writing in the Fern format replaces a raster of another format by a dataset that holds nothing but
    the number; without a format, a file that no driver can update is replaced too.  Asking whether a
    dataset can be overwritten empties it.  In release builds, writing something that is not a number
    makes a dataset without it, and no error.  A file with a colon in its name exists, but cannot be
    opened. *)
Theorem C78_refuted (debug : bool) :
  (exists fs', script_write debug some_files (Constant five) (lit "earth.tif:a/b") (lit "Fern") = Done fs' /\
     some_files (lit "earth.tif") = Some (Foreign 0) /\ exists t, fs' (lit "earth.tif") = Some (Fern t)) /\
  (exists fs fs', fs (lit "notes.txt") = Some (Foreign 1) /\
     script_write debug fs (Constant five) (lit "notes.txt:a/b") [] = Done fs' /\ exists t, fs' (lit "notes.txt") = Some (Fern t)) /\
  (exists fs fs', script_read debug fs (lit "planet:a/b") = Done (Some (Constant five)) /\
     script_exists debug fs (lit "planet") Overwrite [] = Done (fs', true) /\
     script_read debug fs' (lit "planet:a/b") <> Done (Some (Constant five))) /\
  (exists fs', script_write false some_files (Something 0) (lit "planet:b") [] = Done fs' /\
     fs' (lit "planet") = Some (Fern []) /\ script_read false fs' (lit "planet:b") = Thrown) /\
  (exists fs, script_exists debug fs (lit "a:b") Read [] = Done (fs, true) /\ script_open debug fs (lit "a:b") Read [] = Thrown).
Proof.
  split; [|split; [|split; [|split]]].
  - destruct debug; (eexists; split; [vm_compute; reflexivity|]; split; [reflexivity|eexists; vm_compute; reflexivity]).
  - exists (fun name => if same_text name (lit "notes.txt") then Some (Foreign 1) else None).
    destruct debug; (eexists; split; [reflexivity|]; split; [vm_compute; reflexivity|eexists; vm_compute; reflexivity]).
  - exists (fun name => if same_text name (lit "planet") then Some (Fern [([lit "a"; lit "b"], Scalar five); ([lit "a"], Group)]) else None).
    eexists. split; [destruct debug; vm_compute; reflexivity|]. split; [destruct debug; reflexivity|]. destruct debug; vm_compute; discriminate.
  - eexists. split; [vm_compute; reflexivity|]. split; vm_compute; reflexivity.
  - exists (fun name => if same_text name (lit "a:b") then Some (Fern []) else None). destruct debug; split; reflexivity.
Qed.
Print Assumptions C78_refuted.
