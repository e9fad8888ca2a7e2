(** * C90: reading a number from a NetCDF file *)
From Coq Require Import String Ascii ZArith List Bool Arith Lia.
From Verif Require Import StringModel StringSpec StringProofs CoardsModel CoardsSpec CoardsProofs.
From Verif Require MessageModel MessageSpec MessageProps.
Import ListNotations.

(** Whether a dataset conforms to the convention is what its attribute says, in release builds whatever
    the attribute is, in debug builds if it is a text without a zero character at its end *)
Theorem C90_conforms {D} debug (d : @dataset D) :
  (debug = true -> well_formed d) ->
  exists b, conforms_to_coards debug d = Ok b /\ (b = true <-> conforming d).
Proof.
  intros W.
  destruct (conforms_to_coards debug d) as [[|]|e| |] eqn:E.
  - exists true. split; [reflexivity|]. apply conforms_true in E. tauto.
  - exists false. split; [reflexivity|]. apply conforms_false in E as [_ N]. split; [discriminate|contradiction].
  - destruct (conforms_no_failure debug d e E).
  - exfalso. unfold conforms_to_coards, conventions in E.
    destruct (lookup (attributes d) (lit "Conventions")) as [a|] eqn:L; [|discriminate].
    apply lookup_has in L. unfold attribute_text, check, bind in E. destruct debug; [|discriminate].
    destruct (W eq_refl _ L) as (t & -> & Q). cbn [andb negb] in E. destruct (last_is zero t) eqn:Z; [|discriminate].
    apply last_is_spec in Z as (r & Z). exact (Q r Z).
  - exfalso. unfold conforms_to_coards, conventions, attribute_text, check, bind in E.
    destruct (lookup (attributes d) (lit "Conventions")) as [a|]; [|discriminate].
    destruct (debug && _); [discriminate|]. destruct (debug && _); discriminate.
Qed.
Print Assumptions C90_conforms.

Section Read.
Context {D : Type}.
Variables (file_exists : text -> bool) (nc_open : text -> option (@dataset D)).

Lemma read_value debug database path destination opened d name v :
  file_exists database = true -> nc_open database = Some d -> (debug = true -> well_formed d) -> conforming d ->
  first_name path name -> (debug = true -> single_name path name) -> has (variables d) name v -> dimensions v = 0 ->
  read_coards debug file_exists nc_open database path destination opened =
    (bind (value_type_id debug (variable_type v)) (fun t => bind (check debug t) (fun _ => read_variable debug v destination)), opened).
Proof.
  intros F O W C N S H Z. unfold read_coards. rewrite F, O. cbn [negb pred]. f_equal. unfold read_opened.
  rewrite (proj2 (conforms_true debug d)) by auto. cbn [bind negb].
  destruct (first_names _ _ N) as (ns & E). rewrite E. apply lookup_has in H.
  assert (Q : check debug (Nat.eqb (length (name :: ns)) 1) = Ok tt).
  { unfold check. destruct debug; [|reflexivity]. pose proof (S eq_refl) as S'. apply names_single in S'. rewrite E in S'.
    injection S' as ->. reflexivity. }
  rewrite Q. cbn [bind]. rewrite H, Z. reflexivity.
Qed.

(** The value of a scalar of type double is read, whatever the destination was, and the dataset is
    closed *)
Lemma read_double debug database path destination opened d name v :
  file_exists database = true -> nc_open database = Some d -> well_formed d -> conforming d ->
  single_name path name -> has (variables d) name v -> dimensions v = 0 -> variable_type v = NC_DOUBLE ->
  read_coards debug file_exists nc_open database path destination opened = (Ok (value v), opened).
Proof.
  intros F O W C S H Z T. rewrite (read_value debug database path destination opened d name v); auto.
  - unfold value_type_id, read_variable. rewrite T. unfold check, bind. rewrite andb_false_r. reflexivity.
  - exists []. exact S.
Qed.

Lemma read_cases debug database path destination opened r n :
  read_coards debug file_exists nc_open database path destination opened = (r, n) ->
  n = opened /\
  (forall e, r = Failed e <-> exists m, problem file_exists nc_open debug database path m /\ e = MessageModel.IOError database m) /\
  (forall x, r = Ok x -> exists d name v, file_exists database = true /\ nc_open database = Some d /\
     (debug = true -> well_formed d) /\ conforming d /\ first_name path name /\ (debug = true -> single_name path name) /\
     has (variables d) name v /\ dimensions v = 0 /\
     bind (value_type_id debug (variable_type v)) (fun t => bind (check debug t) (fun _ => read_variable debug v destination)) = Ok x).
Proof.
  unfold read_coards. destruct (file_exists database) eqn:F; cbn [negb].
  2:{ rewrite io_error_spec by reflexivity. intros [= <- <-]. split; [reflexivity|]. split; [|discriminate].
      intros e. split.
      - intros [= <-]. eexists. split; [apply no_file; exact F|]. reflexivity.
      - intros (m & P & ->). inversion P; subst; try congruence. reflexivity. }
  destruct (nc_open database) as [d|] eqn:O.
  2:{ rewrite io_error_spec by reflexivity. intros [= <- <-]. split; [reflexivity|]. split; [|discriminate].
      intros e. split.
      - intros [= <-]. eexists. split; [apply no_dataset; assumption|]. reflexivity.
      - intros (m & P & ->). inversion P; subst; try congruence. reflexivity. }
  cbn [pred]. intros [= <- <-]. split; [reflexivity|]. unfold read_opened.
  destruct (conforms_to_coards debug d) as [[|]|e| |] eqn:C; cbn [bind negb].
  - apply conforms_true in C as [W C].
    destruct (names path) as [|name ns] eqn:N.
    { assert (X : forall name, first_name path name -> False).
      { intros name Q. apply first_names in Q as (ns & Q). congruence. }
      split.
      - intros e. split.
        + unfold check. destruct (debug && _); discriminate.
        + intros (m & P & ->). inversion P; subst; try congruence; try (exfalso; eauto; fail).
      - intros x. unfold check. destruct (debug && _); discriminate. }
    pose proof (names_first _ _ _ N) as FN.
    assert (U : forall name', first_name path name' -> name' = name).
    { intros name' Q. apply first_names in Q as (ns' & Q). congruence. }
    destruct (check debug (Nat.eqb (length (name :: ns)) 1)) as [u|e'| |] eqn:K.
    2:{ exfalso. unfold check in K. destruct (debug && _); discriminate. }
    3:{ exfalso. unfold check in K. destruct (debug && _); discriminate. }
    2:{ unfold check in K. destruct debug eqn:B; [|discriminate]. cbn [andb] in K.
        assert (NS : forall name', single_name path name' -> False).
        { intros name' Q. apply names_single in Q. rewrite N in Q. injection Q as -> ->. discriminate. }
        cbn [bind]. split; [|discriminate]. intros e. split; [discriminate|].
        intros (m & P & ->). inversion P; subst; try congruence.
        - exfalso. eauto.
        - exfalso. eauto. }
    assert (S : debug = true -> single_name path name).
    { intros B. apply names_single. rewrite N. unfold check in K. rewrite B in K. destruct ns; [reflexivity|discriminate]. }
    cbn [bind]. destruct (lookup (variables d) name) as [v|] eqn:L.
    + apply lookup_has in L. destruct (Nat.eqb_spec (dimensions v) 0) as [Z|Z]; cbn [negb].
      * split.
        -- intros e. split.
           ++ unfold value_type_id, read_variable, check, bind.
              destruct (variable_type v); destruct debug; discriminate.
           ++ intros (m & P & ->). inversion P; subst; try congruence; replace d0 with d in * by congruence.
              ** replace name0 with name in * by (symmetry; auto). destruct (has_lacks _ _ _ L H5).
              ** replace name0 with name in * by (symmetry; auto). rewrite (has_unique _ _ _ _ H5 L) in H6. contradiction.
        -- intros x E. exists d, name, v. repeat split; assumption.
      * rewrite io_error_spec by reflexivity. split; [|discriminate]. intros e. split.
        -- intros [= <-]. eexists. split; [eapply no_scalar; eassumption|]. cbn. rewrite app_nil_r. reflexivity.
        -- intros (m & P & ->). inversion P; subst; try congruence; replace d0 with d in * by congruence.
           ++ replace name0 with name in * by (symmetry; auto). destruct (has_lacks _ _ _ L H5).
           ++ replace name0 with name in * by (symmetry; auto). cbn. rewrite app_nil_r. reflexivity.
    + apply lookup_lacks in L. rewrite io_error_spec by reflexivity. split; [|discriminate]. intros e. split.
      * intros [= <-]. eexists. split; [eapply no_variable; eassumption|]. cbn. rewrite app_nil_r. reflexivity.
      * intros (m & P & ->). inversion P; subst; try congruence; replace d0 with d in * by congruence.
        -- replace name0 with name in * by (symmetry; auto). cbn. rewrite app_nil_r. reflexivity.
        -- replace name0 with name in * by (symmetry; auto). destruct (has_lacks _ _ _ H5 L).
  - apply conforms_false in C as [W C]. rewrite io_error_spec by reflexivity. split; [|discriminate]. intros e. split.
    + intros [= <-]. eexists. split; [eapply not_conforming; eassumption|]. reflexivity.
    + intros (m & P & ->). inversion P; subst; try congruence; replace d0 with d in * by congruence; try contradiction.
      reflexivity.
  - destruct (conforms_no_failure debug d e C).
  - split; [|discriminate]. intros e. split; [discriminate|]. intros (m & P & ->).
    inversion P; subst; try congruence; replace d0 with d in * by congruence;
      destruct (C90_conforms debug d H1) as (b & E & _); congruence.
  - split; [|discriminate]. intros e. split; [discriminate|]. intros (m & P & ->).
    inversion P; subst; try congruence; replace d0 with d in * by congruence;
      destruct (C90_conforms debug d H1) as (b & E & _); congruence.
Qed.
End Read.

(** In a debug build a number is read exactly if the file exists, is a dataset, says that it conforms,
    and the path is the name of a scalar of type double; and what is read is its value *)
Theorem C90_read {D} file_exists (nc_open : text -> option (@dataset D)) database path destination opened x :
  fst (read_coards true file_exists nc_open database path destination opened) = Ok x <->
  exists d name v, file_exists database = true /\ nc_open database = Some d /\ well_formed d /\ conforming d /\
    single_name path name /\ has (variables d) name v /\ dimensions v = 0 /\ variable_type v = NC_DOUBLE /\ value v = x.
Proof.
  split.
  - destruct (read_coards true file_exists nc_open database path destination opened) as [r n] eqn:E. cbn [fst]. intros ->.
    destruct (read_cases _ _ _ _ _ _ _ _ _ E) as (_ & _ & H).
    destruct (H x eq_refl) as (d & name & v & F & O & W & C & _ & S & V & Z & R).
    exists d, name, v. unfold value_type_id, check, bind, read_variable in R.
    destruct (variable_type v); try discriminate R. injection R as R. repeat split; auto.
  - intros (d & name & v & F & O & W & C & S & V & Z & T & <-).
    rewrite (read_double _ _ _ _ _ _ _ d name v); auto.
Qed.
Print Assumptions C90_read.

(** Release builds read the same *)
Theorem C90_release {D} file_exists (nc_open : text -> option (@dataset D)) database path destination opened x :
  fst (read_coards true file_exists nc_open database path destination opened) = Ok x ->
  read_coards false file_exists nc_open database path destination opened = (Ok x, opened).
Proof.
  rewrite C90_read. intros (d & name & v & F & O & W & C & S & V & Z & T & <-). apply (read_double _ _ _ _ _ _ _ d name v); auto.
Qed.
Print Assumptions C90_release.

(** An error is thrown for exactly the problems, and it tells the file and what is wrong *)
Theorem C90_errors {D} debug file_exists (nc_open : text -> option (@dataset D)) database path destination opened t :
  (exists e, fst (read_coards debug file_exists nc_open database path destination opened) = Failed e /\
     MessageModel.message debug e = MessageModel.Ok t) <->
  exists m, problem file_exists nc_open debug database path m /\ t = lit "I/O error handling " ++ database ++ lit ": " ++ m.
Proof.
  assert (T : forall m, MessageModel.message debug (MessageModel.IOError database m) =
    MessageModel.Ok (lit "I/O error handling " ++ database ++ lit ": " ++ m)).
  { intros m. change (MessageModel.message debug (MessageModel.IOError database m)) with
      (MessageModel.format_message debug MessageModel.IO_ERROR [database; m]).
    rewrite MessageProps.C89_format. cbn. rewrite app_nil_r. reflexivity. }
  destruct (read_coards debug file_exists nc_open database path destination opened) as [r n] eqn:E. cbn [fst].
  destruct (read_cases _ _ _ _ _ _ _ _ _ E) as (_ & H & _). split.
  - intros (e & -> & M). destruct (proj1 (H e) eq_refl) as (m & P & ->). exists m. split; [exact P|]. rewrite T in M.
    injection M as <-. reflexivity.
  - intros (m & P & ->). exists (MessageModel.IOError database m). split; [apply H; eauto|apply T].
Qed.
Print Assumptions C90_errors.

(** However reading ends, no dataset is left open *)
Theorem C90_closed {D} debug file_exists (nc_open : text -> option (@dataset D)) database path destination opened :
  snd (read_coards debug file_exists nc_open database path destination opened) = opened.
Proof.
  destruct (read_coards debug file_exists nc_open database path destination opened) as [r n] eqn:E.
  destruct (read_cases _ _ _ _ _ _ _ _ _ E) as (-> & _). reflexivity.
Qed.
Print Assumptions C90_closed.

(** Scalars of other types are not reported as errors: debug builds abort; release builds convert
    numbers, leave the destination as it is for texts, and are undefined for types of users *)
Theorem C90_types_refuted {D} debug file_exists (nc_open : text -> option (@dataset D)) database path destination opened d name v :
  file_exists database = true -> nc_open database = Some d -> (debug = true -> well_formed d) -> conforming d ->
  first_name path name -> (debug = true -> single_name path name) -> has (variables d) name v -> dimensions v = 0 ->
  variable_type v <> NC_DOUBLE ->
  let r := fst (read_coards debug file_exists nc_open database path destination opened) in
  (debug = true -> r = Aborts) /\
  (debug = false -> numeric (variable_type v) -> r = Ok (value v)) /\
  (debug = false -> variable_type v = NC_CHAR \/ variable_type v = NC_STRING -> r = Ok destination) /\
  (debug = false -> (exists k, variable_type v = NC_USER k) -> r = Undefined).
Proof.
  intros F O W C N S H Z T. cbv zeta. rewrite (read_value _ _ _ _ _ _ _ d name v); auto. cbn [fst].
  unfold value_type_id, check, read_variable, bind.
  destruct (variable_type v); try contradiction; destruct debug; cbn; repeat split; intros; try discriminate; try reflexivity; try contradiction;
    match goal with
    | H : _ \/ _ |- _ => destruct H; discriminate
    | H : exists k, _ |- _ => destruct H; discriminate
    end.
Qed.
Print Assumptions C90_types_refuted.

(** A value that stands for no data is read as any other *)
Theorem C90_fill_refuted {D} debug file_exists (nc_open : text -> option (@dataset D)) database path destination opened d name v :
  file_exists database = true -> nc_open database = Some d -> well_formed d -> conforming d ->
  single_name path name -> has (variables d) name v -> dimensions v = 0 -> variable_type v = NC_DOUBLE ->
  fill_value v = Some (value v) ->
  fst (read_coards debug file_exists nc_open database path destination opened) = Ok (value v).
Proof. intros. rewrite (read_double _ _ _ _ _ _ _ d name v); auto. Qed.
Print Assumptions C90_fill_refuted.

(** Of a path of more than one name release builds read the variable with the first name, and debug
    builds abort; without a name release builds are undefined *)
Theorem C90_path_refuted {D} debug file_exists (nc_open : text -> option (@dataset D)) database path destination opened d :
  file_exists database = true -> nc_open database = Some d -> well_formed d -> conforming d ->
  let r := fst (read_coards debug file_exists nc_open database path destination opened) in
  (debug = true -> (forall name, ~ single_name path name) -> r = Aborts) /\
  (debug = false -> (forall name, ~ first_name path name) -> r = Undefined) /\
  (forall name other v, debug = false -> separated (fun c => c = "/"%char) path [name; other] -> has (variables d) name v ->
     dimensions v = 0 -> variable_type v = NC_DOUBLE -> r = Ok (value v)).
Proof.
  intros F O W C. cbv zeta. split; [|split].
  - intros -> N. unfold read_coards. rewrite F, O. cbn [negb fst]. unfold read_opened.
    rewrite (proj2 (conforms_true true d)) by auto. cbn [bind negb]. unfold check.
    destruct (names path) as [|name [|other ns]] eqn:E; try reflexivity. destruct (N name). apply names_single. exact E.
  - intros -> N. unfold read_coards. rewrite F, O. cbn [negb fst]. unfold read_opened.
    rewrite (proj2 (conforms_true false d)) by auto. cbn [bind negb].
    destruct (names path) as [|name ns] eqn:E; [reflexivity|]. destruct (N name). exact (names_first _ _ _ E).
  - intros name other v -> S V Z T. rewrite (read_value _ _ _ _ _ _ _ d name v); auto; try discriminate.
    + cbn [fst]. rewrite T. unfold read_variable. rewrite T. reflexivity.
    + exists [other]. exact S.
Qed.
Print Assumptions C90_path_refuted.

(** A text of conventions with a zero character at its end, as written by programs that count it, and
    conventions in an attribute of another type (such as strings of NetCDF-4): debug builds abort;
    release builds take a file that says no more than COARDS for one that does not conform *)
Theorem C90_zero_refuted {D} debug (d : @dataset D) a :
  has (attributes d) (lit "Conventions") a -> a = Characters (lit "COARDS" ++ [zero]) \/ (exists n, a = Values n) ->
  conforms_to_coards debug d = if debug then Aborts else Ok false.
Proof.
  intros H A. apply lookup_has in H. unfold conforms_to_coards, conventions. rewrite H. destruct debug.
  - destruct A as [->|[n ->]]; reflexivity.
  - destruct A as [->|[n ->]]; [reflexivity|]. unfold attribute_text, check, bind. cbn [andb].
    destruct (in_dec same_text (lit "COARDS") _) as [I|I]; [|reflexivity].
    rewrite listed_spec in I. destruct (zeros_not_listed n I).
Qed.
Print Assumptions C90_zero_refuted.

(** ** A case *)
Definition case_dataset : @dataset Z :=
  Dataset [(lit "history", Values 3); (lit "Conventions", Characters (lit " CF-1.4, COARDS"))]
    [(lit "x", MkVariable NC_DOUBLE 0 5%Z (Some (-1)%Z)); (lit "y", MkVariable NC_DOUBLE 2 0%Z None); (lit "n", MkVariable NC_INT 0 7%Z None)].
Definition case_exists (name : text) : bool := if same_text name (lit "none.nc") then false else true.
Definition case_open (name : text) : option (@dataset Z) := if same_text name (lit "earth.nc") then Some case_dataset else None.

Example C90_case :
  data_name (lit "earth.nc:x") = Some (lit "earth.nc", lit "/x") /\
  well_formed case_dataset /\ conforming case_dataset /\ single_name (lit "/x") (lit "x") /\
  read_coards true case_exists case_open (lit "earth.nc") (lit "/x") 0%Z 3 = (Ok 5%Z, 3) /\
  read_coards false case_exists case_open (lit "earth.nc") (lit "/n") 0%Z 3 = (Ok 7%Z, 3) /\
  fst (read_coards true case_exists case_open (lit "earth.nc") (lit "/n") 0%Z 3) = Aborts /\
  fst (read_coards true case_exists case_open (lit "earth.nc") (lit "/y") 0%Z 3) =
    Failed (MessageModel.IOError (lit "earth.nc") (lit "Variable is not a scalar: y")) /\
  fst (read_coards true case_exists case_open (lit "earth.nc") (lit "/z") 0%Z 3) =
    Failed (MessageModel.IOError (lit "earth.nc") (lit "Does not contain variable: z")) /\
  fst (read_coards true case_exists case_open (lit "none.nc") (lit "/z") 0%Z 3) =
    Failed (MessageModel.IOError (lit "none.nc") (lit "Does not exist")) /\
  fst (read_coards true case_exists case_open (lit "other.nc") (lit "/z") 0%Z 3) =
    Failed (MessageModel.IOError (lit "other.nc") (lit "Cannot be read")).
Proof.
  assert (C : conforms_to_coards true case_dataset = Ok true) by (vm_compute; reflexivity).
  apply conforms_true in C as [W C].
  split; [vm_compute; reflexivity|]. split; [exact (W eq_refl)|]. split; [exact C|].
  split; [apply names_single; vm_compute; reflexivity|]. repeat split; vm_compute; reflexivity.
Qed.
