(** * Property C79: command lines of compiled modules *)
From Coq Require Import String ZArith List Bool SpecFloat Ascii Lia.
From Verif Require Import IntsModel ArithModel FloatModel StringModel StringSpec StringProps RasterModel FileSpec FileProps.
From Verif Require Import StoreModel StoreSpec StoreProps DriverModel DriverSpec DriverProps CommandModel CommandSpec.
Import ListNotations.
Open Scope Z_scope.

Lemma digit_spec c d : digit c = Some d <-> is_digit c d.
Proof.
  unfold is_digit. split.
  - destruct c as [[] [] [] [] [] [] [] []]; cbn; intros E; inversion E; subst; (split; [lia|reflexivity]).
  - intros (P & E). assert (L : (Z.to_nat d < 10)%nat). { apply (nth_error_Some (list_ascii_of_string "0123456789"%string)). rewrite E. discriminate. }
    remember (Z.to_nat d) as n eqn:En. assert (d = Z.of_nat n) as -> by lia. clear En P.
    do 10 (destruct n as [|n]; [inversion E; reflexivity|]). lia.
Qed.
Lemma digit_fun c d e : is_digit c d -> is_digit c e -> d = e.
Proof. intros H K. apply digit_spec in H, K. congruence. Qed.
Lemma digits_app a b z : digits (a ++ b) z = match digits a z with Some y => digits b y | None => None end.
Proof. revert z. induction a as [|c a IH]; intros z; cbn; auto. destruct (digit c); auto. Qed.
Lemma unsigned_spec s z : unsigned_of s = Some z <-> decimal s z.
Proof.
  split.
  - revert z. induction s as [|c s IH] using rev_ind; [discriminate|]. intros z E.
    assert (E' : digits (s ++ [c]) 0 = Some z) by (destruct s; exact E). clear E. rewrite digits_app in E'.
    destruct (digits s 0) as [y|] eqn:D; [|discriminate]. cbn in E'. destruct (digit c) as [d|] eqn:Dc; [|discriminate]. inversion E'; subst.
    apply digit_spec in Dc. destruct s as [|x s].
    + inversion D; subst. cbn [app]. apply decimal_one. auto.
    + apply decimal_more; [apply IH; exact D|auto].
  - induction 1 as [c d H|s z c d H IH K].
    + apply digit_spec in H. cbn. rewrite H. f_equal.
    + apply digit_spec in K. destruct s as [|x s]; [inversion H; subst; try discriminate; destruct s; discriminate|].
      assert (E : digits ((x :: s) ++ [c]) 0 = Some (10 * z + d)). { rewrite digits_app. unfold unsigned_of in IH. rewrite IH. cbn. rewrite K. reflexivity. }
      exact E.
Qed.
Lemma decimal_first s z : decimal s z -> exists c r d, s = c :: r /\ is_digit c d.
Proof. induction 1 as [c d H|s z c d H (x & r & e & -> & K) K']; eauto. exists x, (r ++ [c]), e. auto. Qed.
Lemma no_sign c d : is_digit c d -> c <> "-"%char /\ c <> "+"%char.
Proof. intros H. apply digit_spec in H. split; intros ->; discriminate H. Qed.
Lemma integer_spec s z : integer_of s = Some z <-> spelled s z /\ fits z.
Proof.
  assert (R : forall y, (imin S64 <=? y) && (y <=? imax S64) = true <-> fits y).
  { intros y. rewrite andb_true_iff, !Z.leb_le. unfold fits. change (imin S64) with (- 2 ^ 63). change (imax S64) with (2 ^ 63 - 1). lia. }
  unfold integer_of. set (o := match s with c :: r => _ | [] => None end).
  assert (O : forall y, o = Some y <-> spelled s y).
  { intros y. unfold o. destruct s as [|c r].
    - split; [discriminate|]. intros H. inversion H; subst. apply decimal_first in H0 as (? & ? & ? & ? & _). discriminate.
    - destruct (ascii_dec c "-"%char) as [->|N1]; [|destruct (ascii_dec c "+"%char) as [->|N2]].
      + split.
        * destruct (unsigned_of r) as [w|] eqn:E; [|discriminate]. cbn. intros Q; inversion Q; subst. apply spelled_minus. apply unsigned_spec. auto.
        * intros H. inversion H; subst.
          -- apply decimal_first in H0 as (x & ? & d & Q & D). inversion Q; subst. apply no_sign in D. destruct D. congruence.
          -- match goal with K : decimal r _ |- _ => apply unsigned_spec in K; rewrite K end. reflexivity.
      + split.
        * intros E. apply spelled_plus. apply unsigned_spec. auto.
        * intros H. inversion H; subst.
          -- apply decimal_first in H0 as (x & ? & d & Q & D). inversion Q; subst. apply no_sign in D. destruct D. congruence.
          -- apply unsigned_spec. auto.
      + split.
        * intros E. apply spelled_digits. apply unsigned_spec. auto.
        * intros H. inversion H; subst; try congruence. apply unsigned_spec. auto. }
  destruct o as [y|].
  - destruct ((imin S64 <=? y) && (y <=? imax S64)) eqn:B.
    + split.
      * intros Q; inversion Q; subst. split; [apply O|apply R]; auto.
      * intros (H & _). apply O in H. congruence.
    + split; [discriminate|]. intros (H & F). apply O in H. inversion H; subst. apply R in F. congruence.
  - split; [discriminate|]. intros (H & _). apply O in H. discriminate.
Qed.

Section Command.
Variables (debug : bool) (drivers : list text).
Variables (may_read may_write may_create directory_is_writable : text -> bool).
Variables (recognises updates deletes : text -> content -> bool).
Variables (double_of : text -> option spec_float) (raster_type : dataset -> files -> path -> outcome unit).
Notation data_source := (data_source debug drivers may_read may_write may_create directory_is_writable recognises updates deletes double_of raster_type).
Notation data_sync := (data_sync debug drivers may_read may_write may_create directory_is_writable recognises updates deletes).
Notation parse_sources := (parse_sources debug drivers may_read may_write may_create directory_is_writable recognises updates deletes double_of raster_type).
Notation parse_syncs := (parse_syncs debug drivers may_read may_write may_create directory_is_writable recognises updates deletes).
Notation parse_command_line := (parse_command_line debug drivers may_read may_write may_create directory_is_writable recognises updates deletes double_of raster_type).
Notation able := (able may_read may_write recognises updates).

Lemma constant_spec s : constant_of double_of s
  (match integer_of s with Some z => Integer z | None => match double_of s with Some x => Number x | None => Words s end end).
Proof.
  destruct (integer_of s) as [z|] eqn:E.
  - apply integer_spec in E as [H F]. apply constant_integer; auto.
  - assert (N : forall z, spelled s z -> ~ fits z). { intros z H F. assert (K : integer_of s = Some z) by (apply integer_spec; auto). congruence. }
    destruct (double_of s) eqn:D; [apply constant_number|apply constant_words]; auto.
Qed.
Lemma data_source_constant fs value s : data_source fs value = Done s -> constant_of double_of value s.
Proof.
  unfold CommandModel.data_source. destruct (parse_name debug value) as [parts| | |]; cbn [bind]; try discriminate.
  destruct (dataset_exists _ _ _ _ _ _ _ _ _ _ _ _) as [found| | |]; cbn [bind]; try discriminate.
  match goal with |- bind ?r _ = _ -> _ => destruct r as [o| | |]; cbn [bind]; try discriminate end.
  intros E. pose proof (constant_spec value) as C. destruct (integer_of value); [|destruct (double_of value)]; inversion E; subst; auto.
Qed.
Lemma parse_sources_done fs : forall nr values sources rest, parse_sources fs nr values = Done (sources, rest) ->
  Forall2 (constant_of double_of) (firstn nr values) sources /\ rest = skipn nr values.
Proof.
  induction nr as [|nr IH]; intros values sources rest E.
  - cbn in E. destruct values; inversion E; subst; split; auto; constructor.
  - destruct values as [|v values]; [inversion E; split; auto; constructor|]. cbn [CommandModel.parse_sources] in E.
    destruct (data_source fs v) as [s| | |] eqn:S; cbn [bind] in E; try discriminate.
    destruct (parse_sources fs nr values) as [[ss r]| | |] eqn:P; cbn [bind fst snd] in E; try discriminate. inversion E; subst.
    destruct (IH _ _ _ P) as [F ->]. split; auto. cbn [firstn]. constructor; auto. eapply data_source_constant; eauto.
Qed.
Lemma parse_syncs_done : forall nr values fs fs' syncs rest, parse_syncs fs nr values = (fs', Done (syncs, rest)) ->
  length syncs = length (firstn nr values) /\ rest = skipn nr values.
Proof.
  induction nr as [|nr IH]; intros values fs fs' syncs rest E.
  - cbn in E. destruct values; inversion E; auto.
  - destruct values as [|v values]; [inversion E; auto|]. cbn [CommandModel.parse_syncs] in E.
    destruct (data_sync fs v) as [[fs1 s]| | |]; try (inversion E; fail).
    destruct (parse_syncs fs1 nr values) as [fs2 [[ss r]| | |]] eqn:P; cbn [bind fst snd] in E; inversion E; subst.
    destruct (IH _ _ _ _ _ P) as [L ->]. cbn. auto.
Qed.

(** Whenever a command line is accepted, there are not too many values, and each value in the place of
    an argument is taken as a constant, also if it is the name of data. *)
Theorem C79_accepted fs values nr_arguments nr_results fs' sources syncs :
  parse_command_line fs values nr_arguments nr_results = (fs', Done (sources, syncs)) ->
  (length values <= nr_arguments + nr_results)%nat /\
  Forall2 (constant_of double_of) (firstn nr_arguments values) sources /\
  length syncs = length (skipn nr_arguments values) /\
  forall ds p, ~ In (Stored ds p) sources.
Proof.
  unfold CommandModel.parse_command_line. intros E.
  destruct (parse_sources fs nr_arguments values) as [[ss rest]| | |] eqn:P; try (inversion E; fail).
  destruct (parse_sources_done _ _ _ _ _ P) as [F ->].
  destruct (parse_syncs fs nr_results (skipn nr_arguments values)) as [fs1 [[ys rest]| | |]] eqn:Q; cbn [bind fst snd] in E; try (inversion E; fail).
  destruct (parse_syncs_done _ _ _ _ _ _ Q) as [L ->].
  destruct (skipn nr_results (skipn nr_arguments values)) eqn:K; [|inversion E]. inversion E; subst.
  assert (LL : (length (skipn nr_arguments values) <= nr_results)%nat).
  { pose proof (skipn_length nr_results (skipn nr_arguments values)) as SL. rewrite K in SL. cbn in SL. lia. }
  split; [rewrite skipn_length in LL; lia|]. split; auto. split; [rewrite L, firstn_length; lia|].
  intros ds p I. clear - F I. induction F as [|v s vs ss C F IH]; [destruct I|]. destruct I as [->|I]; auto. inversion C.
Qed.

(** Values that name no data that can be read, and results that can be created: the command line is
    accepted unless there are too many values.  All results named are empty datasets afterwards, also if
    there are too many values; nothing else is changed. *)
Theorem C79_parsed fs values nr_arguments nr_results : In fern_name drivers -> NoDup drivers ->
  (forall v, In v (firstn nr_arguments values) -> exists db p, denotes v db p /\ forall d, In d drivers -> ~ able fs db Read d) ->
  (forall v, In v (firstn nr_results (skipn nr_arguments values)) -> exists db p, denotes v db p /\ may_create db = true) ->
  exists fs' o, parse_command_line fs values nr_arguments nr_results = (fs', o) /\
    ((nr_arguments + nr_results < length values)%nat -> o = Thrown) /\
    ((length values <= nr_arguments + nr_results)%nat -> exists sources syncs, o = Done (sources, syncs) /\
       Forall2 (constant_of double_of) (firstn nr_arguments values) sources /\
       Forall2 (fun v s => exists db p, denotes v db p /\ s = Sync (Dataset fern_name db Overwrite) p) (skipn nr_arguments values) syncs) /\
    (forall name, (exists v p, In v (firstn nr_results (skipn nr_arguments values)) /\ denotes v name p) -> fs' name = Some (Fern [])) /\
    (forall name, (forall v p, In v (firstn nr_results (skipn nr_arguments values)) -> ~ denotes v name p) -> fs' name = fs name).
Proof.
  intros I ND Ha Hr. unfold CommandModel.parse_command_line.
  assert (Ne : drivers <> []) by (intros E1; rewrite E1 in I; destruct I).
  assert (exists sources, parse_sources fs nr_arguments values = Done (sources, skipn nr_arguments values)) as (sources & P).
  { clear Hr. revert values Ha. induction nr_arguments as [|nr IH]; intros values Ha; [exists []; destruct values; reflexivity|].
    destruct values as [|v values]; [exists []; reflexivity|]. cbn [firstn skipn CommandModel.parse_sources] in *.
    destruct (IH values) as (ss & P); [intros x Ix; apply Ha; right; auto|].
    destruct (Ha v (or_introl eq_refl)) as (db & p & D & N). pose proof (denotes_plain _ _ _ D) as Pl. destruct D as (data & E & <-).
    destruct (in_split _ _ I) as (b & a0 & E1).
    destruct (C78_first debug drivers may_read may_write may_create directory_is_writable recognises updates deletes fs db Read [] (fern_name :: b ++ a0) ND Ne ltac:(discriminate) Pl) as (_ & X).
    { right. split; auto. left. eauto. }
    destruct X as [_ X].
    { intros d Id. apply N. rewrite E1. destruct Id as [<-|Id]; apply in_or_app; [right; left; auto|]. apply in_app_or in Id as [Id|Id]; auto. right. right. auto. }
    assert (exists s, data_source fs v = Done s) as (s & S).
    { unfold CommandModel.data_source, parse_name. rewrite E. cbn [bind fst snd]. rewrite X. cbn [bind snd].
      destruct (integer_of v); [|destruct (double_of v)]; eauto. }
    rewrite S, P. cbn [bind fst snd]. eauto. }
  rewrite P. destruct (parse_sources_done _ _ _ _ _ P) as [F _].
  assert (Long : length values = (length (firstn nr_arguments values) + length (skipn nr_arguments values))%nat).
  { rewrite <- app_length, firstn_skipn. reflexivity. }
  assert (Cut : (skipn nr_arguments values <> [] -> length (firstn nr_arguments values) = nr_arguments) /\ (length (firstn nr_arguments values) <= nr_arguments)%nat).
  { rewrite firstn_length. split; [|lia]. intros N. destruct (Nat.le_gt_cases (length values) nr_arguments) as [H|H]; [|lia]. elim N. apply skipn_all2. auto. }
  remember (skipn nr_arguments values) as rest eqn:Er. clear Er P.
  assert (exists fs' syncs, parse_syncs fs nr_results rest = (fs', Done (syncs, skipn nr_results rest)) /\
    Forall2 (fun v s => exists db p, denotes v db p /\ s = Sync (Dataset fern_name db Overwrite) p) (firstn nr_results rest) syncs /\
    (forall name, (exists v p, In v (firstn nr_results rest) /\ denotes v name p) -> fs' name = Some (Fern [])) /\
    (forall name, (forall v p, In v (firstn nr_results rest) -> ~ denotes v name p) -> fs' name = fs name)) as (fs' & syncs & Q & G & New & Old).
  { clear - Hr I. revert fs rest Hr. induction nr_results as [|nr IH]; intros fs rest Hr.
    - exists fs, []. split; [destruct rest; reflexivity|]. split; [constructor|]. split; auto. intros name (v & p & [] & _).
    - destruct rest as [|v rest]; [exists fs, []; split; auto; split; [constructor|]; split; auto; intros name (x & p & [] & _)|].
      cbn [firstn skipn CommandModel.parse_syncs] in *.
      destruct (Hr v (or_introl eq_refl)) as (db & p & D & Mc). pose proof (denotes_plain _ _ _ D) as Pl.
      destruct (C78_overwrite debug drivers may_read may_write may_create directory_is_writable recognises updates deletes fs db [] I (or_introl eq_refl) Pl Mc)
        as (fs1 & fs2 & O & _ & F1 & _ & U & _).
      assert (S : data_sync fs v = Done (fs1, Sync (Dataset fern_name db Overwrite) p)).
      { destruct D as (data & E & <-). unfold CommandModel.data_sync, parse_name. rewrite E. cbn [bind fst snd]. rewrite O. reflexivity. }
      rewrite S. destruct (IH fs1 rest) as (fs' & syncs & Q & G & New & Old); [intros x Ix; apply Hr; right; auto|]. rewrite Q. cbn [bind fst snd].
      exists fs', (Sync (Dataset fern_name db Overwrite) p :: syncs). split; auto. split; [constructor; eauto|]. 
      assert (Dec : forall name, (exists x q, In x (firstn nr rest) /\ denotes x name q) \/ forall x q, In x (firstn nr rest) -> ~ denotes x name q).
      { intros name. clear. induction (firstn nr rest) as [|x l IHl]; [right; intros ? ? []|]. destruct IHl as [(y & q & Iy & Dy)|N]; [left; exists y, q; split; [right|]; auto|].
        destruct (data_name x) as [[db' data]|] eqn:E.
        - destruct (list_eq_dec ascii_dec db' name) as [->|Nd].
          + left. exists x, (names data). split; [left; auto|]. exists data. auto.
          + right. intros y q [->|Iy]; [|eauto]. intros (d & E1 & _). congruence.
        - right. intros y q [->|Iy]; [|eauto]. intros (d & E1 & _). congruence. }
      split.
      + intros name (x & q & Ix & Dx). destruct (Dec name) as [H|H]; [apply New; auto|]. destruct Ix as [<-|Ix]; [|elim (H x q); auto].
        destruct (denotes_fun _ _ _ _ _ D Dx) as [<- _]. rewrite Old; auto.
      + intros name N. rewrite Old by (intros x q Ix; apply N; right; auto). apply U. intros ->. apply (N v p); [left; auto|auto]. }
  rewrite Q. cbn [bind fst snd]. eexists. eexists. split; [reflexivity|]. split; [|split; [|split]]; auto.
  - intros L. destruct (skipn nr_results rest) eqn:K; auto. exfalso.
    pose proof (skipn_length nr_results rest) as SL. rewrite K in SL. cbn in SL. lia.
  - intros L. assert (Lr : (length rest <= nr_results)%nat). { destruct rest as [|x rest]; [cbn; lia|]. destruct Cut as [Cut _]. rewrite Cut in Long by discriminate. lia. }
    rewrite (skipn_all2 rest Lr). exists sources, syncs. split; auto. split; auto. rewrite (firstn_all2 rest Lr) in G. auto.
Qed.

(** A value that names data is looked for: it must be there, although it is not used. *)
Theorem C79_named fs value db p t : In fern_name drivers -> denotes value db p -> fs db = Some (Fern t) -> may_read db = true -> rooted t p ->
  (forall n, find t p = Some (Scalar n) -> exists s, data_source fs value = Done s /\ constant_of double_of value s) /\
  (find t p = None \/ find t p = Some Group -> data_source fs value = Thrown).
Proof.
  intros I D F R Rt. pose proof (denotes_plain _ _ _ D) as Pl.
  destruct (exists_fern debug drivers may_read may_write may_create directory_is_writable recognises updates deletes fs db Read [] ltac:(discriminate) I (or_introl eq_refl) Pl) as [O X].
  { left. repeat split; eauto. discriminate. }
  assert (E : data_source fs value = bind (expression_type debug raster_type (Dataset fern_name db Read) fs p)
     (fun _ => Done (match integer_of value with Some z => Integer z | None => match double_of value with Some x => Number x | None => Words value end end))).
  { destruct D as (data & E & <-). unfold CommandModel.data_source, parse_name. rewrite E. cbn [bind fst snd]. rewrite X. cbn [bind snd].
    unfold dataset_source. rewrite O. cbn [bind snd]. destruct (expression_type _ _ _ _ _); cbn [bind]; auto.
    destruct (integer_of value); [|destruct (double_of value)]; auto. }
  assert (T : expression_type debug raster_type (Dataset fern_name db Read) fs p =
     bind (contains_attribute debug t p) (fun a => if a then match find t p with Some (Scalar _) => Done tt | _ => if debug then Aborted else Done tt end else Thrown)).
  { unfold expression_type. cbn [driver dataset_name]. rewrite same_text_refl. unfold database. rewrite (plain_name db Pl), F. reflexivity. }
  rewrite T in E. clear T. destruct p as [|x p0 _] using rev_ind.
  - rewrite contains_attribute_nil in E. cbn [bind] in E. split; [discriminate|]. auto.
  - rewrite contains_attribute_spec in E. apply rooted_last in Rt as [Rt G]. apply reachable_rooted in Rt. apply groups_at_spec in G. rewrite Rt, G in E. cbn [andb bind] in E.
    split.
    + intros n Fn. rewrite Fn in E. cbn [bind] in E. eexists. split; [exact E|]. apply constant_spec.
    + intros [Fn|Fn]; rewrite Fn in E; exact E.
Qed.

(** Compiled modules run if there is a value for each argument; results may be missing. *)
Theorem C79_run fs values nr_arguments nr_results fs' sources syncs :
  parse_command_line fs values nr_arguments nr_results = (fs', Done (sources, syncs)) ->
  check_sources_and_syncs nr_arguments sources syncs = if Nat.ltb (length values) nr_arguments then Thrown else Done tt.
Proof.
  intros E. apply C79_accepted in E as (_ & F & _). assert (FL : forall (a : list text) (b : list source), Forall2 (constant_of double_of) a b -> length a = length b) by (induction 1; cbn; auto). apply FL in F. rewrite firstn_length in F.
  unfold check_sources_and_syncs. destruct (Nat.ltb_spec (length values) nr_arguments).
  - replace (length sources <? nr_arguments)%nat with true; auto. symmetry. apply Nat.ltb_lt. lia.
  - replace (length sources) with nr_arguments by lia. rewrite Nat.ltb_irrefl. reflexivity.
Qed.
End Command.
Print Assumptions C79_accepted.
Print Assumptions C79_parsed.
Print Assumptions C79_named.
Print Assumptions C79_run.

(** ** Cases *)
Definition no_double (s : text) : option spec_float := if same_text s (lit "1e0") then Some (S754_finite false 4503599627370496 (-52)) else None.
Definition no_type (ds : dataset) (fs : files) (p : path) : outcome unit := Thrown.
Definition command debug := parse_command_line debug some_drivers yes yes yes yes of_geotiff of_geotiff of_geotiff no_double no_type.
Definition planets : files := fun name => if same_text name (lit "planet") then Some (Fern [([lit "earth"; lit "gravity"], Scalar five); ([lit "earth"], Group)]) else None.

Example C79_case debug :
  snd (command debug some_files [lit "+5"; lit "-07"; lit "1e0"; lit "9223372036854775808"; lit "out:a/b"] 4 2) =
    Done ([Integer 5; Integer (-7); Number (S754_finite false 4503599627370496 (-52)); Words (lit "9223372036854775808")],
          [Sync (Dataset fern_name (lit "out") Overwrite) [lit "a"; lit "b"]]) /\
  (exists db p, denotes (lit "+5") db p /\ forall d, In d some_drivers -> ~ able yes yes of_geotiff of_geotiff some_files db Read d) /\
  spelled (lit "-07") (-7).
Proof.
  split; [destruct debug; vm_compute; reflexivity|]. split.
  - exists (lit "+5"), []. split; [eexists; split; reflexivity|]. intros d _ [(_ & (t & E) & _)|(_ & c & E & _)]; discriminate E.
  - apply (spelled_minus (lit "07") 7). change (decimal ([ "0"%char ] ++ [ "7"%char ]) (10 * 0 + 7)). apply decimal_more; [apply decimal_one|]; split; try lia; reflexivity.
Qed.

(** The name of data is passed on as a text; too many values empty the results before they are
    reported; a name of data that is missing from a dataset is an error, although names of data are
    never used. *)
Theorem C79_refuted debug :
  (snd (command debug planets [lit "planet:earth/gravity"] 1 0) = Done ([Words (lit "planet:earth/gravity")], []) /\
   script_read debug planets (lit "planet:earth/gravity") = Done (Some (Constant five))) /\
  (let r := command debug planets [lit "1"; lit "planet:a/b"; lit "3"] 1 1 in
   snd r = Thrown /\ planets (lit "planet") <> Some (Fern []) /\ fst r (lit "planet") = Some (Fern [])) /\
  (snd (command debug planets [lit "1"; lit "planet:mars/gravity"] 2 1) = Thrown).
Proof.
  split; [|split].
  - split; destruct debug; vm_compute; reflexivity.
  - destruct debug; (split; [vm_compute; reflexivity|]; split; [vm_compute; discriminate|vm_compute; reflexivity]).
  - destruct debug; vm_compute; reflexivity.
Qed.
Print Assumptions C79_refuted.
