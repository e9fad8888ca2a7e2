(** * Properties of clients of libraries: C88 *)
From Coq Require Import String List Bool Arith NArith Lia.
From Verif Require Import ClientModel ClientSpec ClientProofs.
Import ListNotations.

(** In histories without clients of [io/gdal]: while there are clients, HDF5 is open, and the drivers
    are exactly Fern's and those of GDAL that are not known to contain bugs, each of which GDAL has;
    otherwise there are none *)
Theorem C88_registered debug available skip limit l s :
  NoDup available -> NoDup skip -> ~ In "Fern"%string available ->
  possible l -> (forall e, In e l -> ~ about Raster e) -> run debug available skip limit l start = Ok s ->
  (hdf5_open s = true <-> 0 < live Hdf5 l) /\
  (forall n, In n (map fst (drivers s)) <->
     (n = "Fern"%string /\ 0 < live Fern l) \/ (In n available /\ ~ In n skip /\ 0 < live Gdal l)) /\
  (forall n k, In (n, GdalDriver k) (drivers s) -> In (n, k) (manager s)) /\
  (forall n, In (n, FernDriver) (drivers s) -> n = "Fern"%string).
Proof.
  intros U V F P R E. destruct (run_registered debug available skip limit U V F l P R) as [H _].
  destruct (H s E) as (_ & H2 & _ & _ & M & D & A & B & _). split; [exact H2|]. split; [|auto].
  intros n. rewrite D, M. tauto.
Qed.
Print Assumptions C88_registered.

(** No such history of clients goes wrong *)
Theorem C88_total debug available skip limit l :
  NoDup available -> NoDup skip -> ~ In "Fern"%string available ->
  possible l -> (forall e, In e l -> about Hdf5 e \/ about Fern e \/ about Gdal e) ->
  exists s, run debug available skip limit l start = Ok s.
Proof.
  intros U V F P K. apply (run_registered debug available skip limit U V F l P); [|exact K].
  intros e I [->| ->]; destruct (K _ I) as [[Q|Q]|[[Q|Q]|[Q|Q]]]; discriminate.
Qed.
Print Assumptions C88_total.

(** The same for GDAL's drivers in histories without clients of [language/io/gdal] *)
Theorem C88_raster debug available skip limit l s :
  NoDup available -> possible l -> (forall e, In e l -> ~ about Gdal e) -> run debug available skip limit l start = Ok s ->
  map fst (manager s) = if Nat.ltb 0 (live Raster l) then available else [].
Proof.
  intros U. assert (G : possible l -> (forall e, In e l -> ~ about Gdal e) -> forall s, run debug available skip limit l start = Ok s ->
    raster_count s = live Raster l /\ map fst (manager s) = if Nat.ltb 0 (live Raster l) then available else []).
  { clear s. induction l as [|e l IH] using rev_ind; intros P R s E.
    - injection E as <-. split; reflexivity.
    - rewrite run_app in E. destruct (run debug available skip limit l start) as [s0| |] eqn:Q; try discriminate.
      destruct (IH (possible_prefix _ _ P) (fun x I => R x (in_or_app _ _ _ (or_introl I))) s0 eq_refl) as [C M]. clear IH.
      cbn [bind run] in E. destruct (step debug available skip limit e s0) as [s1| |] eqn:T; try discriminate. cbn in E. injection E as <-.
      assert (Same : ~ about Raster e -> raster_count s1 = raster_count s0 -> manager s1 = manager s0 ->
        raster_count s1 = live Raster (l ++ [e]) /\ map fst (manager s1) = if Nat.ltb 0 (live Raster (l ++ [e])) then available else []).
      { intros N E1 E2. rewrite live_other by exact N. rewrite E1, E2. auto. }
      assert (NG : ~ about Gdal e) by (apply R, in_or_app; right; left; reflexivity).
      destruct e as [k|k| |r]; try destruct k; cbn [step] in T.
      + injection T as <-. apply Same; try reflexivity. intros [|]; discriminate.
      + unfold make_fern in T. destruct (if Nat.eqb _ _ then _ else _) as [d| |]; try discriminate. cbn [bind] in T. injection T as <-.
        apply Same; try reflexivity. intros [|]; discriminate.
      + exfalso; apply NG; left; reflexivity.
      + unfold make_raster in T. rewrite C in T. rewrite live_make by (eapply possible_prefix; eauto).
        destruct (live Raster l) as [|n] eqn:L.
        * cbn [Nat.eqb] in T. cbn [Nat.ltb Nat.leb] in M.
          assert (E0 : manager s0 = []) by (destruct (manager s0); [reflexivity|discriminate]). rewrite E0 in T.
          pose proof (register_names available [] (next s0) U (fun _ _ K => K)) as N.
          destruct (register_missing available [] (next s0)) as [m k]. injection T as <-. cbn in *. auto.
        * cbn in T. injection T as <-. cbn. auto.
      + injection T as <-. apply Same; try reflexivity. intros [|]; discriminate.
      + unfold destroy_hdf5 in T. destruct (check _ _); try discriminate. cbn [bind] in T. injection T as <-. apply Same; try reflexivity. intros [|]; discriminate.
      + unfold destroy_fern in T. destruct (check debug (Nat.ltb 0 (fern_count s0))); try discriminate. cbn [bind] in T.
        destruct (if Nat.eqb _ _ then _ else _) as [d| |]; try discriminate. cbn [bind] in T. injection T as <-. apply Same; try reflexivity. intros [|]; discriminate.
      + exfalso; apply NG; right; reflexivity.
      + pose proof (live_destroy Raster l P) as L. unfold destroy_raster in T. rewrite C, L in T. destruct (check _ _); try discriminate. cbn [bind pred] in T.
        injection T as <-. cbn. split; [reflexivity|]. rewrite L in M. cbn in M. destruct (live Raster (l ++ [Destroy Raster])); cbn; [reflexivity|exact M].
      + unfold destroy_parser in T. destruct (python_on s0); [destruct (check _ _); try discriminate|]; injection T as <-; apply Same; try reflexivity; intros [|]; discriminate.
      + destruct (python_on s0); [|discriminate]. injection T as <-. apply Same; try reflexivity. intros [|]; discriminate.
      + destruct (python_on s0); [|discriminate]. destruct (r && Nat.ltb (files s0) limit); injection T as <-; apply Same; try reflexivity; intros [|]; discriminate. }
  intros P R E. apply (G P R s E).
Qed.
Print Assumptions C88_raster.

Definition two : list string := ["GTiff"; "PDF"]%string.

(** An [IOClient] is made twice and destructed once *)
Definition io_history : list event :=
  [Make Hdf5; Make Fern; Make Gdal; Make Hdf5; Make Fern; Make Gdal; Destroy Gdal; Destroy Fern; Destroy Hdf5].
(** A way to compute that a history is possible *)
Lemma possible_check l :
  forallb (fun n => forallb (fun k => Nat.leb (destroyed k (firstn n l)) (made k (firstn n l))) [Hdf5; Fern; Gdal; Raster; Parser])
    (seq 0 (S (length l))) = true -> possible l.
Proof.
  intros H k a b E. rewrite forallb_forall in H. specialize (H (length a)). rewrite forallb_forall in H.
  replace (firstn (length a) l) with a in H.
  - apply Nat.leb_le. apply H; [apply in_seq; subst l; rewrite app_length; lia|destruct k; cbn; auto 6].
  - subst l. rewrite firstn_app, firstn_all, Nat.sub_diag. cbn. symmetry. apply app_nil_r.
Qed.
Example C88_case : possible io_history /\ (forall e, In e io_history -> ~ about Raster e) /\
  exists s, run true two ["PDF"%string] 100 io_history start = Ok s /\
    drivers s = [("Fern"%string, FernDriver); ("GTiff"%string, GdalDriver 0)] /\ hdf5_open s = true /\ live Gdal io_history = 1.
Proof.
  split; [apply possible_check; reflexivity|]. split.
  - intros e I. cbn in I. decompose [or] I; try contradiction; subst e; intros [|]; discriminate.
  - eexists. split; [vm_compute; reflexivity|]. repeat split.
Qed.

(** The two kinds of clients of GDAL do not know of each other.  When the last one of either is
    destructed, the drivers are gone for the clients of the other kind: those of the registry have been
    deleted.  If there are drivers known to contain bugs, or the registry is filled again, debug builds
    abort. *)
Theorem C88_shared_refuted debug limit :
  (exists s k, run debug two [] limit [Make Gdal; Make Raster; Destroy Raster] start = Ok s /\
     In ("GTiff"%string, GdalDriver k) (drivers s) /\ ~ In ("GTiff"%string, k) (manager s)) /\
  (exists s, run debug two [] limit [Make Raster; Make Gdal; Destroy Gdal] start = Ok s /\ manager s = [] /\ raster_count s = 1) /\
  run true two ["PDF"%string] limit [Make Gdal; Make Raster; Destroy Gdal] start = Abort /\
  run true two [] limit [Make Gdal; Make Raster; Destroy Raster; Destroy Gdal; Make Gdal] start = Abort.
Proof.
  split; [|split; [|split; destruct debug; reflexivity]].
  - destruct debug; eexists _, 0; (split; [reflexivity|]); cbn; auto.
  - destruct debug; eexists; repeat split.
Qed.
Print Assumptions C88_shared_refuted.

(** ** Python *)

Lemma usable_snoc l e : e <> Make Parser -> e <> Destroy Parser -> (usable (l ++ [e]) <-> usable l).
Proof.
  intros A B. split; intros (a & b & E & N).
  - destruct b as [|x b _] using rev_ind.
    + apply app_inj_tail in E. destruct E as [_ E]. contradiction.
    + rewrite app_comm_cons, app_assoc in E. apply app_inj_tail in E. destruct E as [-> _]. exists a, b. split; [reflexivity|].
      intros I. apply N, in_or_app. auto.
  - exists a, (b ++ [e]). split; [subst l; rewrite <- app_assoc; reflexivity|]. intros I. apply in_app_or in I. destruct I as [I|[I|[]]]; [auto|congruence].
Qed.
Lemma usable_make l : usable (l ++ [Make Parser]).
Proof. exists l, []. split; [reflexivity|intros []]. Qed.
Lemma usable_destroy l : ~ usable (l ++ [Destroy Parser]).
Proof.
  intros (a & b & E & N). destruct b as [|x b _] using rev_ind.
  - apply app_inj_tail in E. destruct E; discriminate.
  - rewrite app_comm_cons, app_assoc in E. apply app_inj_tail in E. destruct E as [_ <-]. apply N, in_or_app. right; left; reflexivity.
Qed.

Lemma step_python debug available skip limit e s s' : step debug available skip limit e s = Ok s' ->
  (e = Make Parser /\ python_on s' = true) \/ (e = Destroy Parser /\ python_on s' = false) \/
  (e <> Make Parser /\ e <> Destroy Parser /\ python_on s' = python_on s).
Proof.
  intros E. destruct e as [k|k| |r].
  - destruct k; cbn [step] in E.
    + injection E as <-. right; right. repeat split; discriminate.
    + unfold make_fern in E. destruct (if Nat.eqb _ _ then _ else _) as [d| |]; try discriminate. injection E as <-. right; right. repeat split; discriminate.
    + unfold make_gdal in E. destruct (Nat.eqb _ _).
      * destruct (register_missing available (manager s) (next s)) as [m k]. destruct (add_drivers debug m (drivers s)) as [d| |]; try discriminate. cbn [bind] in E.
        destruct (erase_drivers debug (filter (has m) skip) (m, d)) as [x| |]; try discriminate. injection E as <-. right; right. repeat split; discriminate.
      * injection E as <-. right; right. repeat split; discriminate.
    + unfold make_raster in E. destruct (if Nat.eqb _ _ then _ else _) as [m k]. injection E as <-. right; right. repeat split; discriminate.
    + injection E as <-. left. auto.
  - destruct k; cbn [step] in E.
    + unfold destroy_hdf5 in E. destruct (check _ _); try discriminate. injection E as <-. right; right. repeat split; discriminate.
    + unfold destroy_fern in E. destruct (check debug (Nat.ltb 0 (fern_count s))); try discriminate. cbn [bind] in E.
      destruct (if Nat.eqb _ _ then _ else _) as [d| |]; try discriminate. injection E as <-. right; right. repeat split; discriminate.
    + unfold destroy_gdal in E. destruct (check _ _); try discriminate. cbn [bind] in E. destruct (if Nat.eqb _ _ then _ else _) as [d| |]; try discriminate. injection E as <-. right; right. repeat split; discriminate.
    + unfold destroy_raster in E. destruct (check _ _); try discriminate. injection E as <-. right; right. repeat split; discriminate.
    + unfold destroy_parser in E. right; left. split; [reflexivity|]. destruct (python_on s) eqn:P; [destruct (check _ _); try discriminate|]; injection E as <-; auto.
  - cbn [step] in E. destruct (python_on s) eqn:P; [|discriminate]. injection E as <-. right; right. repeat split; try discriminate; auto.
  - cbn [step] in E. destruct (python_on s) eqn:P; [|discriminate]. right; right. destruct (r && Nat.ltb (files s) limit); injection E as <-; repeat split; try discriminate; auto.
Qed.

Lemma run_python debug available skip limit l : forall s, run debug available skip limit l start = Ok s -> (python_on s = true <-> usable l).
Proof.
  induction l as [|e l IH] using rev_ind; intros s E.
  - injection E as <-. cbn. split; [discriminate|]. intros (a & b & K & _). destruct a; discriminate.
  - rewrite run_app in E. destruct (run debug available skip limit l start) as [s0| |] eqn:Q; try discriminate. specialize (IH s0 eq_refl).
    cbn [bind run] in E. destruct (step debug available skip limit e s0) as [s1| |] eqn:T; try discriminate. injection E as <-.
    destruct (step_python _ _ _ _ _ _ _ T) as [[-> ->]|[[-> ->]|(A & B & ->)]].
    + split; [intros _; apply usable_make|reflexivity].
    + split; [discriminate|]. intros K. destruct (usable_destroy _ K).
    + rewrite usable_snoc by assumption. exact IH.
Qed.

(** Scripts can be parsed if and only if no parser has been destructed since the last one was made,
    even if there are parsers left: otherwise the behaviour is not defined *)
Theorem C88_parsing debug available skip limit l s :
  run debug available skip limit l start = Ok s ->
  (usable l -> run debug available skip limit (l ++ [ParseString]) start = Ok s /\
     exists s', run debug available skip limit (l ++ [ParseFile true]) start = Ok s') /\
  (~ usable l -> run debug available skip limit (l ++ [ParseString]) start = Undef /\
     forall r, run debug available skip limit (l ++ [ParseFile r]) start = Undef).
Proof.
  intros E. pose proof (run_python _ _ _ _ _ _ E) as P. rewrite !run_app, E. cbn [bind run step]. split.
  - intros U. rewrite (proj2 P U). split; [reflexivity|]. destruct (true && Nat.ltb (files s) limit); eexists; reflexivity.
  - intros U. assert (F : python_on s = false) by (destruct (python_on s); [exfalso; apply U, P; reflexivity|reflexivity]).
    rewrite F. split; [reflexivity|]. intros r. rewrite run_app, E. cbn [bind run step]. rewrite F. reflexivity.
Qed.
Print Assumptions C88_parsing.

(** Programs that have one parser at a time, and parse while they have one, can do so *)
Theorem C88_single debug available skip limit l :
  possible l -> (forall a b, l = a ++ b -> live Parser a <= 1) ->
  (forall a e b, l = a ++ e :: b -> parses e -> live Parser a = 1) ->
  run debug available skip limit l start <> Undef /\
  forall s, run debug available skip limit l start = Ok s -> (python_on s = true <-> live Parser l = 1).
Proof.
  intros P O W. assert (NU : forall e s, step debug available skip limit e s = Undef -> parses e /\ python_on s = false).
  { assert (CU : forall b, check debug b <> Undef) by (intros b; unfold check; destruct (debug && negb b); discriminate).
    assert (EU : forall l x, erase_drivers debug l x <> Undef).
    { induction l0 as [|n l0 IH]; intros x; cbn; [discriminate|]. unfold erase_driver. destruct (check debug (has (snd x) n)) eqn:K; cbn; [apply IH|discriminate|destruct (CU _ K)]. }
    assert (AU : forall m d, add_drivers debug m d <> Undef).
    { induction m as [|[n k] m IH]; intros d; cbn; [discriminate|]. destruct (check debug (negb (has d n))) eqn:K; cbn; [apply IH|discriminate|destruct (CU _ K)]. }
    intros e s E. destruct e as [k|k| |r].
    - destruct k; cbn [step] in E; exfalso.
      + discriminate.
      + unfold make_fern in E. destruct (Nat.eqb _ _); [|discriminate]. destruct (check _ _) eqn:K; try discriminate. destruct (CU _ K).
      + unfold make_gdal in E. destruct (Nat.eqb _ _); [|discriminate]. destruct (register_missing _ _ _) as [m k].
        destruct (add_drivers debug m (drivers s)) eqn:K; try discriminate; cbn [bind] in E; [|destruct (AU _ _ K)].
        destruct (erase_drivers _ _ _) eqn:K2; try discriminate. destruct (EU _ _ K2).
      + unfold make_raster in E. destruct (if Nat.eqb _ _ then _ else _) as [m k]. discriminate.
      + discriminate.
    - destruct k; cbn [step] in E; exfalso.
      + unfold destroy_hdf5 in E. destruct (check _ _) eqn:K; try discriminate. destruct (CU _ K).
      + unfold destroy_fern in E. destruct (check debug (Nat.ltb 0 (fern_count s))) eqn:K; try discriminate; [|destruct (CU _ K)]. cbn [bind] in E.
        destruct (Nat.eqb _ _); [|discriminate]. destruct (check debug (has (drivers s) "Fern"%string)) eqn:K2; try discriminate. destruct (CU _ K2).
      + unfold destroy_gdal in E. destruct (check _ _) eqn:K; try discriminate; [|destruct (CU _ K)]. cbn [bind] in E.
        destruct (Nat.eqb _ _); [|discriminate]. destruct (erase_drivers _ _ _) eqn:K2; try discriminate. destruct (EU _ _ K2).
      + unfold destroy_raster in E. destruct (check _ _) eqn:K; try discriminate. destruct (CU _ K).
      + unfold destroy_parser in E. destruct (python_on s); [|discriminate]. destruct (check _ _) eqn:K; try discriminate. destruct (CU _ K).
    - cbn [step] in E. destruct (python_on s) eqn:K; [discriminate|]. split; [left; reflexivity|reflexivity].
    - cbn [step] in E. destruct (python_on s) eqn:K; [destruct (r && _); discriminate|]. split; [right; exists r; reflexivity|reflexivity]. }
  revert P O W. induction l as [|e l IH] using rev_ind; intros P O W.
  - split; [discriminate|]. intros s E. injection E as <-. cbn. split; discriminate.
  - destruct IH as [I1 I2].
    { eapply possible_prefix; eauto. }
    { intros a b ->. apply (O a (b ++ [e])). symmetry. apply app_assoc. }
    { intros a x b ->. apply (W a x (b ++ [e])). rewrite <- app_assoc. reflexivity. }
    rewrite run_app. destruct (run debug available skip limit l start) as [s0| |] eqn:Q; cbn [bind].
    2:{ split; [discriminate|]. intros s E; discriminate. } 2:{ destruct (I1 eq_refl). }
    specialize (I2 s0 eq_refl). cbn [run]. split.
    + destruct (step debug available skip limit e s0) as [s1| |] eqn:T; cbn; try discriminate.
      intros _. destruct (NU _ _ T) as [A B]. assert (live Parser l = 1) as L by (apply (W l e []); auto). apply I2 in L. congruence.
    + intros s E. destruct (step debug available skip limit e s0) as [s1| |] eqn:T; try discriminate. injection E as <-.
      pose proof (O l [e] eq_refl) as O1. pose proof (O (l ++ [e]) [] (eq_sym (app_nil_r _))) as O2.
      destruct (step_python _ _ _ _ _ _ _ T) as [[-> ->]|[[-> ->]|(A & B & ->)]].
      * rewrite live_make in * by (eapply possible_prefix; eauto). split; [lia|reflexivity].
      * rewrite (live_destroy Parser l P) in *. split; [discriminate|lia].
      * rewrite (live_other Parser l e) by (intros [|]; contradiction). exact I2.
Qed.
Print Assumptions C88_single.

(** One parser after the other *)
Example C88_single_case : possible [Make Parser; ParseString; Destroy Parser; Make Parser; ParseFile true] /\
  run true two [] 10 [Make Parser; ParseString; Destroy Parser; Make Parser; ParseFile true] start =
    Ok (State 0 false 0 0 0 [] 0 [] true 1 1).
Proof. split; [apply possible_check; reflexivity|reflexivity]. Qed.

(** Two parsers; one is destructed, and the other one, which is still there, cannot be used any more *)
Theorem C88_parser_refuted debug limit :
  exists s, run debug two [] limit [Make Parser; Make Parser; Destroy Parser] start = Ok s /\
  live Parser [Make Parser; Make Parser; Destroy Parser] = 1 /\ python_on s = false.
Proof. destruct debug; eexists; (split; [vm_compute; reflexivity|split; reflexivity]). Qed.
Print Assumptions C88_parser_refuted.

(** The count of parsers has 16 bits: destructing one of n parsers aborts debug builds if n is a multiple
    of 65536, and never otherwise *)
Theorem C88_many available skip limit n : 0 < n ->
  (run true available skip limit (repeat (Make Parser) n ++ [Destroy Parser]) start = Abort <-> (N.of_nat n mod 65536 = 0)%N).
Proof.
  intros Pos. assert (G : forall n, run true available skip limit (repeat (Make Parser) n) start =
    Ok (with_python (Nat.ltb 0 n) (N.of_nat n mod 65536)%N 0 start)).
  { clear. induction n as [|n IH]; [reflexivity|].
    replace (repeat (Make Parser) (S n)) with (repeat (Make Parser) n ++ [Make Parser]) by (symmetry; apply repeat_cons).
    rewrite run_app, IH. cbn [bind run step]. unfold make_parser. cbn [bind]. f_equal. unfold with_python. cbn [python_count files]. f_equal.
    unfold short. rewrite Nat2N.inj_succ, <- N.add_1_r. rewrite N.add_mod_idemp_l by discriminate. reflexivity. }
  rewrite run_app, G. cbn [bind run step]. unfold destroy_parser. cbn [python_on with_python].
  rewrite (proj2 (Nat.ltb_lt 0 n) Pos). cbn [python_count with_python].
  unfold check. cbn [andb]. destruct (N.ltb_spec 0 (N.of_nat n mod 65536)) as [L|L]; cbn [negb bind].
  - split; [discriminate|]. intros E. rewrite E in L. inversion L.
  - split; [intros _; apply N.le_0_r; exact L|reflexivity].
Qed.
Print Assumptions C88_many.

Lemma step_files debug available skip limit e s s' : step debug available skip limit e s = Ok s' -> files s <= limit ->
  files s' = Nat.min limit (files s + if event_eq e (ParseFile true) then 1 else 0).
Proof.
  intros E L. assert (Same : files s' = files s -> e <> ParseFile true -> files s' = Nat.min limit (files s + if event_eq e (ParseFile true) then 1 else 0)).
  { intros F N. destruct (event_eq e (ParseFile true)); [contradiction|]. rewrite F. lia. }
  destruct e as [k|k| |r].
  - destruct k; cbn [step] in E.
    + injection E as <-. apply Same; [reflexivity|discriminate].
    + unfold make_fern in E. destruct (if Nat.eqb _ _ then _ else _) as [d| |]; try discriminate. injection E as <-. apply Same; [reflexivity|discriminate].
    + unfold make_gdal in E. destruct (Nat.eqb _ _).
      * destruct (register_missing available (manager s) (next s)) as [m k]. destruct (add_drivers debug m (drivers s)) as [d| |]; try discriminate. cbn [bind] in E.
        destruct (erase_drivers debug (filter (has m) skip) (m, d)) as [x| |]; try discriminate. injection E as <-. apply Same; [reflexivity|discriminate].
      * injection E as <-. apply Same; [reflexivity|discriminate].
    + unfold make_raster in E. destruct (if Nat.eqb _ _ then _ else _) as [m k]. injection E as <-. apply Same; [reflexivity|discriminate].
    + injection E as <-. apply Same; [reflexivity|discriminate].
  - destruct k; cbn [step] in E.
    + unfold destroy_hdf5 in E. destruct (check _ _); try discriminate. injection E as <-. apply Same; [reflexivity|discriminate].
    + unfold destroy_fern in E. destruct (check debug (Nat.ltb 0 (fern_count s))); try discriminate. cbn [bind] in E.
      destruct (if Nat.eqb _ _ then _ else _) as [d| |]; try discriminate. injection E as <-. apply Same; [reflexivity|discriminate].
    + unfold destroy_gdal in E. destruct (check _ _); try discriminate. cbn [bind] in E. destruct (if Nat.eqb _ _ then _ else _) as [d| |]; try discriminate. injection E as <-. apply Same; [reflexivity|discriminate].
    + unfold destroy_raster in E. destruct (check _ _); try discriminate. injection E as <-. apply Same; [reflexivity|discriminate].
    + unfold destroy_parser in E. destruct (python_on s) eqn:P; [destruct (check _ _); try discriminate|]; injection E as <-; apply Same; reflexivity || discriminate.
  - cbn [step] in E. destruct (python_on s) eqn:P; [|discriminate]. injection E as <-. apply Same; reflexivity || discriminate.
  - cbn [step] in E. destruct (python_on s) eqn:P; [|discriminate]. destruct r; cbn [andb] in E.
    + destruct (event_eq (ParseFile true) (ParseFile true)); [|congruence].
      destruct (Nat.ltb_spec (files s) limit) as [K|K]; injection E as <-; cbn; lia.
    + injection E as <-. apply Same; reflexivity || discriminate.
Qed.

(** Files that have been parsed are never closed.  Once as many have been parsed as can be open, no
    file can be parsed any more. *)
Theorem C88_files debug available skip limit l s :
  run debug available skip limit l start = Ok s -> files s = Nat.min limit (count_occ event_eq l (ParseFile true)).
Proof.
  revert s. induction l as [|e l IH] using rev_ind; intros s E.
  - injection E as <-. cbn. lia.
  - rewrite run_app in E. destruct (run debug available skip limit l start) as [s0| |] eqn:Q; try discriminate. specialize (IH s0 eq_refl).
    cbn [bind run] in E. destruct (step debug available skip limit e s0) as [s1| |] eqn:T; try discriminate. injection E as <-.
    rewrite (step_files _ _ _ _ _ _ _ T) by lia. rewrite IH, count_occ_app. cbn. destruct (event_eq e (ParseFile true)); lia.
Qed.
Print Assumptions C88_files.

Example C88_raster_case : possible [Make Raster; Make Raster; Destroy Raster] /\
  exists s, run true two [] 10 [Make Raster; Make Raster; Destroy Raster] start = Ok s /\ map fst (manager s) = two.
Proof. split; [apply possible_check; reflexivity|]. eexists. split; [vm_compute; reflexivity|reflexivity]. Qed.
