(** * Property C77: datasets of the Fern format *)
From Coq Require Import String ZArith List Bool SpecFloat Ascii Lia.
From Verif Require Import IntsModel ArithModel FloatModel StringModel RasterModel RasterProofs StoreModel StoreSpec.
Import ListNotations.

Lemma same_path_spec p q : same_path p q = true <-> p = q.
Proof. unfold same_path. destruct (list_eq_dec (list_eq_dec ascii_dec) p q); split; congruence. Qed.
Lemma same_path_refl p : same_path p p = true.
Proof. apply same_path_spec. reflexivity. Qed.
Lemma find_cons t p o q : find ((p, o) :: t) q = match q with [] => Some Group | _ => if same_path p q then Some o else find t q end.
Proof. destruct q; reflexivity. Qed.
Lemma find_same t p o : p <> [] -> find ((p, o) :: t) p = Some o.
Proof. intros N. rewrite find_cons. destruct p; [congruence|]. rewrite same_path_refl. reflexivity. Qed.
Lemma find_other t p o q : q <> p -> find ((p, o) :: t) q = find t q.
Proof. intros N. rewrite find_cons. destruct q; auto. destruct (same_path p _) eqn:E; auto. apply same_path_spec in E. congruence. Qed.

Lemma groups_at_spec t p : groups_at t p = true <-> find t p = Some Group.
Proof. unfold groups_at. destruct (find t p) as [[]|]; split; congruence. Qed.
Lemma above_nil p : ~ above p [].
Proof. intros (r & N & E). symmetry in E. apply app_eq_nil in E as [_ ->]. congruence. Qed.
Lemma above_cons q n p : above q (n :: p) <-> q = [] \/ exists q', q = n :: q' /\ above q' p.
Proof.
  split.
  - intros (r & N & E). destruct q as [|m q]; auto. right. inversion E; subst. exists q. split; auto. exists r. auto.
  - intros [->|(q' & -> & r & N & ->)]; [exists (n :: p); split; auto; discriminate|exists r; auto].
Qed.
Lemma reachable_spec t a p : reachable t a p = true <-> groups_at t a = true /\ forall q, above q p -> groups_at t (a ++ q) = true.
Proof.
  revert a. induction p as [|n p IH]; intros a; cbn [reachable].
  - rewrite andb_true_r. split; [|tauto]. intros G. split; auto. intros q Q. apply above_nil in Q as [].
  - rewrite andb_true_iff. destruct p as [|m p].
    + split; [|tauto]. intros [G _]. split; auto. intros q Q. apply above_cons in Q as [->|(q' & _ & Q)]; [rewrite app_nil_r; auto|apply above_nil in Q as []].
    + rewrite IH. split.
      * intros (G & G1 & G2). split; auto. intros q Q. apply above_cons in Q as [->|(q' & -> & Q)]; [rewrite app_nil_r; auto|].
        specialize (G2 q' Q). rewrite <- app_assoc in G2. exact G2.
      * intros (G & H). split; auto. split.
        -- apply H. apply above_cons. right. exists []. split; auto. apply above_cons. auto.
        -- intros q Q. rewrite <- app_assoc. apply (H (n :: q)). apply above_cons. eauto.
Qed.
Lemma reachable_rooted t p : reachable t [] p = true <-> rooted t p.
Proof.
  rewrite reachable_spec. unfold rooted. split.
  - intros [_ H] q Q. apply groups_at_spec. apply (H q Q).
  - intros H. split; [reflexivity|]. intros q Q. apply groups_at_spec. apply H; auto.
Qed.
Lemma above_app q p r : above q p -> above q (p ++ r).
Proof. intros (s & N & ->). exists (s ++ r). rewrite app_assoc. split; auto. intros E. apply app_eq_nil in E as [-> _]. congruence. Qed.
Lemma rooted_prefix t p r : rooted t (p ++ r) -> rooted t p.
Proof. intros H q Q. apply H, above_app. auto. Qed.

Lemma contains_features_spec debug t p : forall a result, rooted t a ->
  contains_features debug t a p result =
  match p with
  | [] => Done result
  | _ => if reachable t [] (a ++ p) then Done (result && groups_at t (a ++ p)) else failure debug
  end.
Proof.
  induction p as [|n p IH]; intros a result Ra; [reflexivity|]. cbn [contains_features]. unfold is_group, has_type.
  destruct (reachable t [] (a ++ [n])) eqn:R.
  - assert (E : forall b : bool, contains_features debug t (a ++ [n]) p (if b then result else false) =
      match p with [] => Done (if b then result else false) | _ => if reachable t [] (a ++ n :: p) then Done ((if b then result else false) && groups_at t (a ++ n :: p)) else failure debug end).
    { intros b. rewrite IH by (apply reachable_rooted; auto). destruct p; auto. rewrite <- app_assoc. reflexivity. }
    assert (Q : bind (match find t (a ++ [n]) with Some o => Done (match o with Group => true | _ => false end) | None => Done false end)
       (fun b => contains_features debug t (a ++ [n]) p (if b then result else false)) =
       contains_features debug t (a ++ [n]) p (if groups_at t (a ++ [n]) then result else false)).
    { unfold groups_at. destruct (find t (a ++ [n])) as [[]|]; reflexivity. }
    rewrite Q, E. destruct p as [|m p].
    + rewrite R. destruct (groups_at t (a ++ [n])), result; reflexivity.
    + destruct (reachable t [] (a ++ n :: m :: p)) eqn:R2; auto.
      assert (G : groups_at t (a ++ [n]) = true).
      { apply groups_at_spec. apply reachable_rooted in R2. apply R2. exists (m :: p). split; [discriminate|]. rewrite <- app_assoc. reflexivity. }
      rewrite G. reflexivity.
  - destruct (reachable t [] (a ++ n :: p)) eqn:R2.
    + apply reachable_rooted in R2. replace (a ++ n :: p) with ((a ++ [n]) ++ p) in R2 by (rewrite <- app_assoc; reflexivity).
      apply rooted_prefix in R2. apply reachable_rooted in R2. congruence.
    + unfold failure. destruct debug; reflexivity.
Qed.
Lemma rooted_nil t : rooted t [].
Proof. intros q Q. apply above_nil in Q as []. Qed.
Lemma contains_feature_spec debug t p : contains_feature debug t p = if reachable t [] p then Done (groups_at t p) else failure debug.
Proof. unfold contains_feature. rewrite contains_features_spec by apply rooted_nil. destruct p; reflexivity. Qed.

Lemma removelast_app1 {A} (l : list A) x : removelast (l ++ [x]) = l.
Proof. rewrite removelast_app by discriminate. cbn. apply app_nil_r. Qed.
Lemma above_last p n q : above q (p ++ [n]) <-> q = p \/ above q p.
Proof.
  split.
  - intros (r & N & E). destruct (exists_last N) as (r' & x & ->). rewrite app_assoc in E. apply app_inj_tail in E as [-> ->].
    destruct r' as [|y r']; [left; rewrite app_nil_r; auto|]. right. exists (y :: r'). split; auto. discriminate.
  - intros [->|Q]; [exists [n]; split; auto; discriminate|apply above_app; auto].
Qed.
Lemma rooted_last t p n : rooted t (p ++ [n]) <-> rooted t p /\ find t p = Some Group.
Proof.
  split.
  - intros H. split; [apply (rooted_prefix t p [n]); auto|]. apply H. apply above_last. auto.
  - intros [R G] q Q. apply above_last in Q as [->|Q]; auto.
Qed.
Lemma self_not_above p : ~ above p p.
Proof. intros (r & N & E). apply (f_equal (@length _)) in E. rewrite app_length in E. destruct r; [congruence|]. cbn in E. lia. Qed.
Lemma above_trans p q r : above p q -> above q r -> above p r.
Proof. intros Q (s & N & ->). apply above_app. auto. Qed.

Lemma contains_attribute_spec debug t p n : contains_attribute debug t (p ++ [n]) =
  if reachable t [] p then Done (groups_at t p && match find t (p ++ [n]) with Some Group | None => false | Some _ => true end) else failure debug.
Proof.
  unfold contains_attribute. rewrite removelast_app1, contains_feature_spec. destruct (reachable t [] p) eqn:R; [|unfold failure; destruct debug; reflexivity].
  cbn [bind]. destruct (groups_at t p) eqn:G; [|reflexivity]. unfold is_dataset, has_type.
  assert (R2 : reachable t [] (p ++ [n]) = true) by (apply reachable_rooted, rooted_last; split; [apply reachable_rooted|apply groups_at_spec]; auto).
  rewrite R2. destruct (find t (p ++ [n])) as [[]|]; reflexivity.
Qed.
Lemma contains_attribute_nil debug t : contains_attribute debug t [] = Done false.
Proof. reflexivity. Qed.

(** Making the last of a path of features, the others of which exist *)
Lemma add_groups_existing debug t r : forall p a, rooted t (a ++ p) -> (p <> [] -> find t (a ++ p) = Some Group) ->
  add_groups debug t a (p ++ r) = add_groups debug t (a ++ p) r.
Proof.
  induction p as [|n p IH]; intros a R G; [rewrite app_nil_r; reflexivity|].
  assert (R1 : rooted t (a ++ [n])). { apply (rooted_prefix t (a ++ [n]) p). rewrite <- app_assoc. exact R. }
  assert (G1 : find t (a ++ [n]) = Some Group).
  { destruct p as [|m p]; [apply G; discriminate|]. apply R. exists (m :: p). split; [discriminate|]. rewrite <- app_assoc. reflexivity. }
  cbn [app add_groups]. unfold is_group, has_type. apply reachable_rooted in R1. rewrite R1, G1. cbn [bind].
  rewrite IH.
  - f_equal. rewrite <- app_assoc. reflexivity.
  - rewrite <- app_assoc. exact R.
  - intros _. rewrite <- app_assoc. apply G. discriminate.
Qed.
Lemma add_feature_spec debug t p n : rooted t (p ++ [n]) -> find t (p ++ [n]) <> Some Group ->
  add_feature debug t (p ++ [n]) =
  match find t (p ++ [n]) with
  | None => Done ((p ++ [n], Group) :: t)
  | Some _ => if debug then Aborted else Done t
  end.
Proof.
  intros R N. assert (Rp := R). apply rooted_last in Rp as [Rp Gp].
  assert (E : add_groups debug t [] (p ++ [n]) = match find t (p ++ [n]) with None => Done ((p ++ [n], Group) :: t) | Some _ => if debug then Aborted else Done t end).
  { rewrite add_groups_existing by auto. cbn [app add_groups]. unfold is_group, has_type, create_group. assert (R' := R). apply reachable_rooted in R'. rewrite R'.
    destruct (find t (p ++ [n])) as [[]|] eqn:F; cbn [bind]; try rewrite F; try (destruct debug; reflexivity); try congruence. }
  unfold add_feature. destruct debug; auto.
  rewrite contains_feature_spec. assert (R' := R). apply reachable_rooted in R'. rewrite R'. cbn [bind].
  destruct (groups_at t (p ++ [n])) eqn:G; [apply groups_at_spec in G; congruence|].
  rewrite contains_attribute_spec. assert (R'' := Rp). apply reachable_rooted in R''. rewrite R''. cbn [bind]. apply groups_at_spec in Gp. rewrite Gp. cbn [andb].
  destruct (find t (p ++ [n])) as [[]|] eqn:F; try congruence; try reflexivity.
  destruct (p ++ [n]) eqn:Q; [symmetry in Q; apply app_cons_not_nil in Q as []|exact E].
Qed.

Lemma last_split {A} (p : list A) : p <> [] -> exists q n, p = q ++ [n].
Proof. intros N. destruct (exists_last N) as (q & n & ->). eauto. Qed.

Lemma write_spec debug convert t n p k : rooted t p ->
  write_constant debug convert t n (p ++ [k]) =
  match find t p with
  | Some Group =>
      match find t (p ++ [k]) with
      | None => Done ((p ++ [k], Scalar n) :: t)
      | Some Group => if debug then Aborted else Done t
      | Some (Scalar m) => if debug && negb (same_class m n) then Aborted else Done ((p ++ [k], Scalar (written convert m n)) :: t)
      | Some Elements => failure debug
      end
  | Some _ => failure debug
  | None => let t' := (p, Group) :: t in
      match find t' (p ++ [k]) with
      | None => Done ((p ++ [k], Scalar n) :: t')
      | Some Group => if debug then Aborted else Done t'
      | Some (Scalar m) => if debug && negb (same_class m n) then Aborted else Done ((p ++ [k], Scalar (written convert m n)) :: t')
      | Some Elements => failure debug
      end
  end.
Proof.
  intros R. unfold write_constant. rewrite removelast_app1, contains_feature_spec. assert (R' := R). apply reachable_rooted in R'. rewrite R'. cbn [bind].
  assert (Rest : forall t, rooted t p -> find t p = Some Group ->
    (a <~ is_dataset debug t (p ++ [k]) ;; if a then match find t (p ++ [k]) with Some (Scalar m) => if debug && negb (same_class m n) then Aborted else Done ((p ++ [k], Scalar (written convert m n)) :: t)
       | _ => if debug then Aborted else Undefined end else match find t (p ++ [k]) with Some _ => if debug then Aborted else Done t | None => Done ((p ++ [k], Scalar n) :: t) end) =
    match find t (p ++ [k]) with
      | None => Done ((p ++ [k], Scalar n) :: t)
      | Some Group => if debug then Aborted else Done t
      | Some (Scalar m) => if debug && negb (same_class m n) then Aborted else Done ((p ++ [k], Scalar (written convert m n)) :: t)
      | Some Elements => failure debug
      end).
  { intros u Ru Gu. unfold is_dataset, has_type. replace (reachable u [] (p ++ [k])) with true by (symmetry; apply reachable_rooted, rooted_last; auto).
    destruct (find u (p ++ [k])) as [[]|]; reflexivity. }
  destruct (find t p) as [o|] eqn:F.
  - destruct o.
    + assert (G := F). apply groups_at_spec in G. rewrite G. cbn [bind]. rewrite G. apply Rest; auto.
    + assert (G : groups_at t p = false) by (unfold groups_at; rewrite F; reflexivity). rewrite G.
      assert (N : p <> []) by (intros ->; discriminate F). destruct (last_split p N) as (q & x & ->).
      rewrite add_feature_spec by (first [exact R|congruence]). rewrite F. destruct debug; cbn [bind]; [reflexivity|]. rewrite G. reflexivity.
    + assert (G : groups_at t p = false) by (unfold groups_at; rewrite F; reflexivity). rewrite G.
      assert (N : p <> []) by (intros ->; discriminate F). destruct (last_split p N) as (q & x & ->).
      rewrite add_feature_spec by (first [exact R|congruence]). rewrite F. destruct debug; cbn [bind]; [reflexivity|]. rewrite G. reflexivity.
  - assert (G : groups_at t p = false) by (unfold groups_at; rewrite F; reflexivity). rewrite G.
    assert (N : p <> []) by (intros ->; discriminate F). destruct (last_split p N) as (q & x & ->).
    rewrite add_feature_spec by (first [exact R|congruence]). rewrite F. cbn [bind].
    assert (F' : find ((q ++ [x], Group) :: t) (q ++ [x]) = Some Group) by (apply find_same; auto).
    assert (G' := F'). apply groups_at_spec in G'. rewrite G'. apply Rest; auto.
    intros r Q. rewrite find_other; [apply R; auto|]. intros ->. apply self_not_above in Q as [].
Qed.

Lemma not_above_self_cons (p : path) k : p ++ [k] <> p.
Proof. intros E. apply (f_equal (@length _)) in E. rewrite app_length in E. cbn in E. lia. Qed.
Lemma sound_add t p o : sound t -> p <> [] -> rooted t p -> find t p = None \/ o = Group \/ (exists x, find t p = Some x /\ x <> Group) -> sound ((p, o) :: t).
Proof.
  intros S N R H q x F r Q. destruct (list_eq_dec (list_eq_dec ascii_dec) q p) as [->|Nq].
  - rewrite find_other; [apply R; auto|]. intros ->. apply self_not_above in Q as [].
  - rewrite find_other in F by auto. assert (G := S q x F r Q). destruct (list_eq_dec (list_eq_dec ascii_dec) r p) as [->|Nr].
    + rewrite find_same by auto. destruct H as [H|[->|(y & H & Hy)]]; congruence.
    + rewrite find_other; auto.
Qed.
Lemma read_attribute_spec debug t p k : read_attribute debug t (p ++ [k]) =
  if reachable t [] p then
    if groups_at t p then
      match find t (p ++ [k]) with
      | Some (Scalar n) => Done (Some n)
      | Some Elements => if debug then Aborted else Done None
      | _ => Thrown
      end
    else Thrown
  else failure debug.
Proof.
  unfold read_attribute. rewrite contains_attribute_spec. destruct (reachable t [] p); [|unfold failure; destruct debug; reflexivity].
  cbn [bind]. destruct (groups_at t p); [|reflexivity]. cbn [andb]. destruct (find t (p ++ [k])) as [[]|]; reflexivity.
Qed.
Lemma reachable_false t p : reachable t [] p = false <-> exists q, above q p /\ find t q <> Some Group.
Proof.
  split.
  - intros H. assert (N : reachable t [] p <> true) by congruence. clear H.
    induction p as [|n p IH] using rev_ind; [exfalso; apply N; reflexivity|].
    destruct (reachable t [] p) eqn:R.
    + exists p. split; [apply above_last; auto|]. intros G. apply N. apply reachable_rooted, rooted_last. split; auto. apply reachable_rooted; auto.
    + destruct (IH ltac:(congruence)) as (q & Q & Hq). exists q. split; auto. apply above_last. auto.
  - intros (q & Q & Hq). destruct (reachable t [] p) eqn:R; auto. apply reachable_rooted in R. elim Hq. apply R; auto.
Qed.

(** A number that is written is read back, and nothing else changes, apart from the feature that is
    made if there was none. *)
Theorem C77_write debug convert t p n : sound t -> ready t p n ->
  exists t', write_attribute debug convert t (Some n) p = Done t' /\ sound t' /\
    find t' p = Some (Scalar n) /\ find t' (feature_of p) = Some Group /\
    (forall q, q <> p -> q <> feature_of p -> find t' q = find t q) /\
    read_attribute debug t' p = Done (Some n) /\ read_data debug t' p = Done (Some n).
Proof.
  intros S (N & R & Hf & Hp). destruct (last_split p N) as (f & k & ->). unfold feature_of in *. rewrite removelast_app1 in *.
  cbn [write_attribute]. rewrite write_spec by auto.
  assert (NK : f ++ [k] <> []) by auto.
  assert (Reads : forall t', rooted t' f -> find t' f = Some Group -> find t' (f ++ [k]) = Some (Scalar n) ->
    read_attribute debug t' (f ++ [k]) = Done (Some n) /\ read_data debug t' (f ++ [k]) = Done (Some n)).
  { intros t' R' G' F'. assert (E : read_attribute debug t' (f ++ [k]) = Done (Some n)).
    { rewrite read_attribute_spec. assert (Q := R'). apply reachable_rooted in Q. rewrite Q. assert (Q2 := G'). apply groups_at_spec in Q2. rewrite Q2, F'. reflexivity. }
    split; auto. unfold read_data. rewrite contains_feature_spec.
    replace (reachable t' [] (f ++ [k])) with true by (symmetry; apply reachable_rooted, rooted_last; auto).
    unfold groups_at. rewrite F'. cbn [bind]. exact E. }
  assert (Fin : forall t', sound t' -> rooted t' f -> find t' f = Some Group -> (find t' (f ++ [k]) = None \/ exists m, find t' (f ++ [k]) = Some (Scalar m)) ->
     let t2 := (f ++ [k], Scalar n) :: t' in sound t2 /\ find t2 (f ++ [k]) = Some (Scalar n) /\ find t2 f = Some Group /\ (forall q, q <> f ++ [k] -> q <> f -> find t2 q = find t' q) /\
     read_attribute debug t2 (f ++ [k]) = Done (Some n) /\ read_data debug t2 (f ++ [k]) = Done (Some n)).
  { intros t' S' R' G' H' t2. assert (NF : f <> f ++ [k]) by (intros E; symmetry in E; apply not_above_self_cons in E as []).
    assert (F2 : find t2 f = Some Group) by (unfold t2; rewrite find_other; auto).
    assert (P2 : find t2 (f ++ [k]) = Some (Scalar n)) by (apply find_same; auto).
    split. { apply sound_add; auto. apply rooted_last; auto. destruct H' as [H'|(m & H')]; auto. right. right. exists (Scalar m). split; auto. discriminate. }
    split; auto. split; auto. split. { intros q Q1 Q2. apply find_other. auto. }
    apply Reads; auto. intros q Q. unfold t2. rewrite find_other; [apply R'; auto|]. intros ->. apply (self_not_above (f ++ [k])). apply above_app. auto. }
  destruct Hf as [Hf|Hf]; rewrite Hf.
  - assert (Nf : f <> []) by (intros ->; discriminate Hf).
    assert (Np : find t (f ++ [k]) = None).
    { destruct (find t (f ++ [k])) eqn:F; auto. apply S in F. apply rooted_last in F as [_ F]. congruence. }
    cbv zeta. rewrite find_other, Np by apply not_above_self_cons. eexists. split; [reflexivity|].
    destruct (Fin ((f, Group) :: t)) as (A & B & C & D & E).
    + apply sound_add; auto.
    + intros q Q. rewrite find_other; [apply R; auto|]. intros ->. apply self_not_above in Q as [].
    + apply find_same; auto.
    + left. rewrite find_other; auto. apply not_above_self_cons.
    + split; auto. split; auto. split; auto. split; [|exact E]. intros q Q1 Q2. rewrite D by auto. apply find_other. auto.
  - destruct Hp as [Hp|(m & Hp & Ty)]; rewrite Hp.
    + eexists. split; [reflexivity|]. apply Fin; auto.
    + assert (SC : same_class m n = true) by (destruct m as [|[] ?], n as [|[] ?]; try discriminate Ty; reflexivity).
      assert (W : written convert m n = n) by (unfold written; rewrite Ty, same_type_refl; reflexivity).
      rewrite SC, W. cbn [negb]. rewrite andb_false_r. eexists. split; [reflexivity|]. apply Fin; eauto.
Qed.
Print Assumptions C77_write.

(** What is read, in all cases *)
Theorem C77_read (debug : bool) t p : p <> [] ->
  ((exists q, above q (feature_of p) /\ find t q <> Some Group) -> read_attribute debug t p = failure debug) /\
  (rooted t (feature_of p) ->
    (find t (feature_of p) <> Some Group -> read_attribute debug t p = Thrown) /\
    (find t (feature_of p) = Some Group ->
      (find t p = None \/ find t p = Some Group -> read_attribute debug t p = Thrown) /\
      (forall n, find t p = Some (Scalar n) -> read_attribute debug t p = Done (Some n)) /\
      (find t p = Some Elements -> read_attribute debug t p = if debug then Aborted else Done None))).
Proof.
  intros N. destruct (last_split p N) as (f & k & ->). unfold feature_of. rewrite removelast_app1, read_attribute_spec. split.
  - intros H. apply reachable_false in H. rewrite H. reflexivity.
  - intros R. apply reachable_rooted in R. rewrite R. split.
    + intros G. destruct (groups_at t f) eqn:E; auto. apply groups_at_spec in E. congruence.
    + intros G. apply groups_at_spec in G. rewrite G. split; [|split].
      * intros [->| ->]; reflexivity.
      * intros n ->. reflexivity.
      * intros ->. reflexivity.
Qed.
Print Assumptions C77_read.

(** Reading from a script looks for a feature first: if the feature that the attribute should be in
    is missing, that fails instead of raising an exception. *)
Theorem C77_read_script (debug : bool) t p :
  ((exists q, above q p /\ find t q <> Some Group) -> read_data debug t p = failure debug) /\
  (rooted t p -> read_data debug t p =
     match find t p with
     | Some (Scalar n) => Done (Some n)
     | Some _ => if debug then Aborted else Done None
     | None => Thrown
     end).
Proof.
  unfold read_data. rewrite contains_feature_spec. split.
  - intros H. apply reachable_false in H. rewrite H. unfold failure. destruct debug; reflexivity.
  - intros R. assert (R' := R). apply reachable_rooted in R'. rewrite R'. cbn [bind]. unfold groups_at.
    destruct (find t p) as [[]|] eqn:F; try reflexivity.
    + assert (N : p <> []) by (intros ->; discriminate F). destruct (last_split p N) as (f & k & ->). apply rooted_last in R as [R G].
      rewrite read_attribute_spec. apply reachable_rooted in R. apply groups_at_spec in G. rewrite R, G, F. reflexivity.
    + assert (N : p <> []) by (intros ->; discriminate F). destruct (last_split p N) as (f & k & ->). apply rooted_last in R as [R G].
      rewrite read_attribute_spec. apply reachable_rooted in R. apply groups_at_spec in G. rewrite R, G, F. reflexivity.
    + assert (N : p <> []) by (intros ->; discriminate F). destruct (last_split p N) as (f & k & ->). apply rooted_last in R as [R G].
      rewrite read_attribute_spec. apply reachable_rooted in R. apply groups_at_spec in G. rewrite R, G, F. reflexivity.
Qed.
Print Assumptions C77_read_script.

(** What is not written: where a feature above the last one is missing, or the last one is an
    attribute; where there is a feature; what is not a number.  Of an attribute of another type, the
    type is kept; debug builds abort if one type is for integers and the other is not. *)
Theorem C77_not_written (debug : bool) convert t p n : sound t ->
  ((exists q, above q (feature_of p) /\ find t q <> Some Group) -> write_attribute debug convert t (Some n) p = failure debug) /\
  (rooted t (feature_of p) ->
    (forall o, find t (feature_of p) = Some o -> o <> Group -> write_attribute debug convert t (Some n) p = failure debug) /\
    (find t p = Some Group -> write_attribute debug convert t (Some n) p = if debug then Aborted else Done t) /\
    (find t p = Some Elements -> write_attribute debug convert t (Some n) p = failure debug) /\
    (forall m, find t p = Some (Scalar m) -> vty_of m <> vty_of n -> same_class m n = true \/ debug = false ->
       exists t', write_attribute debug convert t (Some n) p = Done t' /\ find t' p = Some (Scalar (convert (vty_of m) n)) /\
         forall q, q <> p -> find t' q = find t q) /\
    (forall m, find t p = Some (Scalar m) -> same_class m n = false -> debug = true -> write_attribute debug convert t (Some n) p = Aborted)) /\
  write_attribute debug convert t None p = if debug then Aborted else Done t.
Proof.
  intros S. cbn [write_attribute]. split; [|split; [|reflexivity]].
  - intros H. apply reachable_false in H. unfold write_constant. fold (feature_of p). rewrite contains_feature_spec, H. unfold failure. destruct debug; reflexivity.
  - intros R. destruct p as [|x p'].
    + cbn in *. split; [intros o [= <-]; congruence|]. split; [intros _; destruct debug; reflexivity|]. split; [discriminate|]. split; discriminate.
    + set (p := x :: p') in *. assert (N : p <> []) by discriminate. clearbody p. destruct (last_split p N) as (f & k & ->). unfold feature_of in *. rewrite removelast_app1 in *.
      rewrite write_spec by auto.
      assert (Up : forall o, find t (f ++ [k]) = Some o -> find t f = Some Group).
      { intros o F. apply S in F. apply rooted_last in F as [_ F]. auto. }
      split; [|split; [|split; [|split]]].
      * intros o F No. rewrite F. destruct o; congruence.
      * intros F. rewrite (Up _ F), F. reflexivity.
      * intros F. rewrite (Up _ F), F. reflexivity.
      * intros m F Ty H. rewrite (Up _ F), F. replace (debug && negb (same_class m n)) with false by (destruct H as [-> | ->]; [rewrite andb_false_r|]; reflexivity).
        eexists. split; [reflexivity|]. split.
        -- rewrite find_same by auto. unfold written. destruct (same_type (vty_of n) (vty_of m)) eqn:E; auto. apply same_type_eq in E. congruence.
        -- intros q Q. apply find_other. auto.
      * intros m F C D. rewrite (Up _ F), F, C, D. reflexivity.
Qed.
Print Assumptions C77_not_written.

(** *** All sequences of writes to attributes of features, in a new dataset *)
Lemma write_all_app debug convert ws1 ws2 t : write_all debug convert t (ws1 ++ ws2) = bind (write_all debug convert t ws1) (fun t' => write_all debug convert t' ws2).
Proof.
  revert t. induction ws1 as [|[p n] ws1 IH]; intros t; [reflexivity|]. cbn [app write_all].
  destruct (write_attribute debug convert t (Some n) p); cbn [bind]; auto.
Qed.
Lemma last_written_snoc ws p n q m : last_written (ws ++ [(p, n)]) q m <-> (q = p /\ m = n) \/ (q <> p /\ last_written ws q m).
Proof.
  split.
  - intros (b & a & E & A). destruct (list_eq_dec (list_eq_dec ascii_dec) q p) as [->|Nq].
    + left. split; auto. destruct a as [|x a] using rev_ind.
      * apply app_inj_tail in E as [_ E]. congruence.
      * rewrite app_comm_cons, app_assoc in E. apply app_inj_tail in E as [_ <-]. exfalso. apply (A n). apply in_or_app. right. left. reflexivity.
    + right. split; auto. destruct a as [|x a] using rev_ind.
      * apply app_inj_tail in E as [_ E]. congruence.
      * clear IHa. rewrite app_comm_cons, app_assoc in E. apply app_inj_tail in E as [-> <-]. exists b, a. split; auto. intros k Hk. apply (A k). apply in_or_app. auto.
  - intros [[-> ->]|[Nq (b & a & -> & A)]].
    + exists ws, []. split; auto.
    + exists b, (a ++ [(p, n)]). rewrite <- app_assoc. split; auto. intros k Hk. apply in_app_or in Hk as [Hk|[Hk|[]]]; [apply (A k Hk)|congruence].
Qed.
Lemma last_written_in ws p n : last_written ws p n -> In (p, n) ws.
Proof. intros (b & a & -> & _). apply in_or_app. right. left. reflexivity. Qed.

Theorem C77_history debug convert ws :
  (forall p n, In (p, n) ws -> exists feature name, p = [feature; name]) ->
  (forall p n m, In (p, n) ws -> In (p, m) ws -> vty_of n = vty_of m) ->
  exists t, write_all debug convert [] ws = Done t /\ sound t /\
    (forall p n, last_written ws p n -> read_attribute debug t p = Done (Some n) /\ read_data debug t p = Done (Some n)) /\
    (forall feature name, (forall n, ~ In ([feature; name], n) ws) -> read_attribute debug t [feature; name] = Thrown).
Proof.
  intros Sh Ty.
  assert (Inv : exists t, write_all debug convert [] ws = Done t /\ sound t /\
    (forall f, find t [f] = None \/ find t [f] = Some Group) /\
    (forall f a, (exists n, last_written ws [f; a] n /\ find t [f] = Some Group /\ find t [f; a] = Some (Scalar n)) \/ ((forall n, ~ In ([f; a], n) ws) /\ find t [f; a] = None))).
  { induction ws as [|[p n] ws IH] using rev_ind.
    - exists []. split; [reflexivity|]. split. { intros q o F r Q. destruct q; [apply above_nil in Q as []|discriminate F]. }
      split; auto.
    - destruct IH as (t & W & S & G & H).
      { intros. eapply Sh. apply in_or_app. eauto. }
      { intros. eapply Ty; apply in_or_app; eauto. }
      destruct (Sh p n) as (f & a & ->). { apply in_or_app. right. left. reflexivity. }
      rewrite write_all_app, W. cbn [bind write_all].
      destruct (C77_write debug convert t [f; a] n S) as (t' & W' & S' & F' & G' & O' & _).
      { split; [discriminate|]. cbn [feature_of removelast]. split; [|split; [apply G|]].
        - intros q Q. apply above_cons in Q as [->|(q' & _ & Q)]; [reflexivity|apply above_nil in Q as []].
        - destruct (H f a) as [(m & L & _ & F)|[_ F]]; auto. right. exists m. split; auto. apply (Ty [f; a]); apply in_or_app; [left; apply last_written_in; auto|right; left; auto]. }
      rewrite W'. cbn [bind]. exists t'. split; [reflexivity|]. split; auto. cbn [feature_of removelast] in G', O'. split.
      + intros f'. destruct (list_eq_dec ascii_dec f' f) as [->|Nf]; auto. rewrite O' by congruence. apply G.
      + intros f' a'. destruct (list_eq_dec (list_eq_dec ascii_dec) [f'; a'] [f; a]) as [E|NE].
        * inversion E; subst. left. exists n. split; [apply last_written_snoc; auto|]. auto.
        * assert (FE : find t' [f'; a'] = find t [f'; a']) by (apply O'; congruence).
          destruct (H f' a') as [(m & L & Gm & Fm)|[Nm Fm]].
          -- left. exists m. split; [apply last_written_snoc; auto|]. split; [|congruence].
             destruct (list_eq_dec ascii_dec f' f) as [->|Nf]; auto. rewrite O' by congruence. auto.
          -- right. split; [|congruence]. intros k Hk. apply in_app_or in Hk as [Hk|[Hk|[]]]; [apply (Nm k Hk)|]. congruence. }
  destruct Inv as (t & W & S & G & H). exists t. split; auto. split; auto. split.
  - intros p n L. destruct (Sh p n (last_written_in _ _ _ L)) as (f & a & ->).
    destruct (H f a) as [(m & Lm & Gm & Fm)|[Nm _]]; [|elim (Nm n); apply last_written_in; auto].
    assert (m = n). { clear - L Lm. revert L Lm. induction ws as [|[q k] ws IH] using rev_ind; intros L Lm.
      - destruct L as (b & x & E & _). destruct b; discriminate E.
      - apply last_written_snoc in L, Lm. destruct L as [[Q0 ->]|[N L]], Lm as [[Q ->]|[N' Lm]]; auto; congruence. }
    subst m. assert (R : rooted t [f; a]) by (apply (S _ _ Fm)).
    split; [|destruct (C77_read_script debug t [f; a]) as [_ E]; rewrite (E R), Fm; reflexivity].
    destruct (C77_read debug t [f; a] ltac:(discriminate)) as [_ E]. cbn [feature_of removelast] in E.
    destruct E as [_ E]; [intros q Q; apply R; apply (above_last [f] a); auto|]. destruct (E Gm) as (_ & E' & _). apply E'. auto.
  - intros f a N. destruct (H f a) as [(m & Lm & _)|[_ Fm]]; [elim (N m); apply last_written_in; auto|].
    destruct (C77_read debug t [f; a] ltac:(discriminate)) as [_ E]. cbn [feature_of removelast] in E.
    destruct E as [E1 E2]. { intros q Q. apply above_cons in Q as [->|(q' & _ & Q)]; [reflexivity|apply above_nil in Q as []]. }
    destruct (G f) as [Gf|Gf]; [apply E1; congruence|]. destruct (E2 Gf) as (E & _). apply E. auto.
Qed.
Print Assumptions C77_history.

(** ** Examples *)
Definition name_of (s : string) : text := lit s.
Definition five := NInt S32 5.
Definition gravity : path := [name_of "planets"%string; name_of "gravity"%string].
Definition saturate (t : vty) (n : num) : num := match t, n with VInt u, NInt _ z => NInt u (Z.max (imin u) (Z.min z (imax u))) | _, _ => n end.
Example C77_case : sound [] /\ ready [] gravity five /\ exists t, write_attribute true saturate [] (Some five) gravity = Done t /\ read_data true t gravity = Done (Some five).
Proof.
  split. { intros q o F r Q. destruct q; [apply above_nil in Q as []|discriminate F]. }
  split.
  - split; [discriminate|]. split; [|split; left; reflexivity]. intros q Q. apply above_cons in Q as [->|(q' & _ & Q)]; [reflexivity|apply above_nil in Q as []].
  - eexists. split; reflexivity.
Qed.
(** Two numbers, the first of which is replaced *)
Example C77_history_case : exists t, write_all true saturate [] [(gravity, five); ([name_of "a"%string; name_of "b"%string], NInt U8 1); (gravity, NInt S32 6)] = Done t /\
  read_attribute true t gravity = Done (Some (NInt S32 6)).
Proof. eexists. split; reflexivity. Qed.

(** A number cannot be written to a feature in a new feature; nor can one look for it there.  The
    last of several numbers written is not what is read if the first had another type.  A number
    that is written where there is a feature is lost, without an error. *)
Theorem C77_refuted (debug : bool) : exists t n p,
  sound t /\ write_attribute debug saturate t (Some n) p = failure debug /\ read_data debug t (feature_of p) = failure debug /\
  (exists t1 t2 p1 n1 n2, write_attribute debug saturate [] (Some n1) p1 = Done t1 /\ write_attribute debug saturate t1 (Some n2) p1 = Done t2 /\
     exists m, read_attribute debug t2 p1 = Done (Some m) /\ n2 = NInt S64 300 /\ m = NInt U8 255) /\
  (exists t1 p1, write_attribute false saturate t1 (Some n) p1 = Done t1 /\ read_attribute false t1 p1 = Thrown).
Proof.
  exists [], five, [name_of "a"%string; name_of "b"%string; name_of "c"%string]. split. { intros q o F r Q. destruct q; [apply above_nil in Q as []|discriminate F]. }
  split; [destruct debug; reflexivity|]. split; [destruct debug; reflexivity|]. split.
  - exists [(gravity, Scalar (NInt U8 1)); (removelast gravity, Group)].
    exists ((gravity, Scalar (NInt U8 255)) :: [(gravity, Scalar (NInt U8 1)); (removelast gravity, Group)]).
    exists gravity, (NInt U8 1), (NInt S64 300). split; [destruct debug; reflexivity|]. split; [destruct debug; reflexivity|].
    exists (NInt U8 255). split; [destruct debug; reflexivity|]. auto.
  - exists [([name_of "a"%string], Group)], [name_of "a"%string]. split; reflexivity.
Qed.
Print Assumptions C77_refuted.
