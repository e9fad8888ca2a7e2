(** * Proofs about accumulators *)
From Coq Require Import ZArith List Bool Lia Permutation Sorted Znumtheory.
From Verif Require Import IntsModel ArithModel ArithSpec ArithProofs AccumModel AggModel AggSpec
  LangModel AggProofs.
Import ListNotations.
Open Scope Z_scope.

(** ** Addition *)

Lemma modulus_common R T : (modulus R | modulus (common R T)).
Proof.
  destruct R, T; cbn; match goal with |- (?a | ?b) => exists (b / a); reflexivity end.
Qed.

Lemma conv_eqm t z : exists k, conv t z = z + k * modulus t.
Proof.
  unfold conv. exists (- ((z - imin t) / modulus t)).
  pose proof (Z.div_mod (z - imin t) (modulus t)) as D. pose proof (modulus_pos t). lia.
Qed.

Lemma conv_absorb R C z : (modulus R | modulus C) -> conv R (conv C z) = conv R z.
Proof.
  intros [q Hq]. destruct (conv_eqm C z) as [k ->]. rewrite Hq, Z.mul_assoc. apply conv_shift.
Qed.
Lemma conv_add_l R x y : conv R (conv R x + y) = conv R (x + y).
Proof.
  destruct (conv_eqm R x) as [k ->]. replace (x + k * modulus R + y) with (x + y + k * modulus R) by lia.
  apply conv_shift.
Qed.
Lemma conv_add_r R x y : conv R (x + conv R y) = conv R (x + y).
Proof. rewrite !(Z.add_comm x). apply conv_add_l. Qed.
Lemma conv_sub2 R x y : conv R (conv R x - conv R y) = conv R (x - y).
Proof.
  destruct (conv_eqm R x) as [k ->]. destruct (conv_eqm R y) as [j ->].
  replace (x + k * modulus R - (y + j * modulus R)) with (x - y + (k - j) * modulus R) by lia.
  apply conv_shift.
Qed.

Lemma arith_conv w C z r : arith w C z = Some r -> exists k, r = z + k * modulus C.
Proof.
  unfold arith. destruct (conv_eqm C z) as [k Hk].
  destruct (signed C); [destruct (_ && _); [|destruct w]|]; intros [= <-].
  - exists 0; lia.
  - eauto.
  - eauto.
Qed.

Lemma plus_into_conv w R T r v z : plus_into w R T r v = Some z -> z = conv R (r + v).
Proof.
  unfold plus_into. destruct (arith _ _ _) as [s|] eqn:E; cbn; [|discriminate]. intros [= <-].
  destruct (arith_conv _ _ _ _ E) as [k ->].
  destruct (conv_eqm (common R T) r) as [i ->]. destruct (conv_eqm (common R T) v) as [j ->].
  destruct (modulus_common R T) as [q ->].
  replace (r + i * (q * modulus R) + (v + j * (q * modulus R)) + k * (q * modulus R))
    with (r + v + ((i + j + k) * q) * modulus R) by lia.
  apply conv_shift.
Qed.

Lemma plus_into_wrap R T r v : plus_into true R T r v = Some (conv R (r + v)).
Proof.
  destruct (plus_into true R T r v) as [z|] eqn:E.
  - f_equal. eapply plus_into_conv; eauto.
  - unfold plus_into, arith in E. destruct (signed _); [destruct (_ && _)|]; discriminate.
Qed.

(** Neither operand is of a wide signed type. *)
Lemma plus_into_narrow w R T r v : ~ wide_signed R -> ~ wide_signed T ->
  fits_in R r -> fits_in T v -> plus_into w R T r v = Some (conv R (r + v)).
Proof.
  intros H1 H2 F1 F2. destruct (plus_into w R T r v) as [z|] eqn:E.
  - f_equal. eapply plus_into_conv; eauto.
  - exfalso. unfold plus_into, arith in E. destruct (signed (common R T)) eqn:S; [|discriminate].
    assert (common R T = S32 /\ Z.abs r < 2 ^ 16 /\ Z.abs v < 2 ^ 16) as (C & B1 & B2).
    { unfold wide_signed, fits_in in *.
      destruct R; try (exfalso; tauto); destruct T; try (exfalso; tauto); cbn in S; try discriminate;
      cbn in *; (split; [reflexivity|lia]). }
    rewrite C in E. rewrite !conv_id in E by (unfold fits_in; cbn; lia).
    replace ((imin S32 <=? r + v) && (r + v <=? imax S32)) with true in E; [discriminate|].
    symmetry. apply andb_true_intro. cbn. split; apply Z.leb_le; lia.
Qed.

(** The sum fits. *)
Lemma plus_into_fits w R T r v : fits_in R r -> fits_in R v -> fits_in T v -> fits_in R (r + v) ->
  signed R = signed T \/ (0 <= r /\ 0 <= v) ->
  plus_into w R T r v = Some (r + v).
Proof.
  intros F1 F2 F3 F4 S. destruct (plus_into w R T r v) as [z|] eqn:E.
  - f_equal. rewrite (plus_into_conv _ _ _ _ _ _ E). now apply conv_id.
  - exfalso. unfold plus_into in E.
    assert (H : fits_in (common R T) r /\ fits_in (common R T) v /\ fits_in (common R T) (r + v)).
    { destruct S as [S|[P1 P2]].
      - auto using common_l, common_r.
      - split; [|split]; apply common_nonneg_l; auto; lia. }
    destruct H as (G1 & G2 & G3). rewrite !(conv_id (common R T)) in E by auto.
    unfold arith in E.
    replace ((imin (common R T) <=? r + v) && (r + v <=? imax (common R T))) with true in E.
    + destruct (signed (common R T)); cbn in E; discriminate E.
    + symmetry. apply andb_true_intro. unfold fits_in in G3. split; apply Z.leb_le; lia.
Qed.

Lemma plus_into_same w T s v : fits_in T s -> fits_in T v ->
  plus_into w T T s v = add w T T s v.
Proof.
  intros F1 F2. unfold plus_into, add, op_in.
  replace (result_int T T) with T by (destruct T; reflexivity).
  replace (common T T) with (promote T) by (destruct T; reflexivity).
  rewrite !(conv_id T) by auto. rewrite !conv_id by auto using fits_promote. reflexivity.
Qed.

Lemma fits_0 t : fits_in t 0.
Proof. destruct t; unfold fits_in; cbn; lia. Qed.
Lemma fits_1 t : fits_in t 1.
Proof. destruct t; unfold fits_in; cbn; lia. Qed.

(** ** Feeding *)

Lemma total_app xs ys : total (xs ++ ys) = total xs + total ys.
Proof. unfold total. induction xs as [|x xs IH]; cbn [app fold_right]; [reflexivity|]. rewrite IH. lia. Qed.

Section Invariant.
Context {V A : Type}.
Variable acc : accu V A.
(** [rel vs x]: what the accumulator is after the values [vs] *)
Variable P : V -> Prop.
Variable rel : list V -> A -> Prop.
Hypothesis rel_init : rel [] (a_init acc).
Hypothesis rel_from : forall v x, P v -> a_from acc v = Some x -> rel [v] x.
Hypothesis rel_add : forall vs x v y b, P v -> rel vs x -> a_add acc x v = Some (y, b) ->
  rel (vs ++ [v]) y.

Lemma accumulates_rel us x vs y : Forall P vs -> rel us x -> accumulates acc x vs y -> rel (us ++ vs) y.
Proof.
  intros HP Hx H. revert us Hx. induction H as [x|x v y vs z E H IH]; intros us Hx.
  - rewrite app_nil_r; auto.
  - inversion HP; subst. replace (us ++ v :: vs) with ((us ++ [v]) ++ vs).
    + apply IH; auto. eapply rel_add; eauto.
    + rewrite <- app_assoc. reflexivity.
Qed.
Lemma feeds_rel vs x : Forall P vs -> feeds acc vs x -> rel vs x.
Proof.
  intros HP H. destruct H as [us y H|v us y z E H].
  - apply (accumulates_rel [] (a_init acc) us y HP); auto.
  - inversion HP; subst. apply (accumulates_rel [v] z us y); eauto.
Qed.
Lemma feeds_init_rel vs x : Forall P vs -> accumulates acc (a_init acc) vs x -> rel vs x.
Proof. intros. apply feeds_rel; auto. now constructor. Qed.

Hypothesis rel_fun : forall vs x y, rel vs x -> rel vs y -> x = y.
Hypothesis rel_merge : forall xs ys x y z b, rel xs x -> rel ys y -> a_merge acc x y = Some (z, b) ->
  b = true /\ rel (xs ++ ys) z.

Lemma merge_concat : merge_is_concatenation P acc.
Proof.
  intros xs ys x y z b z' Px Py Hx Hy E Hz.
  apply feeds_rel in Hx; auto. apply feeds_rel in Hy; auto.
  apply feeds_rel in Hz; [|apply Forall_app; auto].
  destruct (rel_merge _ _ _ _ _ _ Hx Hy E) as [-> Hz']. split; auto. eauto.
Qed.

Hypothesis add_defined : forall vs x v, P v -> rel vs x -> exists y, a_add acc x v = Some (y, true).
Hypothesis merge_defined : forall xs ys x y, rel xs x -> rel ys y -> exists z, a_merge acc x y = Some (z, true).

Lemma accumulates_defined vs : Forall P vs -> exists x, accumulates acc (a_init acc) vs x.
Proof.
  assert (H : forall us x, Forall P vs -> rel us x -> exists y, accumulates acc x vs y).
  { induction vs as [|v vs IH]; intros us x HP Hx.
    - exists x. constructor.
    - inversion HP; subst. destruct (add_defined us x v) as [y E]; auto.
      destruct (IH (us ++ [v]) y) as [z Hz]; auto. { eapply rel_add; eauto. }
      exists z. econstructor; eauto. }
  intros HP. apply (H [] _ HP rel_init).
Qed.

Lemma defined_always : always_defined P acc.
Proof.
  split; [exact accumulates_defined|].
  intros xs ys x y Px Py Hx Hy. apply (merge_defined xs ys); apply feeds_rel; auto.
Qed.

Lemma all_merges vs : Forall P vs -> mergeable acc vs.
Proof.
  intros HP. split.
  - intros us xs ws ->. rewrite !Forall_app in HP. apply accumulates_defined. tauto.
  - intros xs ys ws x y -> Hx Hy. rewrite !Forall_app in HP. destruct HP as (Px & Py & _).
    assert (Pxy : Forall P (xs ++ ys)) by (apply Forall_app; auto).
    destruct (merge_defined xs ys x y) as [z Ez]; try (apply feeds_init_rel; auto).
    exists z. split; auto.
    destruct (accumulates_defined (xs ++ ys) Pxy) as [z' Hz'].
    replace z with z'; auto. symmetry.
    eapply (merge_concat xs ys x y z true z'); auto; constructor; auto.
Qed.
End Invariant.

(** ** The plain accumulators *)

Section Plain.
Variable w : bool.

Definition sum_rel (R : ity) (vs : list Z) (x : Z) : Prop := x = conv R (total vs).

Lemma conv_0 R : conv R 0 = 0.
Proof. apply conv_id, fits_0. Qed.

Lemma total_snoc vs v : total (vs ++ [v]) = total vs + v.
Proof. rewrite total_app. cbn. lia. Qed.

Lemma sum_init R : sum_rel R [] 0.
Proof. unfold sum_rel. cbn. now rewrite conv_0. Qed.
Lemma sum_one R v : sum_rel R [v] (conv R v).
Proof. unfold sum_rel. cbn. now rewrite Z.add_0_r. Qed.
Lemma sum_snoc A R vs x v y : sum_rel R vs x -> plus_into w R A x v = Some y -> sum_rel R (vs ++ [v]) y.
Proof.
  unfold sum_rel. intros -> E. rewrite (plus_into_conv _ _ _ _ _ _ E), total_snoc. apply conv_add_l.
Qed.
Lemma sum_join R xs ys x y z : sum_rel R xs x -> sum_rel R ys y -> plus_into w R R x y = Some z ->
  sum_rel R (xs ++ ys) z.
Proof.
  unfold sum_rel. intros -> -> E. rewrite (plus_into_conv _ _ _ _ _ _ E), total_app.
  rewrite conv_add_l, conv_add_r. reflexivity.
Qed.

Definition count_rel {X} (R : ity) (vs : list X) (x : Z) : Prop := x = conv R (Z.of_nat (length vs)).

Lemma count_init {X} R : count_rel R (@nil X) 0.
Proof. unfold count_rel. cbn. now rewrite conv_0. Qed.
Lemma count_one {X} R (v : X) : count_rel R [v] 1.
Proof. unfold count_rel. cbn. symmetry. apply conv_id, fits_1. Qed.
Lemma count_snoc {X} T R (vs : list X) x v y : count_rel R vs x -> plus_into w R T x 1 = Some y ->
  count_rel R (vs ++ [v]) y.
Proof.
  unfold count_rel. intros -> E. rewrite (plus_into_conv _ _ _ _ _ _ E), app_length, conv_add_l.
  f_equal. cbn [length]. lia.
Qed.
Lemma count_join {X} T R (xs ys : list X) x y z : count_rel R xs x -> count_rel R ys y ->
  plus_into w R T x y = Some z -> count_rel R (xs ++ ys) z.
Proof.
  unfold count_rel. intros -> -> E. rewrite (plus_into_conv _ _ _ _ _ _ E), app_length.
  rewrite conv_add_l, conv_add_r. f_equal. lia.
Qed.

Lemma fine_inv {X} (o : option X) y b : fine o = Some (y, b) -> o = Some y /\ b = true.
Proof. unfold fine. destruct o; cbn; intros [= <- <-]; auto. Qed.

Lemma count_plain_rel A R : forall vs x, feeds (count_plain w A R) vs x -> count_rel R vs x.
Proof.
  intros vs x. apply (feeds_rel _ (fun _ => True)).
  - apply count_init.
  - cbn. intros v y _ [= <-]. apply count_one.
  - cbn. intros us y v z b _ H E. apply fine_inv in E as [E _]. eapply count_snoc; eauto.
  - apply Forall_forall; auto.
Qed.
Lemma count_plain_merge A R : merge_is_concatenation (fun _ => True) (count_plain w A R).
Proof.
  apply (merge_concat _ _ (count_rel R)).
  - apply count_init.
  - cbn. intros v y _ [= <-]. apply count_one.
  - cbn. intros us y v z b _ H E. apply fine_inv in E as [E _]. eapply count_snoc; eauto.
  - unfold count_rel. congruence.
  - cbn. intros xs ys x y z b Hx Hy E. apply fine_inv in E as [E ->]. split; auto.
    eapply count_join; eauto.
Qed.

Lemma sum_plain_rel A R : forall vs x, feeds (sum_plain w A R) vs x -> sum_rel R vs x.
Proof.
  intros vs x. apply (feeds_rel _ (fun _ => True)).
  - apply sum_init.
  - cbn. intros v y _ [= <-]. apply sum_one.
  - cbn. intros us y v z b _ H E. apply fine_inv in E as [E _]. eapply sum_snoc; eauto.
  - apply Forall_forall; auto.
Qed.
Lemma sum_plain_merge A R : merge_is_concatenation (fun _ => True) (sum_plain w A R).
Proof.
  apply (merge_concat _ _ (sum_rel R)).
  - apply sum_init.
  - cbn. intros v y _ [= <-]. apply sum_one.
  - cbn. intros us y v z b _ H E. apply fine_inv in E as [E _]. eapply sum_snoc; eauto.
  - unfold sum_rel. congruence.
  - cbn. intros xs ys x y z b Hx Hy E. apply fine_inv in E as [E ->]. split; auto.
    eapply sum_join; eauto.
Qed.

Definition mean_rel (R : ity) (vs : list Z) (x : Z * Z) : Prop :=
  sum_rel R vs (fst x) /\ count_rel U64 vs (snd x).
Lemma mean_rel_fun R vs x y : mean_rel R vs x -> mean_rel R vs y -> x = y.
Proof. unfold mean_rel, sum_rel, count_rel. destruct x, y; cbn. intuition congruence. Qed.

Lemma mean_init R : mean_rel R [] (0, 0).
Proof. split; [apply sum_init|apply count_init]. Qed.
Lemma mean_one R v : mean_rel R [v] (conv R v, 1).
Proof. split; [apply sum_one|apply count_one]. Qed.
Lemma mean_plain_snoc A R us x v y b :
  mean_rel R us x -> a_add (mean_plain w A R) x v = Some (y, b) -> mean_rel R (us ++ [v]) y.
Proof.
  intros [H1 H2] E. unfold mean_plain, obind in E. cbn [a_add a_merge] in E. destruct (plus_into w R A _ _) eqn:E1; [|discriminate].
  destruct (plus_into w U64 S32 _ _) eqn:E2; [|discriminate]. inversion E; subst.
  split; cbn; [eapply sum_snoc|eapply count_snoc]; eauto.
Qed.
Lemma mean_plain_join A R xs ys x y z b :
  mean_rel R xs x -> mean_rel R ys y -> a_merge (mean_plain w A R) x y = Some (z, b) ->
  b = true /\ mean_rel R (xs ++ ys) z.
Proof.
  intros [H1 H2] [H3 H4] E. unfold mean_plain, obind in E. cbn [a_add a_merge] in E. destruct (plus_into w R R _ _) eqn:E1; [|discriminate].
  destruct (plus_into w U64 U64 _ _) eqn:E2; [|discriminate]. inversion E; subst.
  split; auto. split; cbn; [eapply sum_join|eapply count_join]; eauto.
Qed.

Lemma mean_plain_rel A R : forall vs x, feeds (mean_plain w A R) vs x -> mean_rel R vs x.
Proof.
  intros vs x. apply (feeds_rel _ (fun _ => True)).
  - apply mean_init.
  - cbn. intros v y _ [= <-]. apply mean_one.
  - intros us y v z b _. apply mean_plain_snoc.
  - apply Forall_forall; auto.
Qed.
Lemma mean_plain_merge A R : merge_is_concatenation (fun _ => True) (mean_plain w A R).
Proof.
  apply (merge_concat _ _ (mean_rel R)).
  - apply mean_init.
  - cbn. intros v y _ [= <-]. apply mean_one.
  - intros us y v z b _. apply mean_plain_snoc.
  - apply mean_rel_fun.
  - apply mean_plain_join.
Qed.

(** *** Minimum and maximum *)

Definition min_rel (A : ity) (vs : list Z) (x : Z) : Prop := x = fold_left Z.min vs (imax A).
Definition max_rel (A : ity) (vs : list Z) (x : Z) : Prop := x = fold_left Z.max vs (imin A).

Lemma fold_min_start vs : forall a b, fold_left Z.min vs (Z.min a b) = Z.min a (fold_left Z.min vs b).
Proof.
  induction vs as [|v vs IH]; intros a b; cbn [fold_left]; [auto|].
  rewrite <- Z.min_assoc. apply IH.
Qed.
Lemma fold_max_start vs : forall a b, fold_left Z.max vs (Z.max a b) = Z.max a (fold_left Z.max vs b).
Proof.
  induction vs as [|v vs IH]; intros a b; cbn [fold_left]; [auto|].
  rewrite <- Z.max_assoc. apply IH.
Qed.
Lemma fold_min_le vs : forall a, fold_left Z.min vs a <= a.
Proof.
  induction vs as [|v vs IH]; intros a; cbn [fold_left]; [lia|]. specialize (IH (Z.min a v)). lia.
Qed.
Lemma fold_max_ge vs : forall a, a <= fold_left Z.max vs a.
Proof.
  induction vs as [|v vs IH]; intros a; cbn [fold_left]; [lia|]. specialize (IH (Z.max a v)). lia.
Qed.
Lemma min_app A xs ys : min_rel A (xs ++ ys)
  (Z.min (fold_left Z.min xs (imax A)) (fold_left Z.min ys (imax A))).
Proof.
  unfold min_rel. rewrite fold_left_app.
  set (x := fold_left Z.min xs (imax A)). assert (x <= imax A) by apply fold_min_le.
  rewrite <- (fold_min_start ys x (imax A)). f_equal. lia.
Qed.
Lemma max_app A xs ys : max_rel A (xs ++ ys)
  (Z.max (fold_left Z.max xs (imin A)) (fold_left Z.max ys (imin A))).
Proof.
  unfold max_rel. rewrite fold_left_app.
  set (x := fold_left Z.max xs (imin A)). assert (imin A <= x) by apply fold_max_ge.
  rewrite <- (fold_max_start ys x (imin A)). f_equal. lia.
Qed.
Lemma min_one A v : fits_in A v -> min_rel A [v] v.
Proof. unfold min_rel, fits_in. cbn. lia. Qed.
Lemma max_one A v : fits_in A v -> max_rel A [v] v.
Proof. unfold max_rel, fits_in. cbn. lia. Qed.
Lemma min_snoc A vs x v : min_rel A vs x -> min_rel A (vs ++ [v]) (Z.min x v).
Proof. unfold min_rel. intros ->. now rewrite fold_left_app. Qed.
Lemma max_snoc A vs x v : max_rel A vs x -> max_rel A (vs ++ [v]) (Z.max x v).
Proof. unfold max_rel. intros ->. now rewrite fold_left_app. Qed.
Lemma min_join A xs ys x y : min_rel A xs x -> min_rel A ys y -> min_rel A (xs ++ ys) (Z.min x y).
Proof. intros -> ->. apply min_app. Qed.
Lemma max_join A xs ys x y : max_rel A xs x -> max_rel A ys y -> max_rel A (xs ++ ys) (Z.max x y).
Proof. intros -> ->. apply max_app. Qed.

Lemma min_rel_meaning A vs x : Forall (fits_in A) vs -> vs <> [] -> min_rel A vs x -> is_min vs x.
Proof.
  intros HF Hn ->. destruct vs as [|v vs]; [congruence|].
  assert (HG : forall l a, let r := fold_left Z.min l a in
             (r = a \/ In r l) /\ r <= a /\ forall y, In y l -> r <= y).
  { induction l as [|b l IH]; intros a; cbn [fold_left].
    - cbn. split; [auto|]. split; [lia|tauto].
    - destruct (IH (Z.min a b)) as (J1 & J2 & J3). split; [|split].
      + destruct J1 as [E|J1]; [|right; right; auto]. rewrite E.
        destruct (Z.min_spec a b) as [[_ E']|[_ E']]; rewrite E'; [left|right; left]; auto.
      + lia.
      + intros y [<-|Hy]; [lia|auto]. }
  inversion HF as [|? ? F _]; subst. unfold fits_in in F. cbn [fold_left].
  replace (Z.min (imax A) v) with v by lia.
  destruct (HG vs v) as (J1 & J2 & J3). split.
  - destruct J1 as [->|J1]; [left|right]; auto.
  - intros y [<-|Hy]; auto.
Qed.
Lemma max_rel_meaning A vs x : Forall (fits_in A) vs -> vs <> [] -> max_rel A vs x -> is_max vs x.
Proof.
  intros HF Hn ->. destruct vs as [|v vs]; [congruence|].
  assert (HG : forall l a, let r := fold_left Z.max l a in
             (r = a \/ In r l) /\ a <= r /\ forall y, In y l -> y <= r).
  { induction l as [|b l IH]; intros a; cbn [fold_left].
    - cbn. split; [auto|]. split; [lia|tauto].
    - destruct (IH (Z.max a b)) as (J1 & J2 & J3). split; [|split].
      + destruct J1 as [E|J1]; [|right; right; auto]. rewrite E.
        destruct (Z.max_spec a b) as [[_ E']|[_ E']]; rewrite E'; [right; left|left]; auto.
      + lia.
      + intros y [<-|Hy]; [lia|auto]. }
  inversion HF as [|? ? F _]; subst. unfold fits_in in F. cbn [fold_left].
  replace (Z.max (imin A) v) with v by lia.
  destruct (HG vs v) as (J1 & J2 & J3). split.
  - destruct J1 as [->|J1]; [left|right]; auto.
  - intros y [<-|Hy]; auto.
Qed.

Lemma min_accu_rel A R vs x : Forall (fits_in A) vs -> feeds (min_accu A R) vs x -> min_rel A vs x.
Proof.
  apply (feeds_rel _ (fits_in A)); cbn.
  - reflexivity.
  - intros v y F [= <-]. now apply min_one.
  - intros us y v z b _ H [= <- <-]. now apply min_snoc.
Qed.
Lemma max_accu_rel A R vs x : Forall (fits_in A) vs -> feeds (max_accu A R) vs x -> max_rel A vs x.
Proof.
  apply (feeds_rel _ (fits_in A)); cbn.
  - reflexivity.
  - intros v y F [= <-]. now apply max_one.
  - intros us y v z b _ H [= <- <-]. now apply max_snoc.
Qed.

Definition range_rel (A : ity) (vs : list Z) (x : Z * Z) : Prop :=
  min_rel A vs (fst x) /\ max_rel A vs (snd x).
Lemma range_rel_fun A vs x y : range_rel A vs x -> range_rel A vs y -> x = y.
Proof. unfold range_rel, min_rel, max_rel. destruct x, y; cbn. intuition congruence. Qed.
Lemma range_accu_rel A R vs x : Forall (fits_in A) vs -> feeds (range_accu w A R) vs x -> range_rel A vs x.
Proof.
  apply (feeds_rel _ (fits_in A)); cbn.
  - split; reflexivity.
  - intros v y F [= <-]. split; [now apply min_one|now apply max_one].
  - intros us y v z b _ [H1 H2] [= <- <-]. split; [now apply min_snoc|now apply max_snoc].
Qed.

Section MinMax.
Variables A R : ity.
Ltac side := cbn; try (reflexivity || (split; reflexivity)).
Lemma min_merge : merge_is_concatenation (fits_in A) (min_accu A R) /\
  always_defined (fits_in A) (min_accu A R) /\
  forall vs, Forall (fits_in A) vs -> mergeable (min_accu A R) vs.
Proof.
  assert (H1 : min_rel A [] (a_init (min_accu A R))) by reflexivity.
  assert (H2 : forall v x, fits_in A v -> a_from (min_accu A R) v = Some x -> min_rel A [v] x).
  { cbn. intros v y F [= <-]. now apply min_one. }
  assert (H3 : forall vs x v y b, fits_in A v -> min_rel A vs x -> a_add (min_accu A R) x v = Some (y, b) ->
     min_rel A (vs ++ [v]) y).
  { cbn. intros us y v z b _ H [= <- <-]. now apply min_snoc. }
  assert (H4 : forall vs x y, min_rel A vs x -> min_rel A vs y -> x = y) by (unfold min_rel; congruence).
  assert (H5 : forall xs ys x y z b, min_rel A xs x -> min_rel A ys y ->
     a_merge (min_accu A R) x y = Some (z, b) -> b = true /\ min_rel A (xs ++ ys) z).
  { cbn. intros xs ys x y z b Hx Hy [= <- <-]. split; auto. now apply min_join. }
  assert (H6 : forall vs x v, fits_in A v -> min_rel A vs x -> exists y, a_add (min_accu A R) x v = Some (y, true))
    by (cbn; eauto).
  assert (H7 : forall xs ys x y, min_rel A xs x -> min_rel A ys y ->
     exists z, a_merge (min_accu A R) x y = Some (z, true)) by (cbn; eauto).
  split; [|split].
  - eapply merge_concat; eauto.
  - eapply defined_always; eauto.
  - intros vs. eapply all_merges; eauto.
Qed.
Lemma max_merge : merge_is_concatenation (fits_in A) (max_accu A R) /\
  always_defined (fits_in A) (max_accu A R) /\
  forall vs, Forall (fits_in A) vs -> mergeable (max_accu A R) vs.
Proof.
  assert (H1 : max_rel A [] (a_init (max_accu A R))) by reflexivity.
  assert (H2 : forall v x, fits_in A v -> a_from (max_accu A R) v = Some x -> max_rel A [v] x).
  { cbn. intros v y F [= <-]. now apply max_one. }
  assert (H3 : forall vs x v y b, fits_in A v -> max_rel A vs x -> a_add (max_accu A R) x v = Some (y, b) ->
     max_rel A (vs ++ [v]) y).
  { cbn. intros us y v z b _ H [= <- <-]. now apply max_snoc. }
  assert (H4 : forall vs x y, max_rel A vs x -> max_rel A vs y -> x = y) by (unfold max_rel; congruence).
  assert (H5 : forall xs ys x y z b, max_rel A xs x -> max_rel A ys y ->
     a_merge (max_accu A R) x y = Some (z, b) -> b = true /\ max_rel A (xs ++ ys) z).
  { cbn. intros xs ys x y z b Hx Hy [= <- <-]. split; auto. now apply max_join. }
  assert (H6 : forall vs x v, fits_in A v -> max_rel A vs x -> exists y, a_add (max_accu A R) x v = Some (y, true))
    by (cbn; eauto).
  assert (H7 : forall xs ys x y, max_rel A xs x -> max_rel A ys y ->
     exists z, a_merge (max_accu A R) x y = Some (z, true)) by (cbn; eauto).
  split; [|split].
  - eapply merge_concat; eauto.
  - eapply defined_always; eauto.
  - intros vs. eapply all_merges; eauto.
Qed.
Lemma range_merge : merge_is_concatenation (fits_in A) (range_accu w A R) /\
  always_defined (fits_in A) (range_accu w A R) /\
  forall vs, Forall (fits_in A) vs -> mergeable (range_accu w A R) vs.
Proof.
  assert (H1 : range_rel A [] (a_init (range_accu w A R))) by (split; reflexivity).
  assert (H2 : forall v x, fits_in A v -> a_from (range_accu w A R) v = Some x -> range_rel A [v] x).
  { cbn. intros v y F [= <-]. split; [now apply min_one|now apply max_one]. }
  assert (H3 : forall vs x v y b, fits_in A v -> range_rel A vs x -> a_add (range_accu w A R) x v = Some (y, b) ->
     range_rel A (vs ++ [v]) y).
  { cbn. intros us y v z b _ [H H'] [= <- <-]. split; [now apply min_snoc|now apply max_snoc]. }
  assert (H5 : forall xs ys x y z b, range_rel A xs x -> range_rel A ys y ->
     a_merge (range_accu w A R) x y = Some (z, b) -> b = true /\ range_rel A (xs ++ ys) z).
  { cbn. intros xs ys x y z b [Hx Hx'] [Hy Hy'] [= <- <-]. split; auto.
    split; [now apply min_join|now apply max_join]. }
  assert (H6 : forall vs x v, fits_in A v -> range_rel A vs x -> exists y, a_add (range_accu w A R) x v = Some (y, true))
    by (cbn; eauto).
  assert (H7 : forall xs ys x y, range_rel A xs x -> range_rel A ys y ->
     exists z, a_merge (range_accu w A R) x y = Some (z, true)) by (cbn; eauto).
  pose proof (range_rel_fun A) as H4.
  split; [|split].
  - eapply merge_concat; eauto.
  - eapply defined_always; eauto.
  - intros vs. eapply all_merges; eauto.
Qed.

Lemma median_rel vs x : feeds (median_accu w A R) vs x -> x = vs.
Proof.
  apply (feeds_rel _ (fun _ => True) (fun vs x => x = vs)); cbn.
  - reflexivity.
  - intros v y _ [= <-]; auto.
  - intros us y v z b _ -> [= <- <-]; auto.
  - apply Forall_forall; auto.
Qed.
Lemma median_merge : merge_is_concatenation (fun _ => True) (median_accu w A R) /\
  always_defined (fun _ => True) (median_accu w A R) /\
  forall vs, mergeable (median_accu w A R) vs.
Proof.
  assert (H2 : forall v x, True -> a_from (median_accu w A R) v = Some x -> x = [v]).
  { cbn. intros v y _ [= <-]; auto. }
  assert (H3 : forall vs x v y b, True -> x = vs -> a_add (median_accu w A R) x v = Some (y, b) ->
     y = vs ++ [v]).
  { cbn. intros us y v z b _ -> [= <- <-]; auto. }
  assert (H5 : forall xs ys x y z b, x = xs -> y = ys ->
     a_merge (median_accu w A R) x y = Some (z, b) -> b = true /\ z = xs ++ ys).
  { cbn. intros xs ys x y z b -> -> [= <- <-]. auto. }
  split; [|split].
  - apply (merge_concat _ _ (fun vs x => x = vs)); auto. intros; congruence.
  - apply (defined_always _ _ (fun vs x => x = vs)); cbn; eauto.
  - intros vs. apply (all_merges _ (fun _ => True) (fun vs x => x = vs)); cbn; eauto.
    + intros; congruence.
    + apply Forall_forall; auto.
Qed.

Definition variance_rel (vs : list Z) (x : (Z * Z) * list Z) : Prop :=
  mean_rel R vs (fst x) /\ snd x = vs.
Lemma variance_accu_rel vs x : feeds (variance_accu w A R) vs x -> variance_rel vs x.
Proof.
  apply (feeds_rel _ (fun _ => True) variance_rel); cbn [variance_accu a_init a_from a_add].
  - split; [apply mean_init|reflexivity].
  - cbn. intros v y _ [= <-]. split; [apply mean_one|reflexivity].
  - intros us y v z b _ [H1 H2] E. destruct (a_add (mean_plain w A R) (fst y) v) as [[q bb]|] eqn:F; cbn in E; [|discriminate].
    inversion E; subst. split; cbn; [|congruence]. eapply mean_plain_snoc; eauto.
  - apply Forall_forall; auto.
Qed.
Lemma variance_merge : merge_is_concatenation (fun _ => True) (variance_accu w A R).
Proof.
  apply (merge_concat _ _ variance_rel); cbn [variance_accu a_init a_from a_add a_merge].
  - split; [apply mean_init|reflexivity].
  - cbn. intros v y _ [= <-]. split; [apply mean_one|reflexivity].
  - intros us y v z b _ [H1 H2] E. destruct (a_add (mean_plain w A R) (fst y) v) as [[q bb]|] eqn:F; cbn in E; [|discriminate].
    inversion E; subst. split; cbn; [|congruence]. eapply mean_plain_snoc; eauto.
  - intros vs [x l] [y k] [H1 H2] [H3 H4]. cbn in *. subst. f_equal. eapply mean_rel_fun; eauto.
  - intros xs ys x y z b [H1 H2] [H3 H4] E.
    destruct (a_merge (mean_plain w A R) (fst x) (fst y)) as [[q bb]|] eqn:F; cbn in E; [|discriminate].
    inversion E; subst. destruct (mean_plain_join _ _ _ _ _ _ _ _ H1 H3 F) as [_ J].
    split; auto. split; cbn; [auto|congruence].
Qed.
End MinMax.
End Plain.

(** ** Definedness *)

(** Adding never leaves the defined behaviour of C++. *)
Definition safe_plus (w : bool) (R A : ity) : Prop := w = true \/ (~ wide_signed R /\ ~ wide_signed A).

Lemma plus_into_safe w R A r v : safe_plus w R A -> fits_in R r -> fits_in A v ->
  plus_into w R A r v = Some (conv R (r + v)).
Proof.
  intros [->|[H1 H2]] F1 F2; [apply plus_into_wrap|]. now apply plus_into_narrow.
Qed.
Lemma plus_into_one w R r : w = true \/ ~ wide_signed R -> fits_in R r ->
  plus_into w R S32 r 1 = Some (conv R (r + 1)).
Proof.
  intros [->|H] F; [apply plus_into_wrap|].
  destruct (plus_into w R S32 r 1) as [z|] eqn:E.
  - f_equal. eapply plus_into_conv; eauto.
  - exfalso. unfold plus_into, arith in E. destruct (signed (common R S32)) eqn:S; [|discriminate].
    assert (common R S32 = S32 /\ Z.abs r < 2 ^ 16) as (C & B).
    { unfold wide_signed, fits_in in *. destruct R; try (exfalso; tauto); cbn in S; try discriminate;
      cbn in *; (split; [reflexivity|lia]). }
    rewrite C in E. rewrite !conv_id in E by (unfold fits_in; cbn; lia).
    replace ((imin S32 <=? r + 1) && (r + 1 <=? imax S32)) with true in E; [discriminate|].
    symmetry. apply andb_true_intro. cbn. split; apply Z.leb_le; lia.
Qed.
Lemma plus_into_u64 w A r v : plus_into w U64 A r v = Some (conv U64 (r + v)).
Proof.
  destruct (plus_into w U64 A r v) as [z|] eqn:E.
  - f_equal. eapply plus_into_conv; eauto.
  - unfold plus_into, arith in E. destruct A; discriminate.
Qed.

Section Defined.
Variables (w : bool) (A R : ity).

Lemma sum_plain_all : safe_plus w R A ->
  always_defined (fits_in A) (sum_plain w A R) /\
  forall vs, Forall (fits_in A) vs -> mergeable (sum_plain w A R) vs.
Proof.
  intros S.
  assert (SR : safe_plus w R R) by (destruct S as [S|[S _]]; [left|right]; auto).
  assert (H1 : forall v x, fits_in A v -> a_from (sum_plain w A R) v = Some x -> sum_rel R [v] x).
  { cbn. intros v y _ [= <-]. apply sum_one. }
  assert (H2 : forall vs x v y b, fits_in A v -> sum_rel R vs x -> a_add (sum_plain w A R) x v = Some (y, b) ->
     sum_rel R (vs ++ [v]) y).
  { cbn. intros us y v z b _ H E. apply fine_inv in E as [E _]. eapply sum_snoc; eauto. }
  assert (H3 : forall xs ys x y z b, sum_rel R xs x -> sum_rel R ys y ->
     a_merge (sum_plain w A R) x y = Some (z, b) -> b = true /\ sum_rel R (xs ++ ys) z).
  { cbn. intros xs ys x y z b Hx Hy E. apply fine_inv in E as [E ->]. split; auto.
    eapply sum_join; eauto. }
  assert (H4 : forall vs x v, fits_in A v -> sum_rel R vs x -> exists y, a_add (sum_plain w A R) x v = Some (y, true)).
  { cbn. intros vs x v F ->. rewrite plus_into_safe; auto using conv_fits. cbn. eauto. }
  assert (H5 : forall xs ys x y, sum_rel R xs x -> sum_rel R ys y ->
     exists z, a_merge (sum_plain w A R) x y = Some (z, true)).
  { cbn. intros xs ys x y -> ->. rewrite plus_into_safe; auto using conv_fits. cbn. eauto. }
  split.
  - eapply defined_always; eauto. apply sum_init.
  - intros vs. eapply all_merges; eauto. { apply sum_init. } unfold sum_rel; congruence.
Qed.

Lemma count_plain_all : w = true \/ ~ wide_signed R ->
  always_defined (fun _ => True) (count_plain w A R) /\
  forall vs, mergeable (count_plain w A R) vs.
Proof.
  intros S.
  assert (SR : safe_plus w R R) by (destruct S as [S|S]; [left|right]; auto).
  assert (H1 : forall (v : Z) x, True -> a_from (count_plain w A R) v = Some x -> count_rel R [v] x).
  { cbn. intros v y _ [= <-]. apply count_one. }
  assert (H2 : forall (vs : list Z) x v y b, True -> count_rel R vs x -> a_add (count_plain w A R) x v = Some (y, b) ->
     count_rel R (vs ++ [v]) y).
  { cbn. intros us y v z b _ H E. apply fine_inv in E as [E _]. eapply count_snoc; eauto. }
  assert (H3 : forall (xs ys : list Z) x y z b, count_rel R xs x -> count_rel R ys y ->
     a_merge (count_plain w A R) x y = Some (z, b) -> b = true /\ count_rel R (xs ++ ys) z).
  { cbn. intros xs ys x y z b Hx Hy E. apply fine_inv in E as [E ->]. split; auto.
    eapply count_join; eauto. }
  assert (H4 : forall (vs : list Z) x v, True -> count_rel R vs x -> exists y, a_add (count_plain w A R) x v = Some (y, true)).
  { cbn. intros vs x v _ ->. rewrite plus_into_one; auto using conv_fits. cbn. eauto. }
  assert (H5 : forall (xs ys : list Z) x y, count_rel R xs x -> count_rel R ys y ->
     exists z, a_merge (count_plain w A R) x y = Some (z, true)).
  { cbn. intros xs ys x y -> ->. rewrite plus_into_safe; auto using conv_fits. cbn. eauto. }
  split.
  - eapply defined_always; eauto. apply count_init.
  - intros vs. eapply (all_merges _ (fun _ => True)); eauto. { apply count_init. }
    { unfold count_rel; congruence. } apply Forall_forall; auto.
Qed.

Lemma mean_plain_all : safe_plus w R A ->
  always_defined (fits_in A) (mean_plain w A R) /\
  forall vs, Forall (fits_in A) vs -> mergeable (mean_plain w A R) vs.
Proof.
  intros S.
  assert (SR : safe_plus w R R) by (destruct S as [S|[S _]]; [left|right]; auto).
  assert (H1 : forall v x, fits_in A v -> a_from (mean_plain w A R) v = Some x -> mean_rel R [v] x).
  { cbn. intros v y _ [= <-]. apply mean_one. }
  assert (H2 : forall vs x v y b, fits_in A v -> mean_rel R vs x -> a_add (mean_plain w A R) x v = Some (y, b) ->
     mean_rel R (vs ++ [v]) y).
  { intros us y v z b _. apply mean_plain_snoc. }
  assert (H4 : forall vs x v, fits_in A v -> mean_rel R vs x -> exists y, a_add (mean_plain w A R) x v = Some (y, true)).
  { unfold mean_plain, obind. cbn [a_add]. intros vs x v F [-> ->].
    rewrite plus_into_safe by auto using conv_fits. rewrite plus_into_u64. eauto. }
  assert (H5 : forall xs ys x y, mean_rel R xs x -> mean_rel R ys y ->
     exists z, a_merge (mean_plain w A R) x y = Some (z, true)).
  { unfold mean_plain, obind. cbn [a_merge]. intros xs ys x y [-> ->] [-> ->].
    rewrite plus_into_safe by auto using conv_fits. rewrite plus_into_u64. eauto. }
  split.
  - eapply defined_always; eauto. apply mean_init.
  - intros vs. eapply all_merges; eauto. { apply mean_init. } { apply mean_rel_fun. }
    apply mean_plain_join.
Qed.

Lemma variance_all : safe_plus w R A -> always_defined (fits_in A) (variance_accu w A R).
Proof.
  intros S.
  assert (SR : safe_plus w R R) by (destruct S as [S|[S _]]; [left|right]; auto).
  apply (defined_always _ _ (variance_rel R)).
  - split; [apply mean_init|reflexivity].
  - cbn. intros v y _ [= <-]. split; [apply mean_one|reflexivity].
  - unfold variance_accu. cbn [a_add].
    intros us y v z b _ [H1 H2] E.
    destruct (a_add (mean_plain w A R) (fst y) v) as [[q bb]|] eqn:F; cbn in E; [|discriminate].
    inversion E; subst. split; cbn; [|congruence]. eapply mean_plain_snoc; eauto.
  - unfold variance_accu, mean_plain, obind. cbn [a_add]. intros vs x v F [[-> ->] _].
    rewrite plus_into_safe by auto using conv_fits. rewrite plus_into_u64. cbn. eauto.
  - unfold variance_accu, mean_plain, obind. cbn [a_merge].
    intros xs ys x y [[-> ->] _] [[-> ->] _].
    rewrite plus_into_safe by auto using conv_fits. rewrite plus_into_u64. cbn. eauto.
Qed.
End Defined.

(** ** Results *)

Lemma range_result w A R vs x r : range_rel A vs x -> a_result (range_accu w A R) x = Some r ->
  r = conv R (snd x - fst x).
Proof.
  intros _. cbn. destruct (arith _ _ _) as [s|] eqn:E; cbn; [|discriminate]. intros [= <-].
  destruct (arith_conv _ _ _ _ E) as [k ->].
  assert (exists q, modulus (promote R) = q * modulus R) as [q ->].
  { destruct R; cbn; match goal with |- exists q, ?a = q * ?b => exists (a / b); reflexivity end. }
  replace (conv R (snd x) - conv R (fst x) + k * (q * modulus R)) with
    (conv R (snd x) - conv R (fst x) + (k * q) * modulus R) by lia.
  rewrite conv_shift. apply conv_sub2.
Qed.

Lemma range_result_exact w A R x : fits_in R (snd x) -> fits_in R (fst x) ->
  fits_in R (snd x - fst x) -> a_result (range_accu w A R) x = Some (snd x - fst x).
Proof.
  intros F1 F2 F3. cbn. rewrite !(conv_id R) by auto.
  pose proof (fits_promote R _ F3) as G. unfold arith.
  replace ((imin (promote R) <=? snd x - fst x) && (snd x - fst x <=? imax (promote R))) with true.
  - rewrite (conv_id (promote R)) by auto.
    destruct (signed (promote R)); cbn; now rewrite conv_id.
  - symmetry. unfold fits_in in G. apply andb_true_intro; split; apply Z.leb_le; lia.
Qed.

Lemma div_pos s t a b : fits_in (common s t) a -> fits_in (common s t) b -> 0 < b ->
  tv_div (s, a) (t, b) = Some (common s t, Z.quot a b).
Proof.
  intros F1 F2 B. unfold tv_div. cbn [fst snd]. rewrite !conv_id by auto.
  replace (b =? 0) with false by lia.
  assert (G : fits_in (common s t) (Z.quot a b)).
  { unfold fits_in in *. pose proof (common_imax s t).
    destruct (Z_le_gt_dec 0 a).
    - pose proof (Z.quot_le_upper_bound a b a B). pose proof (Z.quot_pos a b). nia.
    - pose proof (Z.quot_pos (-a) b). pose proof (Z.quot_le_upper_bound (-a) b (-a) B).
      rewrite Z.quot_opp_l in * by lia. nia. }
  unfold arith.
  replace ((imin (common s t) <=? Z.quot a b) && (Z.quot a b <=? imax (common s t))) with true.
  - rewrite (conv_id _ (Z.quot a b)) by auto. destruct (signed _); reflexivity.
  - symmetry. unfold fits_in in G. apply andb_true_intro; split; apply Z.leb_le; lia.
Qed.

Lemma quot_fits R a b : fits_in R a -> 0 < b -> fits_in R (Z.quot a b).
Proof.
  intros F B. unfold fits_in in *. assert (imin R <= 0 /\ 0 <= imax R) by (destruct R; cbn; lia).
  destruct (Z_le_gt_dec 0 a).
  - pose proof (Z.quot_le_upper_bound a b a B). pose proof (Z.quot_pos a b). nia.
  - pose proof (Z.quot_pos (-a) b). pose proof (Z.quot_le_upper_bound (-a) b (-a) B).
    rewrite Z.quot_opp_l in * by lia. nia.
Qed.

Lemma fits_common_self R x : fits_in R x -> fits_in (common R R) x.
Proof. intros. now apply common_l. Qed.

Lemma mean_result_exact R vs x : mean_rel R vs x -> vs <> [] -> fits_in R (total vs) ->
  fits_in R (Z.of_nat (length vs)) -> Z.of_nat (length vs) < 2 ^ 64 ->
  mean_result R x = Some (Z.quot (total vs) (Z.of_nat (length vs))).
Proof.
  intros [H1 H2] Hn F1 F2 B. unfold sum_rel, count_rel in *. unfold mean_result.
  rewrite conv_id in H1 by auto.
  rewrite conv_id in H2 by (unfold fits_in in *; cbn; lia).
  assert (0 < Z.of_nat (length vs)). { destruct vs; [congruence|]. cbn [length]. lia. }
  rewrite H2. replace (_ =? 0) with false by lia. rewrite (conv_id R) by auto. rewrite H1.
  rewrite div_pos by auto using fits_common_self. cbn. rewrite conv_id; auto using quot_fits.
Qed.

Lemma square_dev_exact w R m v : fits_in R v -> fits_in R m -> fits_in R ((m - v) * (m - v)) ->
  square_dev w R m v = Some ((m - v) * (m - v)).
Proof.
  intros F1 Fm F2. unfold square_dev. rewrite (conv_id R v) by auto. unfold arith.
  pose proof (fits_promote R _ F2) as G.
  destruct (signed (promote R)) eqn:S.
  - assert (H : fits_in (promote R) (m - v)).
    { unfold fits_in in *. assert (imin (promote R) = - imax (promote R) - 1) by now apply imin_signed.
      nia. }
    replace (_ && _) with true.
    + cbn. replace (_ && _) with true; auto.
      symmetry. unfold fits_in in G. apply andb_true_intro; split; apply Z.leb_le; lia.
    + symmetry. unfold fits_in in H. apply andb_true_intro; split; apply Z.leb_le; lia.
  - cbn. f_equal. destruct (conv_eqm (promote R) (m - v)) as [k ->].
    set (M := modulus (promote R)).
    replace ((m - v + k * M) * (m - v + k * M)) with
      ((m - v) * (m - v) + (2 * k * (m - v) + k * k * M) * M) by ring.
    unfold M. rewrite conv_shift. now apply conv_id.
Qed.

Definition deviations (m : Z) (l : list Z) : list Z := map (fun v => (m - v) * (m - v)) l.

Lemma total_dev_nonneg m l : 0 <= total (deviations m l).
Proof.
  induction l as [|v l IH]; [cbn; lia|].
  change (0 <= (m - v) * (m - v) + total (deviations m l)). pose proof (Z.square_nonneg (m - v)). lia.
Qed.

Lemma sum_dev_exact w R m l : forall r, Forall (fits_in R) l -> fits_in R m -> 0 <= r ->
  fits_in R (r + total (deviations m l)) ->
  sum_dev w R m r l = Some (r + total (deviations m l)).
Proof.
  induction l as [|v l IH]; intros r HF Fm Hr F.
  - cbn. f_equal. lia.
  - inversion HF; subst. cbn [deviations map total fold_right] in F.
    fold (deviations m l) in F. fold (total (deviations m l)) in F.
    pose proof (total_dev_nonneg m l).
    pose proof (Z.square_nonneg (m - v)). set (d := (m - v) * (m - v)) in *.
    assert (imin R <= 0) by (destruct R; cbn; lia).
    assert (fits_in R d) by (unfold fits_in in *; lia).
    assert (fits_in R r) by (unfold fits_in in *; lia).
    assert (fits_in R (r + d)) by (unfold fits_in in *; lia).
    cbn [sum_dev]. rewrite square_dev_exact by auto. cbn [obind]. fold d.
    rewrite plus_into_fits; auto using fits_promote.
    cbn [obind]. rewrite IH; auto; try lia.
    + f_equal. cbn [deviations map total fold_right]. fold d.
      fold (deviations m l). fold (total (deviations m l)). lia.
    + replace (r + d + total (deviations m l)) with (r + (d + total (deviations m l))) by lia. auto.
Qed.

Lemma variance_result_exact w R vs x : variance_rel R vs x -> vs <> [] ->
  Forall (fits_in R) vs -> fits_in R (total vs) ->
  fits_in R (Z.of_nat (length vs)) -> Z.of_nat (length vs) < 2 ^ 64 ->
  let n := Z.of_nat (length vs) in
  let mean := Z.quot (total vs) n in
  fits_in R (total (deviations mean vs)) ->
  variance_result w R x = Some (Z.quot (total (deviations mean vs)) n).
Proof.
  intros [H1 H2] Hn HF F1 F2 B n mean F3. unfold variance_result. rewrite H2.
  assert (0 < n). { unfold n. destruct vs; [congruence|]. cbn [length]. lia. }
  replace (match vs with [] => None | _ => _ end) with
    (obind (mean_result R (fst x)) (fun mean =>
      obind (sum_dev w R mean 0 vs) (fun r =>
      option_map (fun q : tv => conv R (snd q)) (tv_div (R, r) (R, conv R n)))))
    by (destruct vs; [congruence|reflexivity]).
  rewrite (mean_result_exact R vs) by auto. cbn [obind]. fold n. fold mean.
  rewrite sum_dev_exact; auto; try lia.
  - cbn [obind]. rewrite (conv_id R n) by auto. rewrite Z.add_0_l.
    rewrite div_pos by auto using fits_common_self. cbn. rewrite conv_id; auto using quot_fits.
  - apply quot_fits; auto.
Qed.

(** Sorting *)
Lemma insert_perm x l : Permutation (x :: l) (insert x l).
Proof.
  induction l as [|y l IH]; cbn; auto. destruct (x <=? y); auto.
  apply Permutation_trans with (y :: x :: l); [constructor|]. now constructor.
Qed.
Lemma insert_sorted x l : StronglySorted Z.le l -> StronglySorted Z.le (insert x l).
Proof.
  induction 1 as [|y l H IH HF]; cbn; [repeat constructor|].
  destruct (Z.leb_spec x y).
  - constructor; [now constructor|]. constructor; auto.
    eapply Forall_impl; [|exact HF]. cbn; intros; lia.
  - constructor; auto. eapply Permutation_Forall; [apply insert_perm|]. constructor; [lia|auto].
Qed.
Lemma sort_spec l : is_sorted l (sort l).
Proof.
  induction l as [|x l [H1 H2]]; cbn; [split; constructor|]. split.
  - eapply Permutation_trans; [|apply insert_perm]. now constructor.
  - now apply insert_sorted.
Qed.
Lemma is_sorted_unique l s t : is_sorted l s -> is_sorted l t -> s = t.
Proof.
  intros [P1 S1] [P2 S2].
  assert (P : Permutation s t).
  { eapply Permutation_trans; [apply Permutation_sym; exact P1|exact P2]. }
  clear l P1 P2. revert t P S2. induction S1 as [|x s S1 IH F1]; intros t P S2.
  - apply Permutation_nil in P. auto.
  - destruct t as [|y t].
    { apply Permutation_sym, Permutation_nil in P. discriminate. }
    inversion S2 as [|? ? S2' F2]; subst.
    assert (x = y).
    { assert (In x (y :: t)) by (eapply Permutation_in; [exact P|left; auto]).
      assert (In y (x :: s)) by (eapply Permutation_in; [apply Permutation_sym; exact P|left; auto]).
      rewrite Forall_forall in F1, F2. destruct H as [->|H]; auto. destruct H0 as [->|H0]; auto.
      specialize (F1 _ H0). specialize (F2 _ H). lia. }
    subst. f_equal. apply IH; auto. eapply Permutation_cons_inv; eauto.
Qed.

(** ** Frequency tables *)

Definition freq (t : table) (v : Z) : Z :=
  fold_right (fun p s => (if fst p =? v then snd p else 0) + s) 0 t.

Definition table_ok (t : table) : Prop :=
  NoDup (map fst t) /\ Forall (fun p => 0 < snd p) t.

Definition mode_rel (vs : list Z) (t : table) : Prop :=
  table_ok t /\ forall v, freq t v = Z.of_nat (multiplicity vs v).

Lemma freq_plus_freq t v n u : freq (freq_plus t v n) u = freq t u + (if v =? u then n else 0).
Proof.
  induction t as [|[x k] t IH]; cbn [freq_plus].
  - cbn. lia.
  - destruct (Z.eqb_spec x v) as [->|Hne]; cbn [freq fold_right fst snd].
    + fold (freq t u). destruct (v =? u); lia.
    + fold (freq (freq_plus t v n) u) (freq t u). rewrite IH. lia.
Qed.
Lemma freq_plus_keys t v n u : In u (map fst (freq_plus t v n)) <-> u = v \/ In u (map fst t).
Proof.
  induction t as [|[x k] t IH]; cbn [freq_plus].
  - cbn. intuition.
  - destruct (Z.eqb_spec x v) as [->|Hne]; cbn [map fst In]; [intuition|]. rewrite IH. intuition.
Qed.
Lemma freq_plus_ok t v n : 0 < n -> table_ok t -> table_ok (freq_plus t v n).
Proof.
  intros Hn [H1 H2]. induction t as [|[x k] t IH]; cbn [freq_plus].
  - split; repeat constructor; auto.
  - inversion H1; subst. inversion H2; subst. cbn [fst snd map] in *.
    destruct (Z.eqb_spec x v) as [->|Hne].
    + split; cbn [map fst snd]; [constructor; auto|constructor; auto; cbn; lia].
    + destruct IH as [IH1 IH2]; auto. split; cbn [map fst snd].
      * constructor; auto. rewrite freq_plus_keys. intuition.
      * constructor; auto.
Qed.

Lemma multiplicity_app xs ys v : multiplicity (xs ++ ys) v = (multiplicity xs v + multiplicity ys v)%nat.
Proof. apply count_occ_app. Qed.

Lemma mode_snoc vs t v : mode_rel vs t -> mode_rel (vs ++ [v]) (freq_plus t v 1).
Proof.
  intros [H1 H2]. split; [apply freq_plus_ok; [lia|auto]|].
  intros u. rewrite freq_plus_freq, H2, multiplicity_app. unfold multiplicity at 3. cbn [count_occ].
  destruct (Z.eq_dec v u), (Z.eqb_spec v u); try congruence; lia.
Qed.
Lemma mode_one v : mode_rel [v] [(v, 1)].
Proof.
  split; [split; repeat constructor; auto|]. intros u. cbn.
  destruct (Z.eq_dec v u), (Z.eqb_spec v u); try congruence; reflexivity.
Qed.

Lemma freq_notin t v : ~ In v (map fst t) -> freq t v = 0.
Proof.
  induction t as [|[x k] t IH]; cbn; auto. intros H. fold (freq t v).
  destruct (Z.eqb_spec x v); [exfalso; auto|]. rewrite IH; auto.
Qed.
Lemma freq_in t v k : NoDup (map fst t) -> In (v, k) t -> freq t v = k.
Proof.
  induction t as [|[x j] t IH]; cbn [map fst]; [easy|]. intros H. inversion H; subst.
  intros [E|E]; cbn [freq fold_right fst snd]; fold (freq t v).
  - inversion E; subst. rewrite Z.eqb_refl, freq_notin by auto. lia.
  - destruct (Z.eqb_spec x v) as [->|]; [|rewrite IH by auto; lia].
    exfalso. apply H2. apply in_map_iff. exists (v, k); auto.
Qed.

Lemma freq_merge_rel ys : forall t u, table_ok t -> table_ok u ->
  (forall v, freq u v = Z.of_nat (multiplicity ys v)) ->
  forall xs, (forall v, freq t v = Z.of_nat (multiplicity xs v)) -> mode_rel (xs ++ ys) (freq_merge t u).
Proof.
  intros t u Ht Hu Hy xs Hx.
  assert (HG : forall u t, table_ok t -> Forall (fun p => 0 < snd p) u ->
     table_ok (freq_merge t u) /\ forall v, freq (freq_merge t u) v = freq t v + freq u v).
  { clear. induction u as [|[x k] u IH]; intros t Ht Hu.
    - split; auto. intros v. change (freq t v = freq t v + 0). lia.
    - inversion Hu; subst. cbn [freq_merge fold_left fst snd].
      destruct (IH (freq_plus t x k)) as [J1 J2]; auto using freq_plus_ok.
      split; auto. intros v. unfold freq_merge in J2. rewrite J2, freq_plus_freq.
      cbn [freq fold_right fst snd]. fold (freq u v). lia. }
  destruct (HG u t Ht) as [J1 J2]; [apply Hu|]. split; auto.
  intros v. rewrite J2, Hx, Hy, multiplicity_app. lia.
Qed.
Lemma mode_join xs ys t u : mode_rel xs t -> mode_rel ys u -> mode_rel (xs ++ ys) (freq_merge t u).
Proof. intros [H1 H2] [H3 H4]. now apply freq_merge_rel. Qed.

Lemma max_element_spec l : forall b, let r := max_element b l in
  (r = b \/ In r l) /\ snd b <= snd r /\ forall p, In p l -> snd p <= snd r.
Proof.
  induction l as [|p l IH]; intros b; cbn [max_element].
  - cbn. split; auto. split; [lia|easy].
  - destruct (IH (if snd b <? snd p then p else b)) as (J1 & J2 & J3). cbv zeta.
    set (r := max_element _ _) in *.
    destruct (Z.ltb_spec (snd b) (snd p)).
    + split; [|split].
      * destruct J1 as [->|J1]; right; [left|right]; auto.
      * lia.
      * intros q [<-|Hq]; auto.
    + split; [|split].
      * destruct J1 as [->|J1]; [left|right; right]; auto.
      * lia.
      * intros q [<-|Hq]; auto. lia.
Qed.

Lemma freq_mode_spec vs t l : mode_rel vs t -> Permutation l t -> vs <> [] ->
  exists r, freq_mode l = Some r /\ is_mode vs r.
Proof.
  intros [[N P] H] HP Hn.
  destruct l as [|p l].
  { apply Permutation_nil in HP. subst. exfalso. destruct vs as [|v vs]; [congruence|].
    specialize (H v). cbn [freq fold_right] in H. unfold multiplicity in H. cbn [count_occ] in H.
    destruct (Z.eq_dec v v); [lia|congruence]. }
  exists (fst (max_element p l)). split; [reflexivity|].
  destruct (max_element_spec l p) as (J1 & J2 & J3). cbv zeta in *. set (r := max_element p l) in *.
  assert (Hr : In r (p :: l)) by (destruct J1 as [->|J1]; [left|right]; auto).
  assert (Hmax : forall q, In q (p :: l) -> snd q <= snd r) by (intros q [<-|Hq]; auto).
  assert (Ht : In r t) by (eapply Permutation_in; eauto).
  assert (Fr : freq t (fst r) = snd r). { apply freq_in; auto. destruct r; auto. }
  split.
  - unfold multiplicity in H. apply (count_occ_In Z.eq_dec).
    specialize (H (fst r)). rewrite Fr in H. rewrite Forall_forall in P. specialize (P r Ht). lia.
  - intros v. apply Nat2Z.inj_le. rewrite <- !H, Fr.
    destruct (in_dec Z.eq_dec v (map fst t)) as [I|I].
    + apply in_map_iff in I as ([v' k] & <- & I). cbn [fst]. rewrite (freq_in t v' k) by auto.
      apply (Hmax (v', k)). eapply Permutation_in; [apply Permutation_sym; eauto|auto].
    + rewrite freq_notin by auto. rewrite Forall_forall in P. specialize (P r Ht). lia.
Qed.

(** Mode accumulators: default constructed they contain the value 0. *)
Lemma mode_accumulates order A R us t vs x : mode_rel us t ->
  accumulates (mode_accu order A R) t vs x -> mode_rel (us ++ vs) x.
Proof.
  intros H E. revert us H. induction E as [t|t v y vs x E F IH]; intros us H.
  - now rewrite app_nil_r.
  - cbn in E. inversion E; subst. replace (us ++ v :: vs) with ((us ++ [v]) ++ vs).
    + apply IH. now apply mode_snoc.
    + rewrite <- app_assoc. reflexivity.
Qed.
