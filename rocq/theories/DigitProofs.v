(** * Numbers as text: digits *)

From Coq Require Import String Ascii List Bool ZArith Znumtheory Zpow_facts Lia DecimalString DecimalPos DecimalZ SpecFloat.
From Verif Require Import StringModel FloatModel IeeeSpec FloatSpec IeeeProofs FloatProofs DecimalModel DecimalSpec.
Import ListNotations.
Open Scope Z_scope.

(** ** Digits *)

Definition code (c : ascii) : Z := Z.of_nat (nat_of_ascii c).
Definition dig (c : ascii) : Prop := 48 <= code c <= 57.
Fixpoint fold (k : Z) (t : text) : Z := match t with [] => k | c :: t' => fold (10 * k + (code c - 48)) t' end.
Definition size (t : text) : Z := Z.of_nat (length t).
Definition stops (t : text) : Prop := match t with [] => True | c :: _ => ~ dig c end.

Lemma size_app a b : size (a ++ b) = size a + size b.
Proof. unfold size. rewrite app_length. lia. Qed.
Lemma size_nonneg a : 0 <= size a. Proof. unfold size. lia. Qed.

Lemma digits_app t : Forall dig t -> forall k c rest, stops rest ->
  digits k c (t ++ rest) = (fold k t, c + size t, rest).
Proof.
  induction 1 as [|d t D _ IH]; intros k c rest R.
  - cbn [app fold]. replace (c + size []) with c by (unfold size; cbn; lia). destruct rest as [|e r]; [reflexivity|].
    cbn [digits]. cbn in R. unfold dig, code in R.
    destruct ((0 <=? Z.of_nat (nat_of_ascii e) - 48) && (Z.of_nat (nat_of_ascii e) - 48 <=? 9)) eqn:E; [|reflexivity].
    apply andb_true_iff in E. rewrite !Z.leb_le in E. exfalso. apply R. lia.
  - cbn [app digits]. unfold dig, code in D.
    rewrite !(proj2 (Z.leb_le _ _)) by lia. cbn [andb]. rewrite IH by exact R. cbn [fold]. unfold code.
    f_equal. f_equal. unfold size. cbn [length]. lia.
Qed.

Lemma fold_app a : forall k b, fold k (a ++ b) = fold (fold k a) b.
Proof. induction a; intros; cbn [app fold]; auto. Qed.
Lemma fold_zeros n : forall k, fold k (repeat "0"%char n) = k * 10 ^ Z.of_nat n.
Proof.
  induction n; intros k; cbn [repeat fold]; [lia|]. change (code "0") with 48. rewrite IHn.
  rewrite Nat2Z.inj_succ, Z.pow_succ_r by lia. ring.
Qed.
Lemma fold_bounds t : Forall dig t -> forall k, 0 <= k -> k * 10 ^ size t <= fold k t < (k + 1) * 10 ^ size t.
Proof.
  induction 1 as [|c t C _ IH]; intros k K; cbn [fold]; [unfold size; cbn; lia|]. unfold dig in C.
  replace (size (c :: t)) with (Z.succ (size t)) by (unfold size; cbn [length]; lia).
  rewrite Z.pow_succ_r by apply size_nonneg. specialize (IH (10 * k + (code c - 48)) ltac:(lia)).
  assert (0 < 10 ^ size t) by (apply Z.pow_pos_nonneg; [lia|apply size_nonneg]). nia.
Qed.

Lemma uint_digits d : Forall dig (lit (NilEmpty.string_of_uint d)).
Proof. induction d; [constructor|..]; (constructor; [unfold dig, code; cbn; lia|assumption]). Qed.

Lemma fold_uint d : forall acc, fold (Zpos acc) (lit (NilEmpty.string_of_uint d)) = Zpos (Pos.of_uint_acc d acc).
Proof.
  induction d; intros acc; [reflexivity|..];
    cbn [NilEmpty.string_of_uint lit list_ascii_of_string fold Pos.of_uint_acc];
    match goal with |- fold (10 * _ + (code ?c - 48)) _ = Zpos (Pos.of_uint_acc _ ?q) =>
      replace (10 * Zpos acc + (code c - 48)) with (Zpos q) by (unfold code; cbn [nat_of_ascii]; cbn -[Pos.add Pos.mul Z.mul]; lia) end; apply IHd.
Qed.

Lemma to_uint_head p l : Pos.to_uint p <> Decimal.D0 l.
Proof.
  intros E. pose proof (DecimalPos.Unsigned.to_of (Pos.to_uint p)) as H. rewrite DecimalPos.Unsigned.of_to in H.
  change (N.to_uint (Npos p)) with (Pos.to_uint p) in H. rewrite E in H. unfold Decimal.unorm in H.
  destruct (Decimal.nzhead (Decimal.D0 l)) eqn:N; try discriminate H.
  - injection H as H. subst l. pose proof (DecimalPos.Unsigned.of_to p) as O. rewrite E in O. discriminate O.
  - eapply DecimalFacts.nzhead_nonzero, N.
Qed.

Lemma show_pos p : Forall dig (show_int (Zpos p)) /\ fold 0 (show_int (Zpos p)) = Zpos p /\
  exists c r, show_int (Zpos p) = c :: r /\ 49 <= code c.
Proof.
  assert (S : show_int (Zpos p) = lit (NilEmpty.string_of_uint (Pos.to_uint p))).
  { unfold show_int. cbn [Z.to_int NilZero.string_of_int]. pose proof (DecimalPos.Unsigned.to_uint_nonnil p) as N.
    destruct (Pos.to_uint p); try reflexivity. congruence. }
  rewrite S. split; [apply uint_digits|].
  pose proof (DecimalPos.Unsigned.of_to p) as O. pose proof (to_uint_head p) as H.
  destruct (Pos.to_uint p) as [|l|l|l|l|l|l|l|l|l|l]; try discriminate O; [exfalso; apply (H l); reflexivity|..];
    (split; [|eexists; eexists; split; [reflexivity|unfold code; cbn; lia]]);
    cbn [NilEmpty.string_of_uint lit list_ascii_of_string fold]; cbn [Pos.of_uint] in O; injection O as <-;
    match goal with |- fold (10 * 0 + (code ?c - 48)) _ = Zpos (Pos.of_uint_acc _ ?q) =>
      change (10 * 0 + (code c - 48)) with (Zpos q) end; apply fold_uint.
Qed.

Lemma show_size D n : 0 <= n -> 10 ^ n <= D < 10 ^ (n + 1) ->
  Forall dig (show_int D) /\ fold 0 (show_int D) = D /\ size (show_int D) = n + 1.
Proof.
  intros N B. assert (0 < 10 ^ n) by (apply Z.pow_pos_nonneg; lia). destruct D as [|p|p]; try lia.
  destruct (show_pos p) as (A & F & c & r & E & C). split; [exact A|]. split; [exact F|].
  rewrite E in *. apply Forall_cons_iff in A. destruct A as [A1 A2]. cbn [fold] in F.
  pose proof (fold_bounds r A2 (10 * 0 + (code c - 48)) ltac:(lia)) as G. rewrite F in G.
  replace (size (c :: r)) with (size r + 1) by (unfold size; cbn [length]; lia).
  pose proof (size_nonneg r). unfold dig in A1.
  assert (L : 10 ^ size r < 10 ^ (n + 1)) by nia. apply Z.pow_lt_mono_r_iff in L; try lia.
  assert (10 ^ n < 10 ^ (size r + 1)). { rewrite Z.pow_add_r by lia. nia. }
  assert (n < size r + 1) by (apply (Z.pow_lt_mono_r_iff 10); lia). lia.
Qed.

(** ** Fractions *)

Lemma drop_zeros_rev t : exists j, t = rev (drop_zeros (rev t)) ++ repeat "0"%char j.
Proof.
  assert (G : forall r, exists j, r = repeat "0"%char j ++ drop_zeros r).
  { induction r as [|c r [j IH]]; [exists 0%nat; reflexivity|].
    destruct (Ascii.eqb_spec c "0"%char) as [-> | N].
    - exists (S j). cbn [repeat app drop_zeros]. f_equal. exact IH.
    - exists 0%nat. destruct c as [[] [] [] [] [] [] [] []]; try reflexivity. congruence. }
  destruct (G (rev t)) as [j E]. exists j. apply (f_equal (@rev ascii)) in E. rewrite rev_involutive, rev_app_distr in E.
  rewrite E at 1. f_equal. clear. induction j; [reflexivity|]. cbn [repeat rev]. rewrite IHj. symmetry. apply repeat_cons.
Qed.

Lemma fraction_split f : exists g j, f = g ++ repeat "0"%char j /\ fraction f = match g with [] => [] | _ => "."%char :: g end.
Proof.
  destruct (drop_zeros_rev f) as [j E]. exists (rev (drop_zeros (rev f))), j. split; [exact E|]. unfold fraction.
  destruct (drop_zeros (rev f)) as [|c r]; [reflexivity|]. destruct (rev (c :: r)) eqn:R; [|reflexivity].
  apply (f_equal (@length ascii)) in R. rewrite rev_length in R. discriminate R.
Qed.

Definition ends (t : text) : Prop := match t with [] => True | c :: _ => c = "e"%char end.
Lemma ends_stops t : ends t -> stops t.
Proof. destruct t; cbn; [auto|]. intros -> D. unfold dig, code in D. cbn in D. lia. Qed.

Lemma read_decimal_fraction s w f tail : Forall dig w -> Forall dig f -> w <> [] -> ends tail ->
  exists d j, 0 <= j /\ fold 0 (w ++ f) = d * 10 ^ j /\
  read_decimal s (w ++ fraction f ++ tail) =
  match read_exponent tail with Some x => Some (double_of_decimal s d (x - size f + j)) | None => None end.
Proof.
  intros W F N T. destruct (fraction_split f) as (g & j & E & R).
  assert (G : Forall dig g) by (rewrite E in F; apply Forall_app in F; tauto).
  assert (L : size f = size g + Z.of_nat j) by (rewrite E, size_app; unfold size at 2; rewrite repeat_length; lia).
  assert (P : 0 < size w) by (destruct w; [congruence|]; unfold size; cbn [length]; lia).
  exists (fold 0 (w ++ g)), (Z.of_nat j). split; [lia|]. split; [rewrite E, app_assoc, fold_app; apply fold_zeros|].
  unfold read_decimal. rewrite R. destruct g as [|c g].
  - cbn [app]. rewrite digits_app by auto using ends_stops.
    assert (Q : match tail with "."%char :: t2 => digits (fold 0 w) (0 + size w) t2 | _ => (fold 0 w, 0 + size w, tail) end = (fold 0 w, 0 + size w, tail)).
    { destruct tail as [|c tail]; [reflexivity|]. cbn in T. subst c. reflexivity. }
    rewrite Q. rewrite (proj2 (Z.eqb_neq _ _)) by lia. rewrite app_nil_r.
    destruct (read_exponent tail); [|reflexivity]. f_equal. f_equal. unfold size in *. cbn [length] in L. lia.
  - cbn [app]. rewrite digits_app by (try exact W; cbn; intros D; unfold dig, code in D; cbn in D; lia).
    change (c :: g ++ tail) with ((c :: g) ++ tail). rewrite (digits_app (c :: g)) by auto using ends_stops.
    pose proof (size_nonneg (c :: g)). rewrite (proj2 (Z.eqb_neq _ _)) by lia. rewrite fold_app.
    destruct (read_exponent tail); [|reflexivity]. f_equal. f_equal. lia.
Qed.

Lemma read_exponent_digits (s : bool) t : Forall dig t -> t <> [] ->
  read_exponent ("e"%char :: (if s then "-"%char else "+"%char) :: t) = Some (if s then - fold 0 t else fold 0 t).
Proof.
  intros D N. unfold read_exponent. cbn [Ascii.eqb Bool.eqb orb].
  assert (P : 0 < size t) by (destruct t; [congruence|]; unfold size; cbn [length]; lia).
  pose proof (digits_app t D 0 0 [] I) as H. rewrite app_nil_r in H.
  destruct s; rewrite H, (proj2 (Z.eqb_neq _ _)) by lia; reflexivity.
Qed.

Lemma two_digits_ok z : 0 <= z -> Forall dig (two_digits z) /\ fold 0 (two_digits z) = z /\ two_digits z <> [].
Proof.
  intros Z0. assert (D0 : dig "0"%char) by (unfold dig, code; cbn; lia).
  assert (S : Forall dig (show_int z) /\ fold 0 (show_int z) = z /\ show_int z <> []).
  { destruct z as [|p|p]; [|destruct (show_pos p) as (A & B & c & r & E & _)|lia].
    - split; [constructor; [exact D0|constructor]|]. split; [reflexivity|discriminate].
    - repeat split; auto. rewrite E. discriminate. }
  unfold two_digits. destruct (z <? 10); [|exact S]. destruct S as (A & B & C).
  change (zeros 1) with ["0"%char]. split; [constructor; auto|]. split; [exact B|discriminate].
Qed.

Lemma show_six_read s D X : 10 ^ 5 <= D < 10 ^ 6 ->
  exists d j, 0 <= j /\ D = d * 10 ^ j /\ read_decimal s (show_six D X) = Some (double_of_decimal s d (X - 5 + j)).
Proof.
  intros B. destruct (show_size D 5 ltac:(lia) B) as (A & F & L). unfold show_six.
  assert (LN : length (show_int D) = 6%nat) by (unfold size in L; lia).
  set (t := show_int D) in *.
  assert (SP : forall n, Forall dig (firstn n t) /\ Forall dig (skipn n t)).
  { intros n. rewrite <- (firstn_skipn n t) in A. apply Forall_app in A. exact A. }
  destruct ((X <? -4) || (6 <=? X)) eqn:C.
  - destruct (two_digits_ok (Z.abs X) ltac:(lia)) as (T1 & T2 & T3).
    edestruct (read_decimal_fraction s (firstn 1 t) (skipn 1 t)
      ("e"%char :: (if X <? 0 then "-"%char else "+"%char) :: two_digits (Z.abs X))) as (d & j & J & E & R).
    + apply SP. + apply SP. + destruct t; discriminate. + reflexivity.
    + rewrite firstn_skipn, F in E. exists d, j. split; [exact J|]. split; [exact E|].
      rewrite R, (read_exponent_digits (X <? 0)) by assumption. rewrite T2. f_equal. f_equal.
      assert (size (skipn 1 t) = 5) as -> by (unfold size; rewrite skipn_length, LN; reflexivity).
      destruct (Z.ltb_spec X 0); lia.
  - apply orb_false_iff in C. rewrite Z.ltb_ge, Z.leb_gt in C. destruct (Z.ltb_spec X 0) as [N|N].
    + edestruct (read_decimal_fraction s (zeros 1) (zeros (- X - 1) ++ t) []) as (d & j & J & E & R).
      * constructor; [unfold dig, code; cbn; lia|constructor].
      * apply Forall_app. split; [|exact A]. unfold zeros. apply Forall_forall. intros c I. apply repeat_spec in I. subst c. unfold dig, code; cbn; lia.
      * discriminate. * exact I.
      * rewrite app_nil_r in R. exists d, j. split; [exact J|]. split.
        { rewrite <- E. rewrite fold_app, fold_app. change (fold 0 (zeros 1)) with 0. unfold zeros. rewrite fold_zeros, Z.mul_0_l. symmetry. exact F. }
        rewrite R. cbn [read_exponent]. f_equal. f_equal. rewrite size_app, L. unfold zeros, size. rewrite repeat_length. lia.
    + edestruct (read_decimal_fraction s (firstn (Z.to_nat (X + 1)) t) (skipn (Z.to_nat (X + 1)) t) []) as (d & j & J & E & R).
      * apply SP. * apply SP.
      * intros Q. apply (f_equal (@length ascii)) in Q. rewrite firstn_length, LN in Q. cbn [length] in Q. lia.
      * exact I.
      * rewrite app_nil_r in R. rewrite firstn_skipn, F in E. exists d, j. split; [exact J|]. split; [exact E|].
        rewrite R. cbn [read_exponent]. f_equal. f_equal. unfold size. rewrite skipn_length, LN. lia.
Qed.

Lemma show_six_head D X : 10 ^ 5 <= D < 10 ^ 6 -> exists c r, show_six D X = c :: r /\ dig c.
Proof.
  intros B. destruct (show_size D 5 ltac:(lia) B) as (A & F & L). unfold show_six.
  destruct (show_int D) as [|c r]; [discriminate L|]. apply Forall_inv in A.
  assert (Z0 : dig "0"%char) by (unfold dig, code; cbn; lia).
  destruct ((X <? -4) || (6 <=? X)); [cbn [firstn app]; eauto|]. destruct (Z.ltb_spec X 0).
  { change (zeros 1) with ["0"%char]. cbn [app]. eauto. }
  destruct (Z.to_nat (X + 1)) eqn:E; [lia|]. cbn [firstn app]. eauto.
Qed.

Lemma read_double_signed (s : bool) t : (exists c r, t = c :: r /\ dig c) ->
  read_double ((if s then lit "-" else []) ++ t) = read_decimal s t.
Proof.
  intros (c & r & -> & C). unfold read_double.
  assert (N : c <> "I"%char /\ c <> "N"%char /\ c <> "-"%char) by (repeat split; intros ->; unfold dig, code in C; cbn in C; lia).
  destruct N as (N1 & N2 & N3).
  destruct s; cbn [lit list_ascii_of_string app];
    repeat (match goal with |- context [list_eq_dec ascii_dec ?a ?b] => destruct (list_eq_dec ascii_dec a b) as [E|_] end;
      [injection E; intros; subst; congruence|]); [reflexivity|].
  destruct c as [[] [] [] [] [] [] [] []]; try reflexivity. congruence.
Qed.
