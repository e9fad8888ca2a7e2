(** Proofs about collections of flags and result types. *)
From Coq Require Import String Ascii List Bool Arith NArith Lia Permutation.
From Verif Require Import StringModel StringSpec StringProofs FlagModel FlagSpec.
Import ListNotations.

(** ** Bits *)
Definition bit (a : flags) (p : nat) : bool := N.testbit a (N.of_nat p).

Fixpoint bits_pos (p : positive) : list nat :=
  match p with
  | xH => [0]
  | xO p' => map S (bits_pos p')
  | xI p' => 0 :: map S (bits_pos p')
  end.
Definition bits (a : flags) : list nat := match a with N0 => [] | Npos p => bits_pos p end.

Lemma length_bits a : length (bits a) = count a.
Proof.
  destruct a as [|p]; auto. cbn. induction p as [p IH|p IH|]; cbn; rewrite ?map_length; auto.
Qed.

Lemma NoDup_map_S l : NoDup l -> NoDup (map S l).
Proof.
  induction 1; cbn; constructor; auto. rewrite in_map_iff. intros (y & E & H1). inversion E; subst; auto.
Qed.

Lemma NoDup_bits a : NoDup (bits a).
Proof.
  destruct a as [|p]; [constructor|]. cbn. induction p as [p IH|p IH|]; cbn.
  - constructor; [|apply NoDup_map_S; auto]. rewrite in_map_iff. intros (y & E & _). discriminate.
  - apply NoDup_map_S; auto.
  - repeat constructor; auto.
Qed.

Lemma in_bits a p : In p (bits a) <-> bit a p = true.
Proof.
  unfold bit. destruct a as [|q]; [cbn; split; [tauto|destruct p; discriminate]|].
  cbn [bits]. revert p.
  assert (Step : forall a p, N.testbit a (N.of_nat (S p)) = N.testbit (N.div2 a) (N.of_nat p)).
  { intros a p. rewrite Nat2N.inj_succ. apply N.testbit_succ_r_div2. apply N.le_0_l. }
  induction q as [q IH|q IH|]; intros p; cbn [bits_pos].
  - cbn [In]. rewrite in_map_iff. destruct p as [|p].
    + split; auto.
    + rewrite Step. cbn [N.div2]. rewrite <- IH. split.
      * intros [|(y & E2 & H)]; [discriminate|]. inversion E2; subst; auto.
      * eauto.
  - rewrite in_map_iff. destruct p as [|p].
    + cbn. split; [intros (y & E & _); discriminate|discriminate].
    + rewrite Step. cbn [N.div2]. rewrite <- IH. split.
      * intros (y & E2 & H). inversion E2; subst; auto.
      * eauto.
  - destruct p as [|p]; [cbn; tauto|]. rewrite Step. cbn [N.div2].
    split; [intros [|[]]; discriminate|]. destruct p; discriminate.
Qed.

Lemma count_zero a : count a = 0 <-> a = 0%N.
Proof.
  destruct a as [|p]; cbn; [tauto|]. split; [|discriminate].
  induction p as [p IH|p IH|]; cbn; try discriminate. intros H. discriminate (IH H).
Qed.

(** ** Collections *)
Lemma collection_bit size a p : collection size a -> bit a p = true -> p < size.
Proof.
  unfold collection, bit. intros H B. destruct (Nat.lt_ge_cases p size) as [|L]; auto. exfalso.
  destruct (N.eq_dec a 0) as [->|N]; [destruct p; discriminate|].
  rewrite N.bits_above_log2 in B; [discriminate|].
  apply N.log2_lt_pow2; [lia|]. eapply N.lt_le_trans; [exact H|]. apply N.pow_le_mono_r; lia.
Qed.

Lemma bit_collection size a : (forall p, bit a p = true -> p < size) -> collection size a.
Proof.
  unfold collection, bit. intros H. destruct (N.eq_dec a 0) as [->|N].
  - apply N.neq_0_lt_0, N.pow_nonzero; lia.
  - apply N.log2_lt_pow2; [lia|]. specialize (H (N.to_nat (N.log2 a))).
    rewrite N2Nat.id, N.bit_log2 in H by auto. specialize (H eq_refl). lia.
Qed.

Lemma has_bit size a p : collection size a -> (has size a p <-> bit a p = true).
Proof.
  intros C. unfold has, test, bit. split.
  - destruct (p <? size); congruence.
  - intros B. rewrite (proj2 (Nat.ltb_lt _ _) (collection_bit _ _ _ C B)). congruence.
Qed.

Lemma bit_ext a b : (forall p, bit a p = true <-> bit b p = true) -> a = b.
Proof.
  intros H. apply N.bits_inj. intros n. specialize (H (N.to_nat n)). unfold bit in H.
  rewrite N2Nat.id in H. destruct (N.testbit a n), (N.testbit b n); intuition congruence.
Qed.

Lemma has_ext size a b : collection size a -> collection size b ->
  (forall p, has size a p <-> has size b p) -> a = b.
Proof.
  intros A B H. apply bit_ext. intros p. rewrite <- (has_bit size a), <- (has_bit size b) by auto. auto.
Qed.

Lemma bit_and a b p : bit (flags_and a b) p = bit a p && bit b p.
Proof. unfold bit, flags_and. apply N.land_spec. Qed.
Lemma bit_or a b p : bit (flags_or a b) p = bit a p || bit b p.
Proof. unfold bit, flags_or. apply N.lor_spec. Qed.
Lemma bit_xor a b p : bit (flags_xor a b) p = xorb (bit a p) (bit b p).
Proof. unfold bit, flags_xor. apply N.lxor_spec. Qed.
Lemma bit_none p : bit no_flags p = false.
Proof. destruct p; reflexivity. Qed.

Lemma any_spec a : any a = true <-> exists p, bit a p = true.
Proof.
  unfold any. rewrite negb_true_iff, N.eqb_neq. split.
  - intros N. exists (N.to_nat (N.log2 a)). unfold bit. rewrite N2Nat.id. apply N.bit_log2; auto.
  - intros [p B] ->. destruct p; discriminate.
Qed.

Lemma fixed_spec a : fixed a = true <-> exists p, forall q, bit a q = true <-> q = p.
Proof.
  unfold fixed. rewrite Nat.eqb_eq, <- length_bits. split.
  - intros L. destruct (bits a) as [|p [|]] eqn:E; try discriminate. exists p. intros q.
    rewrite <- in_bits, E. cbn. intuition.
  - intros [p H]. assert (P : In p (bits a)) by (apply in_bits, H; auto).
    assert (A : forall q, In q (bits a) -> q = p) by (intros q Hq; apply H, in_bits; auto).
    generalize (NoDup_bits a). destruct (bits a) as [|x [|y l]]; auto; [destruct P|].
    intros N. exfalso. inversion N as [|? ? H1 H2]; subst. apply H1. rewrite (A x), (A y) by (cbn; auto). cbn; auto.
Qed.

Lemma subset_spec a b : is_subset_of a b = true <->
  (exists p, bit a p = true) /\ forall p, bit a p = true -> bit b p = true.
Proof.
  unfold is_subset_of. rewrite andb_true_iff, any_spec, Nat.eqb_eq, <- !length_bits.
  assert (I : incl (bits (flags_and a b)) (bits a)).
  { intros p H. apply in_bits. apply in_bits in H. rewrite bit_and in H. apply andb_true_iff in H. tauto. }
  split; intros [H1 H2]; split; auto.
  - intros p Hp. apply in_bits in Hp. apply (NoDup_length_incl (NoDup_bits _)) in I; [|lia].
    apply I, in_bits in Hp. rewrite bit_and in Hp. apply andb_true_iff in Hp. tauto.
  - apply Nat.le_antisymm.
    + apply NoDup_incl_length; auto. apply NoDup_bits.
    + apply NoDup_incl_length; [apply NoDup_bits|]. intros p Hp. apply in_bits. rewrite bit_and.
      apply in_bits in Hp. rewrite Hp, H2; auto.
Qed.

Lemma make_collection size n : collection size (make_flags size n).
Proof. unfold collection, make_flags. apply N.mod_lt, N.pow_nonzero. lia. Qed.

Lemma make_bit size n p : bit (make_flags size n) p = (p <? size) && N.testbit n (N.of_nat p).
Proof.
  unfold bit, make_flags. destruct (p <? size) eqn:E.
  - apply Nat.ltb_lt in E. rewrite N.mod_pow2_bits_low by lia. auto.
  - apply Nat.ltb_ge in E. rewrite N.mod_pow2_bits_high by lia. auto.
Qed.

(** ** Value types *)
Lemma vt_test_spec a t : vt_test a t = true <-> has_type a t.
Proof.
  unfold vt_test, has_type, has. destruct (test _ _ _) as [[|]|]; split; congruence.
Qed.

Lemma vt_test_bit a t : vt_test a t = bit a (value_type_number t).
Proof. unfold vt_test, test, bit. destruct t; reflexivity. Qed.

Lemma vt_flags_test t t' : vt_test (vt_flags t) t' = true <-> t' = t.
Proof. destruct t, t'; vm_compute; split; congruence. Qed.

Lemma vt_flags_collection t : collection value_types_size (vt_flags t).
Proof. apply make_collection. Qed.

Lemma type_of_number p : p < value_types_size -> exists t, value_type_number t = p.
Proof.
  intros H. unfold value_types_size in H. cbn in H.
  exists (nth p value_type_list VT_BOOL).
  do 13 (destruct p as [|p]; [reflexivity|]). lia.
Qed.

Lemma number_inj t t' : value_type_number t = value_type_number t' -> t = t'.
Proof. destruct t, t'; intros H; try reflexivity; discriminate H. Qed.

Lemma vt_ext a b : collection value_types_size a -> collection value_types_size b ->
  (forall t, vt_test a t = true <-> vt_test b t = true) -> a = b.
Proof.
  intros A B H. apply bit_ext. intros p. split; intros P.
  - destruct (type_of_number p) as [t <-]; [apply (collection_bit _ a); auto|].
    rewrite <- vt_test_bit in P |- *. apply H; auto.
  - destruct (type_of_number p) as [t <-]; [apply (collection_bit _ b); auto|].
    rewrite <- vt_test_bit in P |- *. apply H; auto.
Qed.

Lemma vt_and a b t : vt_test (flags_and a b) t = vt_test a t && vt_test b t.
Proof. rewrite !vt_test_bit. apply bit_and. Qed.
Lemma vt_or a b t : vt_test (flags_or a b) t = vt_test a t || vt_test b t.
Proof. rewrite !vt_test_bit. apply bit_or. Qed.

Lemma and_collection size a b : collection size a -> collection size (flags_and a b).
Proof.
  intros A. apply bit_collection. intros p. rewrite bit_and. intros B. apply andb_true_iff in B as [B _].
  eapply collection_bit; eauto.
Qed.
Lemma or_collection size a b : collection size a -> collection size b -> collection size (flags_or a b).
Proof.
  intros A A'. apply bit_collection. intros p. rewrite bit_or. intros B. apply orb_true_iff in B as [B|B];
  [apply (collection_bit _ a)|apply (collection_bit _ b)]; auto.
Qed.
Lemma xor_collection size a b : collection size a -> collection size b -> collection size (flags_xor a b).
Proof.
  intros A A'. apply bit_collection. intros p. rewrite bit_xor. intros B.
  destruct (bit a p) eqn:Ea; [eapply (collection_bit _ a); eauto|].
  destruct (bit b p) eqn:Eb; [eapply (collection_bit _ b); eauto|]. discriminate.
Qed.

Lemma vt_flags_fixed t : fixed (vt_flags t) = true.
Proof. destruct t; reflexivity. Qed.

Lemma vt_fixed a : collection value_types_size a ->
  (fixed a = true <-> exists t, a = vt_flags t).
Proof.
  intros C. split.
  - intros F. apply fixed_spec in F as [p H].
    destruct (type_of_number p) as [t Ht]; [apply (collection_bit _ a); auto; apply H; auto|].
    exists t. apply vt_ext; auto using vt_flags_collection. intros t'. rewrite vt_flags_test, vt_test_bit, H, <- Ht.
    split; [apply number_inj|congruence].
  - intros [t ->]. apply vt_flags_fixed.
Qed.

(** ** Merging *)
Lemma merged_bit fs : forall r p, bit (fold_left flags_or fs r) p = bit r p || existsb (fun f => bit f p) fs.
Proof.
  induction fs as [|f fs IH]; intros r p; cbn; [rewrite orb_false_r; auto|].
  rewrite IH, bit_or, orb_assoc. auto.
Qed.

Lemma merged_spec fs p : bit (merged fs) p = existsb (fun f => bit f p) fs.
Proof. unfold merged. rewrite merged_bit, bit_none. auto. Qed.

Lemma merged_collection size fs : Forall (collection size) fs -> collection size (merged fs).
Proof.
  intros H. apply bit_collection. intros p. rewrite merged_spec, existsb_exists.
  intros (f & Hf & B). rewrite Forall_forall in H. eapply collection_bit; eauto.
Qed.

Lemma merged_perm fs fs' : Permutation fs fs' -> merged fs = merged fs'.
Proof.
  intros P. apply bit_ext. intros p. rewrite !merged_spec, !existsb_exists.
  split; intros (f & H & B); exists f; split; auto.
  - apply (Permutation_in _ P); auto.
  - apply (Permutation_in _ (Permutation_sym P)); auto.
Qed.

(** ** Names *)
Section Names.
Context {T : Type} (size : nat) (number : T -> nat) (name : T -> text).

Lemma set_names_spec a ts : (forall t, In t ts -> number t < size) ->
  set_names size number name a ts = Some (map name (filter (fun t => bit a (number t)) ts)).
Proof.
  induction ts as [|t ts IH]; intros H; auto. cbn [set_names].
  rewrite IH by (intros x Hx; apply H; cbn; auto). unfold test.
  rewrite (proj2 (Nat.ltb_lt _ _) (H t (or_introl eq_refl))). fold (bit a (number t)).
  cbn [filter]. destruct (bit a (number t)); auto.
Qed.
End Names.

Lemma text_eq_spec a b : text_eq a b = true <-> a = b.
Proof. unfold text_eq. destruct (list_eq_dec ascii_dec a b); split; congruence. Qed.

Lemma join_names_split ns : ns <> [] ->
  (forall n, In n ns -> n <> [] /\ ~ In "|"%char n) -> split (join_names ns) (lit "|") = ns.
Proof.
  intros N H. unfold join_names. destruct ns as [|x ns]; [congruence|]. rewrite join_joined.
  assert (Bar : forall c, separators (lit "|") c <-> c = "|"%char).
  { intros c. unfold separators. split.
    - intros [[_ [<-|[]]]|[E _]]; [auto|discriminate].
    - intros ->. left. split; [discriminate|cbn; auto]. }
  apply split_spec. apply joined_separated.
  - discriminate.
  - intros c [<-|[]]. apply Bar; auto.
  - intros w Hw. destruct (H w Hw) as [H1 H2]. split; auto. intros c Hc B. apply Bar in B. subst; auto.
Qed.

Lemma find_string_in m s f : find_string m s = Some f -> In (s, f) m.
Proof.
  induction m as [|[k v] m IH]; intros H; [discriminate|]. cbn in H.
  destruct (text_eq k s) eqn:E; [|cbn; auto]. apply text_eq_spec in E. injection H as ->. subst. cbn; auto.
Qed.

Section Printed.
Context {T : Type} (name : T -> text) (ts : list T).
Context (inj : forall t t', name t = name t' -> t = t').
Context (plain : forall t, name t <> [] /\ ~ In "|"%char (name t) /\ name t <> lit "?").

Lemma map_name_inj l : forall l', map name l = map name l' -> l = l'.
Proof.
  induction l as [|x l IH]; intros [|y l'] E; try discriminate; auto.
  injection E as E1 E2. f_equal; auto.
Qed.

Lemma printed_names l : l <> [] -> split (join_names (map name l)) (lit "|") = map name l.
Proof.
  intros N. apply join_names_split.
  - intros E. apply N. destruct l; auto; discriminate.
  - intros n Hn. apply in_map_iff in Hn as (t & <- & _). split; apply plain.
Qed.

Lemma printed_nothing l : join_names (map name l) = lit "?" -> l = [].
Proof.
  intros E. destruct l as [|x l]; auto. exfalso.
  assert (N : x :: l <> []) by discriminate. apply printed_names in N. rewrite E in N.
  change (split (lit "?") (lit "|")) with [lit "?"] in N. apply (f_equal (hd [])) in N. cbn [hd map] in N.
  destruct (plain x) as (_ & _ & H). auto.
Qed.

Lemma printed_inj l l' : join_names (map name l) = join_names (map name l') -> l = l'.
Proof.
  intros E. destruct l as [|x l].
  - symmetry. apply printed_nothing. rewrite <- E. reflexivity.
  - destruct l' as [|y l']; [apply printed_nothing; rewrite E; reflexivity|].
    apply map_name_inj. rewrite <- (printed_names (x :: l)), <- (printed_names (y :: l')), E by discriminate. auto.
Qed.

Lemma printed_single l : ~ In "|"%char (join_names (map name l)) -> join_names (map name l) <> lit "?" ->
  exists t, l = [t].
Proof.
  intros N1 N2. destruct l as [|t [|t' l]]; [destruct (N2 eq_refl)|eauto|].
  exfalso. apply N1. unfold join_names. cbn [map]. rewrite join_joined, joined_cons by discriminate.
  apply in_or_app. right. apply in_or_app. left. cbn; auto.
Qed.
End Printed.
