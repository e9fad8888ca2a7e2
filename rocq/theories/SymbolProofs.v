(** Proofs about symbol tables.  Tables are looked at from the innermost scope. *)
From Coq Require Import String List Bool Arith Lia.
From Verif Require Import SymbolModel SymbolSpec.
Import ListNotations.

Section Symbols.
Context {T : Type}.
Implicit Types (s : scope T) (t : table T).

(** ** Scopes *)
Lemma has_find s n : scope_has_value s n = match scope_find s n with Some _ => true | None => false end.
Proof. reflexivity. Qed.

Lemma find_set s n v n' : scope_find (scope_set_value s n v) n' =
  if String.eqb n n' then Some v else scope_find s n'.
Proof.
  induction s as [|[a x] s IH]; cbn; auto.
  destruct (String.eqb_spec a n) as [->|N]; cbn.
  - destruct (String.eqb n n'); auto.
  - rewrite IH. destruct (String.eqb_spec a n') as [->|N']; auto.
    destruct (String.eqb_spec n n'); congruence.
Qed.

Lemma find_filter s n n' :
  scope_find (filter (fun b => negb (String.eqb (fst b) n)) s) n' =
  if String.eqb n n' then None else scope_find s n'.
Proof.
  induction s as [|[a x] s IH]; cbn; [destruct (String.eqb n n'); auto|].
  destruct (String.eqb_spec a n) as [->|N]; cbn; rewrite IH.
  - destruct (String.eqb n n'); auto.
  - destruct (String.eqb_spec a n') as [->|N']; auto.
    destruct (String.eqb_spec n n'); congruence.
Qed.

Lemma find_in s n : scope_find s n <> None <-> In n (map fst s).
Proof.
  induction s as [|[a x] s IH]; cbn; [tauto|].
  destruct (String.eqb_spec a n) as [->|N]; [split; auto; discriminate|]. rewrite IH.
  split; auto. intros [?|?]; [congruence|auto].
Qed.

Lemma NoDup_set s n v : NoDup (map fst s) -> NoDup (map fst (scope_set_value s n v)).
Proof.
  induction s as [|[a x] s IH]; cbn; intros H; [repeat constructor; auto|].
  inversion H as [|? ? H1 H2]; subst. destruct (String.eqb_spec a n) as [->|N]; cbn; constructor; auto.
  rewrite <- find_in, find_set. destruct (String.eqb_spec n a); [congruence|]. rewrite find_in; auto.
Qed.

Lemma NoDup_filter_fst (p : string * T -> bool) s : NoDup (map fst s) -> NoDup (map fst (filter p s)).
Proof.
  induction s as [|[a x] s IH]; cbn; intros H; [constructor|].
  inversion H as [|? ? H1 H2]; subst. destruct (p (a, x)); cbn; auto. constructor; auto.
  intros Hin. apply H1. apply in_map_iff in Hin as (y & <- & Hy). apply filter_In in Hy as [Hy _].
  apply in_map; auto.
Qed.

(** ** Tables, reversed *)
Lemma on_back_spec f t s : on_back f (t ++ [s]) = option_map (fun s' => t ++ [s']) (f s).
Proof.
  induction t as [|a t IH]; cbn; [destruct (f s); auto|].
  rewrite IH. destruct (t ++ [s]) eqn:E; [destruct t; discriminate|]. destruct (f s); auto.
Qed.

(** Lookup from the innermost scope. *)
Fixpoint lookup (ss : list (scope T)) (n : string) : option T :=
  match ss with
  | [] => None
  | s :: ss' => match scope_find s n with Some v => Some v | None => lookup ss' n end
  end.

Lemma value_loop_lookup ss n : value_loop ss n = lookup ss n.
Proof.
  induction ss as [|s ss IH]; cbn; auto. unfold scope_value. rewrite has_find, IH.
  destruct (scope_find s n); auto.
Qed.

Lemma has_lookup t n : has_value t n = match lookup (rev t) n with Some _ => true | None => false end.
Proof.
  unfold has_value. 
  assert (E : existsb (fun s => scope_has_value s n) t = existsb (fun s => scope_has_value s n) (rev t)).
  { apply eq_true_iff_eq. rewrite !existsb_exists. split; intros (s & H1 & H2); exists s; split; auto.
    - rewrite <- in_rev; auto. - rewrite in_rev; auto. }
  rewrite E; clear E. induction (rev t) as [|s ss IH]; cbn; auto. rewrite has_find, IH.
  destruct (scope_find s n); auto.
Qed.

Lemma value_lookup t n : value t n = lookup (rev t) n.
Proof.
  unfold value. rewrite has_lookup, value_loop_lookup. destruct (lookup (rev t) n); auto.
Qed.

(** Calls, on reversed tables. *)
Definition rperform (ss : list (scope T)) (c : call T) : option (list (scope T)) :=
  match c, ss with
  | PushScope, _ => Some ([] :: ss)
  | PopScope, _ :: ss' => Some ss'
  | ClearScope, _ :: ss' => Some ([] :: ss')
  | AddValue n v, s :: ss' => Some (scope_set_value s n v :: ss')
  | EraseValue n, s :: ss' =>
      if scope_has_value s n
      then Some (filter (fun b => negb (String.eqb (fst b) n)) s :: ss') else None
  | _, [] => None
  end.

Lemma perform_rev t c : option_map (@rev _) (perform t c) = rperform (rev t) c.
Proof.
  destruct t as [|x t _] using rev_ind.
  - destruct c; reflexivity.
  - rewrite rev_app_distr. cbn [rev app].
    destruct c; cbn [perform rperform].
    + cbn. unfold push_scope. rewrite !rev_app_distr. reflexivity.
    + unfold pop_scope. destruct (t ++ [x]) eqn:E; [destruct t; discriminate|]. rewrite <- E.
      rewrite removelast_last. reflexivity.
    + unfold clear_scope. rewrite on_back_spec. cbn. rewrite rev_app_distr. reflexivity.
    + unfold add_value. rewrite on_back_spec. cbn. rewrite rev_app_distr. reflexivity.
    + unfold erase_value. rewrite on_back_spec. unfold scope_erase_value.
      destruct (scope_has_value x name); cbn; auto. rewrite rev_app_distr. reflexivity.
Qed.

Fixpoint rperforms (ss : list (scope T)) (cs : list (call T)) : option (list (scope T)) :=
  match cs with
  | [] => Some ss
  | c :: cs' => match rperform ss c with Some ss' => rperforms ss' cs' | None => None end
  end.

Lemma performs_rev cs : forall t, option_map (@rev _) (performs t cs) = rperforms (rev t) cs.
Proof.
  induction cs as [|c cs IH]; intros t; cbn; auto.
  rewrite <- perform_rev. destruct (perform t c) as [t'|]; cbn; auto.
Qed.

Lemma rperforms_app cs : forall ss cs', rperforms ss (cs ++ cs') =
  match rperforms ss cs with Some ss' => rperforms ss' cs' | None => None end.
Proof.
  induction cs as [|c cs IH]; intros ss cs'; cbn; auto. destruct (rperform ss c); auto.
Qed.

Lemma performs_app cs : forall t cs', performs t (cs ++ cs') =
  match performs t cs with Some t' => performs t' cs' | None => None end.
Proof.
  induction cs as [|c cs IH]; intros t cs'; cbn; auto. destruct (perform t c); auto.
Qed.

(** Looking back in the past is looking in the table. *)
Definition rest (gone : bool) (ss : list (scope T)) : list (scope T) :=
  if gone then tl ss else ss.

Lemma visible_lookup past : forall ss n closed gone, rperforms [] (rev past) = Some ss ->
  visible n past closed gone = lookup (rest gone (skipn closed ss)) n.
Proof.
  induction past as [|c past IH]; intros ss n closed gone H.
  - cbn in H. inversion H; subst. cbn. rewrite skipn_nil. destruct gone; auto.
  - cbn [rev] in H. rewrite rperforms_app in H.
    destruct (rperforms [] (rev past)) as [ss0|] eqn:E; [|discriminate].
    cbn [rperforms] in H. destruct (rperform ss0 c) as [ss1|] eqn:Ec; [|discriminate].
    inversion H; subst ss1; clear H. specialize (IH ss0).
    destruct c as [| | |a v|a]; cbn [rperform] in Ec; cbn [visible].
    + inversion Ec; subst. destruct closed as [|k]; rewrite IH by auto.
      * cbn. destruct gone; auto.
      * reflexivity.
    + destruct ss0 as [|s0 ss0]; [discriminate|]. inversion Ec; subst. rewrite IH by auto. reflexivity.
    + destruct ss0 as [|s0 ss0]; [discriminate|]. inversion Ec; subst. rewrite IH by auto.
      destruct closed as [|k]; cbn; [|rewrite orb_false_r; auto].
      rewrite orb_true_r. destruct gone; auto.
    + destruct ss0 as [|s0 ss0]; [discriminate|]. inversion Ec; subst.
      destruct closed as [|k].
      * cbn [Nat.eqb andb]. destruct gone; cbn [negb andb].
        -- rewrite IH by auto. reflexivity.
        -- cbn. rewrite find_set. destruct (String.eqb a n); auto. rewrite IH by auto. reflexivity.
      * cbn [Nat.eqb andb]. rewrite IH by auto. reflexivity.
    + destruct ss0 as [|s0 ss0]; [discriminate|].
      destruct (scope_has_value s0 a); [|discriminate]. inversion Ec; subst. rewrite IH by auto.
      destruct closed as [|k]; cbn [Nat.eqb andb]; [|rewrite orb_false_r; auto].
      destruct gone; cbn [orb]; auto. cbn [skipn rest lookup]. rewrite find_filter.
      destruct (String.eqb_spec a n) as [->|N]; cbn [rest tl]; auto.
Qed.

Lemma open_scopes_length past : forall ss, rperforms [] (rev past) = Some ss ->
  length ss = open_scopes past.
Proof.
  induction past as [|c past IH]; intros ss H.
  - cbn in H. inversion H; subst. auto.
  - cbn [rev] in H. rewrite rperforms_app in H.
    destruct (rperforms [] (rev past)) as [ss0|] eqn:E; [|discriminate].
    cbn [rperforms] in H. destruct (rperform ss0 c) as [ss1|] eqn:Ec; [|discriminate].
    inversion H; subst ss1; clear H. specialize (IH ss0 eq_refl).
    destruct c as [| | |a v|a]; cbn [rperform] in Ec; cbn [open_scopes]; rewrite <- IH.
    + inversion Ec; subst. auto.
    + destruct ss0; inversion Ec; subst; auto.
    + destruct ss0; inversion Ec; subst; auto.
    + destruct ss0; inversion Ec; subst; auto.
    + destruct ss0 as [|s0 ss0]; [discriminate|]. destruct (scope_has_value s0 a); inversion Ec; subst; auto.
Qed.

(** Below the scopes that a history opens, nothing changes. *)
Lemma closes_keeps cs : forall d (ss1 ss2 ss' : list (scope T)) x, length ss1 = d -> closes d cs ->
  rperforms (ss1 ++ x :: ss2) cs = Some ss' -> exists x', ss' = x' :: ss2.
Proof.
  induction cs as [|c cs IH]; intros d ss1 ss2 ss' x Hl Hc H.
  - cbn in *. subst d. destruct ss1; [|discriminate]. inversion H; subst. eauto.
  - cbn [rperforms] in H. destruct c as [| | |a v|a]; cbn [closes] in Hc.
    + cbn [rperform] in H. apply (IH (S d) ([] :: ss1) ss2 ss' x); auto. cbn; auto.
    + destruct d as [|d]; [destruct Hc|]. destruct ss1 as [|s1 ss1]; [discriminate|].
      cbn in H. apply (IH d ss1 ss2 ss' x); auto.
    + destruct ss1 as [|s1 ss1]; cbn in H.
      * apply (IH d [] ss2 ss' []); auto.
      * apply (IH d ([] :: ss1) ss2 ss' x); auto.
    + destruct ss1 as [|s1 ss1]; cbn in H.
      * apply (IH d [] ss2 ss' (scope_set_value x a v)); auto.
      * apply (IH d (scope_set_value s1 a v :: ss1) ss2 ss' x); auto.
    + destruct ss1 as [|s1 ss1]; cbn [rperform app] in H.
      * destruct (scope_has_value x a); [|discriminate]. eapply (IH d []); eauto.
      * destruct (scope_has_value s1 a); [|discriminate].
        eapply (IH d (filter (fun b => negb (String.eqb (fst b) a)) s1 :: ss1)); eauto.
Qed.

(** ** Levels *)
Lemma level_loop_spec t n : forall k, k <= length t ->
  level_loop t n k <= k /\
  (forall l s, level_loop t n k < l <= k -> nth_error t (l - 1) = Some s -> scope_has_value s n = false) /\
  (0 < level_loop t n k -> exists s, nth_error t (level_loop t n k - 1) = Some s /\ scope_has_value s n = true).
Proof.
  induction k as [|k IH]; intros Hk; cbn.
  - split; auto. split; intros; lia.
  - destruct IH as (A & B & C); [lia|].
    destruct (nth_error t k) as [s|] eqn:E; [|apply nth_error_None in E; lia].
    destruct (scope_has_value s n) eqn:Es.
    + split; auto. split; [intros; lia|]. intros _. exists s. replace (S k - 1) with k by lia. auto.
    + split; [lia|]. split; auto. intros l s' Hl Hs.
      destruct (Nat.eq_dec l (S k)) as [->|N].
      * replace (S k - 1) with k in Hs by lia. congruence.
      * apply (B l s'); auto. lia.
Qed.

Lemma size_sum t : forall a, fold_left (fun r s => r + scope_size s) t a =
  a + list_sum (map (@length _) t).
Proof.
  induction t as [|s t IH]; intros a; cbn [fold_left map list_sum fold_right]; [lia|].
  rewrite IH. unfold list_sum, scope_size. lia.
Qed.

(** ** Names in a scope are distinct *)
Definition distinct (ss : list (scope T)) : Prop := Forall (fun s => NoDup (map fst s)) ss.

Lemma distinct_perform ss c ss' : distinct ss -> rperform ss c = Some ss' -> distinct ss'.
Proof.
  unfold distinct. intros H E.
  destruct c as [| | |a v|a]; cbn in E.
  - inversion E; subst. constructor; [constructor|auto].
  - destruct ss; inversion E; subst. inversion H; auto.
  - destruct ss; inversion E; subst. inversion H; subst. constructor; [constructor|auto].
  - destruct ss; inversion E; subst. inversion H; subst. constructor; auto. apply NoDup_set; auto.
  - destruct ss as [|s ss]; [discriminate|]. destruct (scope_has_value s a); inversion E; subst.
    inversion H; subst. constructor; auto. apply NoDup_filter_fst; auto.
Qed.

Lemma distinct_performs cs : forall ss ss', distinct ss -> rperforms ss cs = Some ss' -> distinct ss'.
Proof.
  induction cs as [|c cs IH]; intros ss ss' H E; cbn in E; [inversion E; subst; auto|].
  destruct (rperform ss c) as [ss1|] eqn:E1; [|discriminate].
  apply (IH ss1); auto. eapply distinct_perform; eauto.
Qed.
End Symbols.
