(** * C52: definitions that are used once are inlined *)
From Coq Require Import String List Bool Arith.
From Verif Require Import AstModel SymbolModel IdentifyModel IdentifySpec IdentifyProps AnnotateSpec
  ExecModel ExecSpec OptimizeModel OptimizeSpec OptimizeProofs.
Import ListNotations.
Open Scope string_scope.

(** If names have one value all the time and temporary names are only copied, then a module is
    changed into the one in which the temporary names are replaced by what is assigned to them;
    no assertion fails. *)
Theorem C52_result : forall A (m : list (stmt A)) fuel,
  settled m -> only_copied m -> NoDup (nodes m) -> optimize (S (S fuel)) m = Some (inlined m).
Proof.
  intros A m fuel S O N. assert (ST := settled_straight m S). unfold optimize.
  destruct (C51_links A m (straight_vertices_nodup m ST N)) as (s & E & _). rewrite E. apply optimized; auto.
Qed.

(** No temporary names are left. *)
Theorem C52_removed : forall A (m : list (stmt A)) x,
  settled m -> only_copied m -> temporary m x = true ->
  ~ In x (names_assigned (inlined m)) /\ ~ In x (names_used (inlined m)).
Proof.
  intros A m x S O T. split.
  - intros I. unfold names_assigned in I. apply in_flat_map in I as (u & U & I). destruct u as [w y f|f|c a b|c a b]; try (destruct I; fail). destruct I as [->|[]].
    unfold inlined in U. apply in_flat_map in U as (t & _ & U). destruct t as [v z e|e|c a b|c a b]; try (destruct U as [U|[]]; discriminate).
    destruct (temporary m z) eqn:TZ; [destruct U|]. assert (x = z); [|congruence].
    destruct e; try (destruct U as [U|[]]; injection U as <- <- <-; auto; fail).
    destruct (temporary m name); [destruct (assigned m name)|]; destruct U as [U|[]]; injection U as <- <- <-; auto.
  - intros I. rewrite <- module_uses_names in I. apply in_map_iff in I as ([v y] & E & I). cbn in E. subst y.
    apply in_flat_map in I as (t & It & I). assert (Q := proj1 (Forall_forall _ _) (inlined_silent m (settled_straight m S) O) _ It).
    destruct t as [w y e|e|c a b|c a b]; cbn in I; try contradiction; destruct (Q v x I); congruence.
Qed.

(** The changed module has the same results, and the other names get the same values by the same
    assignments. *)
Theorem C52_preserves : forall A (m : list (stmt A)) operations inputs bound bound' results assignments,
  settled m -> only_copied m ->
  meaning operations inputs bound m = Some (bound', results, assignments) ->
  exists bound'',
    meaning operations inputs bound (inlined m) =
      Some (bound'', results, filter (fun p => negb (temporary m (snd (fst p)))) assignments) /\
    forall x, temporary m x = false -> bound'' x = bound' x.
Proof.
  intros A m ops ins bd b rs ts S O E. apply (preserves m S O ops ins m [] bd bd b rs ts eq_refl); auto.
  intros y e _ [].
Qed.

(** If a temporary name is used within an expression, or as an expression of its own, then an
    assertion fails: it is found that there is something to inline, but that is not done. *)
Theorem C52_within_refuted : forall A (m : list (stmt A)) fuel t e y,
  settled m -> NoDup (nodes m) ->
  In t m -> (t = Expr e \/ exists v x, t = Assign v x e /\ forall i z, e <> Name i z) ->
  In y (expr_names e) -> temporary m y = true -> optimize fuel m = None.
Proof.
  intros A m fuel t e y S N I TE Y T. assert (ST := settled_straight m S). unfold optimize.
  destruct (C51_links A m (straight_vertices_nodup m ST N)) as (s & E & _). rewrite E. eapply fails; eauto.
Qed.

(** If a temporary name is copied to another one, then the name that is left is not the last one:
    of [a = 5; d = a; e = d] only [d = 5] is left. *)
Theorem C52_chain_refuted :
  let m := [Assign 1 "a" (Const 2 5); Assign 3 "d" (Name 4 "a"); Assign 5 "e" (Name 6 "d")] in
  settled m /\ NoDup (nodes m) /\ optimize 5 m = Some [Assign 3 "d" (Const 2 5)].
Proof.
  cbv zeta. split; [|split].
  - cbn. intuition; subst; try discriminate; auto.
  - repeat constructor; cbn; intuition discriminate.
  - vm_compute. auto.
Qed.

(** If a name gets another value after it was used, then the names that are left get other
    values: [a = b; b = 3; c = a] becomes [b = 3; c = b]. *)
Theorem C52_order_refuted :
  let m := [Assign 1 "a" (Name 2 "b"); Assign 3 "b" (Const 4 3); Assign 5 "c" (Name 6 "a")] in
  let m' := [Assign 3 "b" (Const 4 3); Assign 5 "c" (Name 2 "b")] in
  let inputs x := if String.eqb x "b" then Some 7 else None in
  let value_of_c m := option_map (fun r => fst (fst r) "c") (meaning (fun _ => None) inputs (fun _ => None) m) in
  NoDup (nodes m) /\ temporary m "a" = true /\ temporary m "c" = false /\ optimize 5 m = Some m' /\
  value_of_c m = Some (Some 7) /\ value_of_c m' = Some (Some 3).
Proof.
  cbv zeta. split; [repeat constructor; cbn; intuition discriminate|]. vm_compute. auto.
Qed.

(** [a = 5; b = n(a0); d = a; e = b; f(d, d)]: two temporary names. *)
Example C52_case :
  let m := [Assign 1 "a" (Const 2 5); Assign 3 "b" (Operation 4 "n" [Name 5 "a0"]);
            Assign 6 "d" (Name 7 "a"); Assign 8 "e" (Name 9 "b"); Expr (Operation 10 "f" [Name 11 "d"; Name 12 "d"])] in
  settled m /\ only_copied m /\ NoDup (nodes m) /\
  inlined m = [Assign 6 "d" (Const 2 5); Assign 8 "e" (Operation 4 "n" [Name 5 "a0"]);
               Expr (Operation 10 "f" [Name 11 "d"; Name 12 "d"])] /\
  optimize 2 m = Some (inlined m).
Proof.
  cbv zeta. match goal with |- settled ?m /\ _ => set (mm := m) end.
  assert (T : forall x, temporary mm x = true -> x = "a" \/ x = "b").
  { intros x. unfold temporary. intros H. apply andb_true_iff in H as [H1 H2]. apply existsb_exists in H1 as (y & I & E). apply String.eqb_eq in E. subst y.
    cbn in I. destruct I as [<-|[<-|[<-|[<-|[]]]]]; auto; vm_compute in H2; discriminate. }
  assert (F : forall x, x <> "a" -> x <> "b" -> temporary mm x = false).
  { intros x NA NB. destruct (temporary mm x) eqn:E; auto. destruct (T x E); contradiction. }
  split; [|split; [|split]].
  - cbn. intuition; subst; try discriminate; auto.
  - unfold only_copied. unfold mm at 2. repeat constructor; cbn; intros; try (apply F; discriminate); try contradiction.
    + destruct H as [<-|[]]. apply F; discriminate.
    + destruct H as [<-|[<-|[]]]; apply F; discriminate.
  - repeat constructor; cbn; intuition discriminate.
  - vm_compute. auto.
Qed.

(** [a = 5; d = f(a)] *)
Example C52_case_within :
  let m := [Assign 1 "a" (Const 2 5); Assign 3 "d" (Operation 4 "f" [Name 5 "a"])] in
  settled m /\ NoDup (nodes m) /\ temporary m "a" = true /\ optimize 9 m = None.
Proof.
  cbv zeta. split; [|split].
  - cbn. intuition; subst; try discriminate; auto.
  - repeat constructor; cbn; intuition discriminate.
  - vm_compute. auto.
Qed.

Print Assumptions C52_result.
Print Assumptions C52_removed.
Print Assumptions C52_preserves.
Print Assumptions C52_within_refuted.
Print Assumptions C52_chain_refuted.
Print Assumptions C52_order_refuted.
