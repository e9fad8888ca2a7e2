(** * C50: the inputs and outputs of a module *)
From Coq Require Import String List Bool Arith Lia.
From Verif Require Import AstModel SymbolModel SymbolProofs IoModel IoSpec IoProofs.
Import ListNotations.
Open Scope string_scope.
Open Scope list_scope.

(** The outputs are the last definitions of each name, in the order in which these are made, if
    at most one of the names is defined more than once. *)
Theorem C50_outputs (A : Type) (m : list (stmt A)) :
  one_redefined (definitions (events m)) ->
  exists r, io_module m = Some r /\ outputs r = map fst (lasts (definitions (events m))).
Proof.
  intros [x H]. destruct (io_module_counted m) as (s & E & V & C). exists s. split; auto.
  destruct (right_visits x (events m) H) as (s' & V' & R). rewrite V in V'. injection V' as <-. apply (r_outputs _ _ _ R).
Qed.
Print Assumptions C50_outputs.

(** For all modules there are as many outputs as names that are defined, and all of them are
    targets of assignments. *)
Theorem C50_number (A : Type) (m : list (stmt A)) :
  exists r, io_module m = Some r /\
    length (outputs r) = length (lasts (definitions (events m))) /\
    forall i, In i (outputs r) -> exists x, In (i, x) (definitions (events m)).
Proof.
  destruct (io_module_counted m) as (s & E & V & C). exists s. split; auto. split.
  - rewrite <- (c_length _ _ C).
    assert (P : forall (l l' : list string), NoDup l -> NoDup l' -> (forall x, In x l <-> In x l') -> length l = length l').
    { intros l l' N N' H. apply Nat.le_antisymm; apply NoDup_incl_length; auto; intros x; apply H. }
    rewrite <- (map_length fst), <- (map_length snd). apply P; [apply (c_nodup _ _ C)|apply lasts_nodup|].
    intros x. rewrite lasts_names, <- (c_names _ _ C). symmetry. apply find_in.
  - intros i H. apply (c_defs _ _ C) in H. apply in_map_iff in H as ([j x] & <- & H). exists x. auto.
Qed.
Print Assumptions C50_number.

(** The inputs are the names that are used, each at its first use. *)
Theorem C50_inputs (A : Type) (m : list (stmt A)) :
  exists r, io_module m = Some r /\ inputs r = firsts (used_names (events m)) /\
    NoDup (inputs r) /\ forall x, In x (inputs r) <-> In x (used_names (events m)).
Proof.
  destruct (io_module_counted m) as (s & E & V & C). exists s. split; auto. rewrite (c_inputs _ _ C).
  split; auto. split; [apply firsts_nodup|apply firsts_in].
Qed.
Print Assumptions C50_inputs.

(** [a = 1; b = 2; a = 3; b = 4] *)
Definition redefined : list (stmt nat) :=
  [Assign 1 "a" (Const 11 1); Assign 2 "b" (Const 12 2);
   Assign 3 "a" (Const 13 3); Assign 4 "b" (Const 14 4)].

(** If two names are redefined, an output can be missing and an outdated definition reported. *)
Theorem C50_outputs_refuted :
  ~ (forall m : list (stmt nat),
       exists r, io_module m = Some r /\ outputs r = map fst (lasts (definitions (events m)))).
Proof. intros H. destruct (H redefined) as (r & E & O). vm_compute in E. injection E as <-. discriminate. Qed.
Print Assumptions C50_outputs_refuted.

(** Names that the module itself defines before they are used are reported as inputs too. *)
Theorem C50_inputs_refuted :
  ~ (forall m : list (stmt nat),
       exists r, io_module m = Some r /\
         forall x, In x (inputs r) ->
           exists es1 es2, events m = es1 ++ Use x :: es2 /\ ~ In x (map snd (definitions es1))).
Proof.
  intros H. destruct (H [Assign 1 "a" (Const 11 1); Assign 2 "b" (Name 12 "a")]) as (r & E & I).
  vm_compute in E. injection E as <-. destruct (I "a") as (es1 & es2 & E & N); [cbn; auto|].
  cbn in E. destruct es1 as [|e1 [|e2 [|e3 es1]]]; try discriminate E.
  - injection E as <- _. apply N. cbn. auto.
  - injection E as _ _ _ E. destruct es1; discriminate E.
Qed.
Print Assumptions C50_inputs_refuted.

(** [a = f(b, c); d = a; a = a[e]; a = 2] *)
Example C50_case :
  let m : list (stmt nat) :=
    [Assign 1 "a" (Operation 10 "f" [Name 11 "b"; Name 12 "c"]); Assign 2 "d" (Name 13 "a");
     Assign 3 "a" (Subscript 14 (Name 15 "a") (Name 16 "e")); Assign 4 "a" (Const 17 2)] in
  one_redefined (definitions (events m)) /\
  option_map (fun r => (inputs r, outputs r)) (io_module m) = Some (["b"; "c"; "a"; "e"], [2; 4]).
Proof.
  cbn zeta. split; [|reflexivity]. exists "a". intros y N.
  change (count_occ string_dec ["a"; "d"; "a"; "a"] y <= 1). cbn [count_occ].
  destruct (string_dec "a" y); [congruence|]. destruct (string_dec "d" y); lia.
Qed.
