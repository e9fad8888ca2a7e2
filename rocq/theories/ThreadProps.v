(** * Properties of threading *)

From Coq Require Import String List Bool Arith Lia.
From Verif Require Import AstModel SymbolModel ThreadModel ThreadSpec ThreadProofs ThreadRunProofs ThreadAcceptProofs ThreadRefuseProofs.
Import ListNotations.

(** ** C67: the control flow graph of a script

    [module_vertices] are the vertices of a syntax tree; they are different objects. *)

Definition module_id (m : tmodule) : nat := let (i, _) := m in i.

Lemma no_duplicates l : nodup Nat.eq_dec l = l -> NoDup l.
Proof. intros <-. apply NoDup_nodup. Qed.

(** The paths of the graph that lead from the module back to it are the runs of the script in
    which every if statement without else part enters its true scope. *)
Theorem C67_paths_are_runs : forall m g, NoDup (module_vertices m) -> thread_module m [] = Some g ->
  forall p, round_trip g (module_id m) p <-> run_module false m p.
Proof. intros m g N E p. destruct m as [i b]. apply (module_runs false (Module_ i b)); auto. discriminate. Qed.
Print Assumptions C67_paths_are_runs.

(** If every if statement has an else part, the paths are all the runs. *)
Theorem C67_paths_are_all_runs : forall m g, NoDup (module_vertices m) -> all_else m = true ->
  thread_module m [] = Some g -> forall p, round_trip g (module_id m) p <-> run_module true m p.
Proof. intros m g N A E p. destruct m as [i b]. apply (module_runs true (Module_ i b)); auto. Qed.
Print Assumptions C67_paths_are_all_runs.

(** Otherwise there are runs that are not in the graph: [if 1: 2] has no path around the true
    scope. *)
Definition only_if : tmodule :=
  Module_ 0 (Block 1 2 [Choice 3 4 (Leaf 5) (Block 6 7 [Expression (Leaf 8)]) (Block 9 10 [])]).
Theorem C67_no_else_refuted : NoDup (module_vertices only_if) /\
  exists g p, thread_module only_if [] = Some g /\ run_module true only_if p /\ ~ round_trip g 0 p.
Proof.
  assert (N : NoDup (module_vertices only_if)) by (now apply no_duplicates).
  split; [exact N|].
  exists [(0, 1); (1, 5); (5, 3); (3, 6); (6, 8); (8, 7); (7, 4); (4, 2); (2, 0)], [0; 1; 5; 3; 4; 2; 0].
  split; [reflexivity|]. split.
  - exists [1; 5; 3; 4; 2]. split; [reflexivity|].
    apply (run_to_end true [] 1 2 _ [5; 3; 4] false). change [5; 3; 4] with ([5; 3; 4] ++ []).
    apply run_some; [|constructor].
    apply (run_skip true [] 3 4 (Leaf 5) (Block 6 7 [Expression (Leaf 8)]) (Block 9 10 []) [5]); [constructor|reflexivity|reflexivity].
  - intros (P & _). simpl in P. destruct P as (_ & _ & _ & [P|[]] & _). discriminate P.
Qed.
Print Assumptions C67_no_else_refuted.

(** Exactly the scripts without while statement, in which every return statement belongs directly
    to a function and is not directly followed by a function definition, and which contain at most
    one call of every function of the script, are threaded.  For the others an assertion fails. *)
Theorem C67_accepted : forall m, NoDup (module_vertices m) ->
  ((exists g, thread_module m [] = Some g) <-> threadable m).
Proof.
  intros m N. split; [intros (g & E); now apply module_needs in E|]. now apply module_goes.
Qed.
Print Assumptions C67_accepted.

(** Threading the same tree a second time fails an assertion, whatever else has been linked. *)
Theorem C67_not_twice : forall m g h d, thread_module m g = Some h -> thread_module m (h ++ d) = None.
Proof. intros m g h d E. now apply (module_twice m g h). Qed.
Print Assumptions C67_not_twice.

(** [def f(a): if a: b = 1 else: b = 2; return b], and [c = f(3)]. *)
Definition script : tmodule :=
  Module_ 0 (Block 1 2
    [Definition_ 3 "f" [4] (Block 5 6
       [Choice 7 8 (Leaf 9) (Block 10 11 [Assignment 12 (Leaf 13) (Leaf 14)])
                            (Block 15 16 [Assignment 17 (Leaf 18) (Leaf 19)]);
        Return 20 (Some (Leaf 21))]);
     Assignment 22 (Leaf 23) (Call 24 "f" [Leaf 25])]).

Example C67_case : NoDup (module_vertices script) /\ all_else script = true /\ threadable script /\
  exists g, thread_module script [] = Some g /\
    round_trip g 0 [0; 1; 25; 24; 3; 4; 5; 9; 7; 15; 19; 18; 17; 16; 8; 21; 20; 6; 23; 22; 2; 0] /\
    thread_module script g = None.
Proof.
  split; [now apply no_duplicates|]. split; [reflexivity|]. split.
  - split; [reflexivity|]. split; [reflexivity|]. split; [reflexivity|]. now apply no_duplicates.
  - exists [(3, 4); (4, 5); (5, 9); (9, 7); (7, 10); (10, 14); (14, 13); (13, 12); (12, 11); (11, 8);
       (7, 15); (15, 19); (19, 18); (18, 17); (17, 16); (16, 8); (8, 21); (21, 20); (20, 6); (0, 1); (1, 25);
       (25, 24); (24, 3); (6, 23); (23, 22); (22, 2); (2, 0)].
    split; [vm_compute; reflexivity|]. split; [|vm_compute; reflexivity]. split.
    + cbv -[In]. repeat split; simpl; tauto.
    + exists [1; 25; 24; 3; 4; 5; 9; 7; 15; 19; 18; 17; 16; 8; 21; 20; 6; 23; 22; 2]. split; [reflexivity|].
      intros I. simpl in I. repeat (destruct I as [I|I]; [discriminate I|]). exact I.
Qed.

(** Scripts that are not threaded: [while 1: 2]; [def f(a): a], [f(1)], [f(2)]; a function that
    returns from within an if statement; a function defined behind a return statement.  A function
    that calls itself, or one defined after it, is threaded as if the callee were built in. *)
Definition body (l : list tstmt) : tmodule := Module_ 0 (Block 1 2 l).
Example C67_refused_cases :
  thread_module (body [Loop 3 (Leaf 4) (Block 5 6 [Expression (Leaf 7)]) (Block 8 9 [])]) [] = None /\
  thread_module (body [Definition_ 3 "f" [4] (Block 5 6 [Expression (Leaf 7)]);
     Expression (Call 8 "f" [Leaf 9]); Expression (Call 10 "f" [Leaf 11])]) [] = None /\
  thread_module (body [Definition_ 3 "f" [4] (Block 5 6
     [Choice 7 8 (Leaf 9) (Block 10 11 [Return 12 (Some (Leaf 13))]) (Block 14 15 []); Return 16 None])]) [] = None /\
  thread_module (body [Return 3 None]) [] = None /\
  thread_module (body [Definition_ 3 "f" [] (Block 4 5
     [Return 6 None; Definition_ 7 "g" [] (Block 8 9 [])])]) [] = None /\
  (exists g, thread_module (body [Definition_ 3 "f" [] (Block 4 5 [Expression (Call 6 "f" [])]);
     Expression (Call 7 "f" [])]) [] = Some g /\ successors g 6 = [5] /\ successors g 7 = [3]).
Proof.
  do 5 (split; [vm_compute; reflexivity|]).
  exists [(3, 4); (4, 6); (6, 5); (0, 1); (1, 7); (7, 3); (5, 2); (2, 0)].
  repeat split; vm_compute; reflexivity.
Qed.
