(** * Properties of errors in scripts, as Python reports them: C87 *)
From Coq Require Import String ZArith List Bool Arith Lia Permutation Ascii.
From Verif Require Import StringModel StringSpec StringProofs StringProps RefModel RefSpec RefProofs ErrorProofs.
From Verif Require ScriptModel.
Import ListNotations.

Lemma strip_trimmed s : trimmed s (strip s [ascii_of_nat 10]).
Proof.
  destruct (C54_strip s [ascii_of_nat 10]) as (_ & _ & _ & _ & (a & b & E & H) & B & F).
  exists a, b. split; [exact E|]. repeat split.
  - intros c I. assert (K : separators [ascii_of_nat 10] c).
    { apply in_app_or in I. destruct H as [H1 H2]. destruct I as [I|I]; [apply H1|apply H2]; exact I. }
    destruct K as [[_ [<-|[]]]|[K _]]; [reflexivity|discriminate].
  - intros u K. apply (B _ _ K). left. split; [discriminate|left; reflexivity].
  - intros u K. apply (F _ _ K). left. split; [discriminate|left; reflexivity].
Qed.

Section Errors.
Variables (debug : bool) (matches : nat -> bool) (shown : option nat -> text) (source : text).

Lemma exception_runs s t v b outside (e : parse_error) (Q : python -> Prop) :
  counted (py_objects s) (error_references s ++ outside) -> indicator s = Some (Some t, Some v, b) ->
  matches t = true ->
  (forall s0, py_objects s0 = py_objects s -> indicator s0 = None -> failed s0 = false ->
     exists s1, throw_syntax_error debug source (Some v) s0 = Ok (e, s1) /\
       counted (py_objects s1) (error_references s ++ outside) /\ evolves (py_objects s) (py_objects s1) /\ orderly (py_objects s) (py_objects s1) /\
       indicator s1 = None /\ Q s1) ->
  (forall a c, failed a = failed c -> Q a -> Q c) ->
  exists s', throw_exception debug matches shown source s = Ok (e, s') /\ counted (py_objects s') outside /\
    evolves (py_objects s) (py_objects s') /\ indicator s' = None /\ Q s'.
Proof.
  intros C E M R K. unfold throw_exception.
  assert (O : occurred s = true) by (unfold occurred; rewrite E, orb_true_r; reflexivity).
  rewrite (check_runs debug _ (fun _ => O)). cbn [bind]. rewrite E. cbn [store default_reference bind].
  rewrite (check_runs debug true (fun _ => eq_refl)). cbn [bind]. rewrite M.
  destruct (R (Python (py_objects s) None false) eq_refl eq_refl eq_refl) as (s1 & T & C1 & V1 & O1 & N1 & Q1).
  unfold error_references in C1. rewrite E in C1. rewrite <- !app_assoc in C1.
  assert (C2 : counted (py_objects s1) (pointee b ++ pointee (Some v) ++ pointee (Some t) ++ outside)).
  { eapply counted_number; [|exact C1]. intros i. rewrite !number_app. lia. }
  destruct (scoped_runs debug _ _ b _ e s1 T C2 V1 O1) as (t1 & T1 & D1 & U1 & W1 & M1 & L1).
  destruct (scoped_runs debug _ _ (Some v) _ e t1 T1 D1 U1 W1) as (t2 & T2 & D2 & U2 & W2 & M2 & L2).
  destruct (scoped_runs debug _ _ (Some t) _ e t2 T2 D2 U2 W2) as (t3 & T3 & D3 & U3 & W3 & M3 & L3).
  exists t3. split; [exact T3|]. split; [exact D3|]. split; [exact U3|]. split; [congruence|].
  apply (K s1); [congruence|exact Q1].
Qed.
End Errors.

(** A syntax error in a script, as Python describes it, becomes an exception that tells the source,
    the line, the column, the statement and what is wrong.  The error is not set any more, its
    references are dropped, all others are kept. *)
Theorem C87_syntax debug matches shown source s t v b outside message line column statement :
  counted (py_objects s) (error_references s ++ outside) -> indicator s = Some (Some t, Some v, b) -> matches t = true ->
  syntax_value (py_objects s) v message line column statement ->
  exists m u w s', throw_exception debug matches shown source s =
      Ok (ParseError (Some source) (Some line) (Some column) (Some w) (Some m), s') /\
    up_to_zero message m /\ up_to_zero statement u /\ trimmed u w /\
    occurred s' = false /\ counted (py_objects s') outside /\ (forall i x, is (py_objects s') i x -> is (py_objects s) i x).
Proof.
  intros C E M (im & id & is0 & il & ic & it & Iv & Im & Id & Il & Ic & It).
  destruct (exception_runs debug matches shown source s t v b outside
    (ParseError (Some source) (Some line) (Some column) (Some (strip (ScriptModel.c_string statement) [ascii_of_nat 10])) (Some (ScriptModel.c_string message)))
    (fun s' => failed s' = false) C E M) as (s' & T & C' & V & N & F).
  - intros s0 P N0 F0.
    destruct (syntax_runs debug (py_objects s) source v s0 (error_references s ++ outside) im id is0 il ic it message (Int line) (Int column) statement) as (s1 & T & C1 & V1 & O1 & N1 & F1);
      rewrite ?P; auto using evolves_refl, orderly_refl. { intros _; split; exact I. }
    exists s1. auto 10.
  - intros a c. congruence.
  - eexists _, _, _, s'. split; [exact T|]. split; [apply c_string_up_to|]. split; [apply c_string_up_to|]. split; [apply strip_trimmed|].
    split. { unfold occurred. rewrite N, F. reflexivity. } split; [exact C'|]. intros i x (n & K). destruct V as [_ V]. eauto.
Qed.
Print Assumptions C87_syntax.

(** Whatever other error is set, or none: debug builds abort *)
Theorem C87_debug matches shown source s outside :
  counted (py_objects s) (error_references s ++ outside) ->
  ~ (exists t v b message line column statement, indicator s = Some (Some t, Some v, b) /\ matches t = true /\
       syntax_value (py_objects s) v message line column statement) ->
  throw_exception true matches shown source s = Abort.
Proof.
  intros C N. unfold throw_exception.
  destruct (occurred s) eqn:O; [|reflexivity]. cbn [check bind].
  destruct (indicator s) as [[[t v] b]|] eqn:E; [|reflexivity].
  cbn [store default_reference bind]. destruct t as [t|]; [|reflexivity]. cbn [check bind].
  destruct (matches t) eqn:M; [|reflexivity].
  pose proof (syntax_walk true source v (Python (py_objects s) None false) (error_references s ++ outside) C) as W.
  cbn [py_objects indicator] in W. assert (I : forall i, v = Some i -> In i (error_references s ++ outside)).
  { intros i ->. unfold error_references. rewrite E. cbn. right. left. reflexivity. }
  specialize (W I eq_refl).
  destruct (throw_syntax_error true source v (Python (py_objects s) None false)) as [[e s1]| |]; cbn [holds] in W; [|reflexivity|discriminate].
  exfalso. apply N. destruct W as [W _]. destruct (W eq_refl) as (i & message & line & column & statement & -> & S).
  exists t, i, b, message, line, column, statement. auto.
Qed.
Print Assumptions C87_debug.

(** Whenever an exception is thrown, in debug and release builds and whatever error was set: the
    references of the error are dropped and all others are kept *)
Theorem C87_counts debug matches shown source s outside e s' :
  counted (py_objects s) (error_references s ++ outside) ->
  throw_exception debug matches shown source s = Ok (e, s') ->
  counted (py_objects s') outside /\ indicator s' = None.
Proof.
  intros C. unfold throw_exception. destruct (check debug (Ok (occurred s))); try discriminate. cbn [bind].
  set (r := match indicator s with Some e => e | None => (None, None, None) end).
  assert (C0 : counted (py_objects s) (pointee (snd r) ++ pointee (snd (fst r)) ++ pointee (fst (fst r)) ++ outside)).
  { eapply counted_number; [|exact C]. intros i. unfold error_references, r. destruct (indicator s) as [[[t v] b]|]; cbn [fst snd].
    - rewrite !number_app. lia.
    - reflexivity. }
  destruct r as [[t v] b]. cbn [fst snd] in C0. cbn [store default_reference bind].
  intros R.
  assert (H : holds True (fun x : parse_error * python => True /\ counted (py_objects (snd x)) outside /\ indicator (snd x) = None)
    (Ok (e, s'))).
  { rewrite <- R. apply (scoped_holds' debug True (fun _ => True)), (scoped_holds' debug True (fun _ => True)), (scoped_holds' debug True (fun _ => True)).
    destruct (check debug (Ok match t with Some _ => true | None => false end)); cbn [bind holds]; auto.
    set (s0 := Python (py_objects s) None false).
    assert (I : forall i, v = Some i -> In i (pointee b ++ pointee v ++ pointee t ++ outside)).
    { intros i ->. apply in_or_app. right. left. reflexivity. }
    destruct (match t with Some i => matches i | None => false end).
    - pose proof (syntax_walk debug source v s0 _ C0 I eq_refl) as W.
      destruct (throw_syntax_error debug source v s0) as [[e1 s1]| |]; cbn [holds] in *; auto. tauto.
    - destruct (check debug (Ok false)); cbn [bind holds]; auto. unfold throw_error.
      assert (S : forall p : res (option nat * python), (forall o s1, p = Ok (o, s1) ->
          counted (py_objects s1) (pointee o ++ pointee b ++ pointee v ++ pointee t ++ outside) /\ indicator s1 = None) ->
        holds True (fun x : parse_error * python => True /\ counted (py_objects (snd x)) (pointee b ++ pointee v ++ pointee t ++ outside) /\ indicator (snd x) = None)
          (bind p (fun d => scoped debug (reference_to (fst d)) (bind (as_unicode_string debug (fst d) (snd d)) (fun description =>
            Ok (ParseError None None None None (Some description), snd d)))))).
      { intros [[o s1]| |] Hp; cbn [bind holds]; auto. cbn [fst snd]. apply (scoped_holds' debug True (fun _ => True)).
        destruct (as_unicode_string debug o s1); cbn [bind holds fst snd]; auto. }
      apply S. intros o s1 P. unfold object_str in P. destruct v as [i|].
      + unfold look in P. destruct (nth_error (py_objects s0) i) as [[|n x]|]; cbn [bind] in P; try discriminate.
        destruct x; try (injection P as <- <-; split; [apply fresh_counts; auto|reflexivity]).
        destruct (incref (py_objects s0) i) as [h'| |] eqn:Q; cbn [bind] in P; try discriminate. injection P as <- <-.
        split; [|reflexivity]. destruct (incref_counts _ _ _ _ C0 Q) as [K _]. exact K.
      + injection P as <- <-. split; [apply (fresh_counts _ _ (Str (shown None))); auto|reflexivity]. }
  cbn [holds snd] in H. tauto.
Qed.
Print Assumptions C87_counts.

(** Release builds take a column, or line, that is not a number for -1, and leave an error set *)
Theorem C87_column matches shown source s t v b outside im id is0 il ic it message line x statement :
  counted (py_objects s) (error_references s ++ outside) -> indicator s = Some (Some t, Some v, b) -> matches t = true ->
  is (py_objects s) v (Tuple [im; id]) -> is (py_objects s) im (Str message) -> is (py_objects s) id (Tuple [is0; il; ic; it]) ->
  is (py_objects s) il (Int line) -> is (py_objects s) ic x -> (forall z, x <> Int z) -> is (py_objects s) it (Str statement) ->
  exists m w s', throw_exception false matches shown source s =
      Ok (ParseError (Some source) (Some line) (Some (-1)%Z) (Some w) (Some m), s') /\ occurred s' = true.
Proof.
  intros C E M Iv Im Id Il Ic X It.
  assert (Nx : number_of x = ((-1)%Z, true)) by (destruct x; try reflexivity; exfalso; eapply X; reflexivity).
  destruct (exception_runs false matches shown source s t v b outside
    (ParseError (Some source) (Some line) (Some (-1)%Z) (Some (strip (ScriptModel.c_string statement) [ascii_of_nat 10])) (Some (ScriptModel.c_string message)))
    (fun s' => failed s' = true) C E M) as (s' & T & C' & V & N & F).
  - intros s0 P N0 F0.
    destruct (syntax_runs false (py_objects s) source v s0 (error_references s ++ outside) im id is0 il ic it message (Int line) x statement) as (s1 & T & C1 & V1 & O1 & N1 & F1);
      rewrite ?P; auto using evolves_refl, orderly_refl. { discriminate. }
    rewrite Nx in T, F1. exists s1. auto 10.
  - intros a c. congruence.
  - eexists _, _, s'. split; [exact T|]. unfold occurred. rewrite F. reflexivity.
Qed.
Print Assumptions C87_column.

(** Other errors, in release builds: only the message is told *)
Theorem C87_other matches shown source s t v b outside message :
  counted (py_objects s) (error_references s ++ outside) -> indicator s = Some (Some t, Some v, b) -> matches t = false ->
  is (py_objects s) v (Str message) ->
  exists m s', throw_exception false matches shown source s = Ok (ParseError None None None None (Some m), s') /\ up_to_zero message m.
Proof.
  intros C E M I. unfold throw_exception. cbn [check bind]. rewrite E. cbn [store default_reference bind check]. rewrite M.
  assert (C0 : counted (py_objects s) (pointee b ++ pointee (Some v) ++ pointee (Some t) ++ outside)).
  { eapply counted_number; [|exact C]. intros i. unfold error_references. rewrite E. rewrite !number_app. lia. }
  unfold throw_error, object_str. set (s0 := Python (py_objects s) None false).
  rewrite (look_alive s0 v (Str message) I). cbn [bind].
  destruct (incref_alive (py_objects s0) v) as (h' & Q). { destruct I as (n & I). exists n, (Str message). exact I. }
  rewrite Q. cbn [bind fst snd reference_to]. destruct (incref_counts _ _ _ _ C0 Q) as [C1 G].
  destruct (incref_counted (py_objects s) _ _ v C0 (let (n, K) := I in ex_intro _ n (ex_intro _ _ K)) (evolves_refl _) (orderly_refl _)) as (h1 & Q1 & _ & V1 & O1).
  assert (h1 = h') as -> by (cbn [py_objects s0] in Q; congruence).
  rewrite (text_runs false (with_objects h' s0) v message) by (apply G; exact I). cbn [bind].
  destruct (scoped_runs false _ _ (Some v) _ (ParseError None None None None (Some (ScriptModel.c_string message))) (with_objects h' s0) eq_refl C1 V1 O1) as (t0 & T0 & D0 & U0 & W0 & _).
  destruct (scoped_runs false _ _ b _ _ t0 T0 D0 U0 W0) as (t1 & T1 & D1 & U1 & W1 & _).
  destruct (scoped_runs false _ _ (Some v) _ _ t1 T1 D1 U1 W1) as (t2 & T2 & D2 & U2 & W2 & _).
  destruct (scoped_runs false _ _ (Some t) _ _ t2 T2 D2 U2 W2) as (t3 & T3 & D3 & U3 & W3 & _).
  eexists _, t3. split; [exact T3|apply c_string_up_to].
Qed.
Print Assumptions C87_other.

(** "invalid syntax" in the second line, at the fifth character of "a = b c" *)
Definition syntax_heap (column : object) (statement : object) : heap :=
  [Live 2 Other; Live 1 (Tuple [2; 3]); Live 1 (Str (lit "invalid syntax")); Live 1 (Tuple [4; 5; 6; 7]); Live 1 (Str []);
   Live 1 (Int 2); Live 1 column; Live 1 statement].
Definition syntax_state (column statement : object) : python := Python (syntax_heap column statement) (Some (Some 0, Some 1, None)) false.
Definition a_statement : object := Str (lit "a = b c" ++ [ascii_of_nat 10]).
Definition first_type (i : nat) : bool := Nat.eqb i 0.

Lemma syntax_counted column statement : items column = [] -> items statement = [] ->
  counted (syntax_heap column statement) ([0; 1] ++ [0]).
Proof.
  intros A B. intros i. unfold references, syntax_heap. cbn [flat_map cell_items items]. rewrite A, B. cbn [app].
  do 8 (destruct i as [|i]; [cbn; auto; lia|]). destruct i; reflexivity.
Qed.

Example C87_case : exists s', throw_exception true first_type (fun _ => []) (lit "<string>") (syntax_state (Int 7) a_statement) =
    Ok (ParseError (Some (lit "<string>")) (Some 2%Z) (Some 7%Z) (Some (lit "a = b c")) (Some (lit "invalid syntax")), s') /\
  py_objects s' = [Live 1 Other; Freed; Freed; Freed; Freed; Freed; Freed; Freed].
Proof. eexists. split; vm_compute; reflexivity. Qed.
Example C87_case_value : syntax_value (syntax_heap (Int 7) a_statement) 1 (lit "invalid syntax") 2 7 (lit "a = b c" ++ [ascii_of_nat 10]).
Proof. exists 2, 3, 4, 5, 6, 7. repeat split; eexists; reflexivity. Qed.

(** A syntax error whose column and statement are not given ([None]), as Python makes of a script it can
    parse but that is no valid program: debug builds abort, and the behaviour of release builds is not
    defined *)
Theorem C87_none_refuted : counted (py_objects (syntax_state NoneObject NoneObject)) (error_references (syntax_state NoneObject NoneObject) ++ [0]) /\
  (forall shown source, throw_exception true first_type shown source (syntax_state NoneObject NoneObject) = Abort /\
     throw_exception false first_type shown source (syntax_state NoneObject NoneObject) = Undef).
Proof. split; [apply syntax_counted; reflexivity|]. intros shown source. split; vm_compute; reflexivity. Qed.
Print Assumptions C87_none_refuted.
