(** * Properties of messages: C89 *)
From Coq Require Import String Ascii ZArith List Bool Arith Lia.
From Verif Require Import StringModel MessageModel MessageSpec.
From Verif Require DecimalModel PrintSpec PrintProofs PrintUnique RefModel RefSpec ErrorProps AnnotateModel.
Import ListNotations.

(** Each message gets its own text around its arguments, which are inserted as they are (whatever
    characters they have), if it is given as many as it has room for; otherwise there is an exception *)
Theorem C89_format debug id arguments :
  format_message debug id arguments =
    if Nat.eqb (length arguments) (length (snd (frame id))) then Ok (filled (fst (frame id)) (snd (frame id)) arguments) else Throws.
Proof.
  destruct id; destruct arguments as [|a [|b [|c [|d [|e [|f l]]]]]]; reflexivity.
Qed.
Print Assumptions C89_format.

(** Different messages have different texts, whatever they are about *)
Theorem C89_distinct debug id id' arguments t :
  format_message debug id arguments = Ok t -> format_message debug id' arguments = Ok t -> id = id'.
Proof.
  rewrite !C89_format. intros E E'.
  destruct (Nat.eqb_spec (length arguments) (length (snd (frame id)))) as [L|]; [|discriminate].
  destruct (Nat.eqb_spec (length arguments) (length (snd (frame id')))) as [L'|]; [|discriminate].
  assert (T : filled (fst (frame id)) (snd (frame id)) arguments = filled (fst (frame id')) (snd (frame id')) arguments) by congruence.
  clear E E'. destruct id; destruct id'; try reflexivity; exfalso; rewrite L' in L; try discriminate L;
    destruct arguments as [|a [|b [|c [|d [|e [|f l]]]]]]; try discriminate L';
    cbn in T; first [discriminate T | apply (f_equal (@length ascii)) in T; cbn in T; rewrite !app_length in T; cbn in T; rewrite !app_length in T; cbn in T; rewrite ?app_length in T; cbn in T; rewrite ?app_length in T; cbn in T; lia].
Qed.
Print Assumptions C89_distinct.

(** Errors of files tell the file and what is wrong with it *)
Theorem C89_io debug source_name id arguments :
  length arguments = length (snd (frame id)) ->
  told debug (m <~ format_message debug id arguments ;; io_error source_name m) =
    Ok (lit "I/O error handling " ++ source_name ++ lit ": " ++ filled (fst (frame id)) (snd (frame id)) arguments).
Proof.
  intros L. rewrite C89_format, L, Nat.eqb_refl. unfold told, io_error, message. cbn [bind].
  change (s <~ message_text debug IO_ERROR ;; format s [source_name; filled (fst (frame id)) (snd (frame id)) arguments])
    with (format_message debug IO_ERROR [source_name; filled (fst (frame id)) (snd (frame id)) arguments]).
  rewrite C89_format. cbn [length frame snd fst Nat.eqb]. f_equal. cbn [filled]. rewrite app_nil_r. reflexivity.
Qed.
Print Assumptions C89_io.

Lemma parse_message debug source_name line col m :
  message debug (ParseError ERROR_PARSING source_name line col [] m) = Ok (parse_told source_name line col m).
Proof.
  change (format_message debug ERROR_PARSING [source_name; number line; number col; m] = Ok (parse_told source_name line col m)).
  rewrite C89_format. cbn [length frame snd fst Nat.eqb filled]. unfold parse_told, place, number. rewrite app_nil_r, <- !app_assoc. reflexivity.
Qed.
Lemma statement_message debug source_name line col statement m : statement <> [] ->
  message debug (ParseError ERROR_PARSING_STATEMENT source_name line col statement m) = Ok (statement_told source_name line col statement m).
Proof.
  intros N. unfold message. destruct statement as [|c0 t0]; [congruence|]. cbn [empty].
  change (format_message debug ERROR_PARSING_STATEMENT [source_name; number line; number col; c0 :: t0; m] = Ok (statement_told source_name line col (c0 :: t0) m)).
  rewrite C89_format. cbn [length frame snd fst Nat.eqb filled]. unfold statement_told, place, number. rewrite app_nil_r, <- !app_assoc. reflexivity.
Qed.
Lemma validate_message debug source_name line col m :
  message debug (ValidateError source_name line col m) = Ok (validate_told source_name line col m).
Proof.
  change (format_message debug ERROR_VALIDATING [source_name; number line; number col; m] = Ok (validate_told source_name line col m)).
  rewrite C89_format. cbn [length frame snd fst Nat.eqb filled]. unfold validate_told, place, number. rewrite app_nil_r, <- !app_assoc. reflexivity.
Qed.
Lemma check_full debug s : s <> [] -> check debug (negb (empty s)) = Ok tt.
Proof. destruct s; [congruence|]. intros _. unfold check. cbn. rewrite andb_false_r. reflexivity. Qed.

(** Whatever Python, in a script that it cannot parse, takes for a syntax error, is told with its place
    and the statement, unless there is no more of the statement than line feeds *)
Theorem C89_python debug strerror matches shown source s t v b outside message line column statement :
  RefSpec.counted (RefModel.py_objects s) (RefSpec.error_references s ++ outside) ->
  RefModel.indicator s = Some (Some t, Some v, b) -> matches t = true ->
  RefSpec.syntax_value (RefModel.py_objects s) v message line column statement -> source <> [] ->
  exists e s' m u w, RefModel.throw_exception debug matches shown source s = RefModel.Ok (e, s') /\
    RefSpec.up_to_zero message m /\ RefSpec.up_to_zero statement u /\ RefSpec.trimmed u w /\
    told debug (parse_exception debug strerror (Syntax e)) =
      match w with
      | [] => if debug then Abort else Throws
      | _ => Ok (statement_told source line column w m)
      end.
Proof.
  intros C I M V N. destruct (ErrorProps.C87_syntax debug matches shown source s t v b outside message line column statement C I M V)
    as (m & u & w & s' & E & Um & Uu & Tw & _).
  eexists _, s', m, u, w. split; [exact E|]. split; [exact Um|]. split; [exact Uu|]. split; [exact Tw|].
  unfold told, parse_exception. cbn [RefModel.error_source RefModel.error_line RefModel.error_column RefModel.error_statement RefModel.error_message need bind].
  unfold parse_error_statement. rewrite (check_full debug source N). cbn [bind].
  destruct w as [|c w].
  - destruct debug; reflexivity.
  - rewrite check_full by discriminate. cbn [bind]. apply statement_message. discriminate.
Qed.
Print Assumptions C89_python.

(** Any error without a source, line, column or message; those of Python that are no syntax errors are
    such (C87) *)
Theorem C89_missing debug strerror e :
  RefModel.error_source e = None \/ RefModel.error_line e = None \/ RefModel.error_column e = None \/ RefModel.error_message e = None ->
  told debug (parse_exception debug strerror (Syntax e)) = if debug then Abort else Undef.
Proof.
  intros H. unfold told, parse_exception.
  destruct (RefModel.error_source e), (RefModel.error_line e), (RefModel.error_column e), (RefModel.error_message e);
    destruct H as [H|[H|[H|H]]]; try discriminate; destruct debug; reflexivity.
Qed.
Print Assumptions C89_missing.
Theorem C89_other_refuted strerror matches shown source s t v b outside m :
  RefSpec.counted (RefModel.py_objects s) (RefSpec.error_references s ++ outside) ->
  RefModel.indicator s = Some (Some t, Some v, b) -> matches t = false -> RefSpec.is (RefModel.py_objects s) v (RefModel.Str m) ->
  exists e s', RefModel.throw_exception false matches shown source s = RefModel.Ok (e, s') /\
    told false (parse_exception false strerror (Syntax e)) = Undef.
Proof.
  intros C I M V. destruct (ErrorProps.C87_other matches shown source s t v b outside m C I M V) as (m' & s' & E & _).
  eexists _, s'. split; [exact E|]. apply (C89_missing false). left. reflexivity.
Qed.
Print Assumptions C89_other_refuted.

(** Unsupported constructs, and files that cannot be opened *)
Theorem C89_construct debug strerror source_name kind line col : source_name <> [] ->
  told debug (parse_exception debug strerror (Construct source_name kind line col)) =
    Ok (parse_told source_name line col (lit "Unsupported language construct: " ++ kind)).
Proof.
  intros N. unfold told, parse_exception. rewrite C89_format. cbn [length frame snd fst Nat.eqb filled bind].
  unfold parse_error. rewrite (check_full debug _ N). cbn [bind]. rewrite app_nil_r. apply parse_message.
Qed.
Print Assumptions C89_construct.
Theorem C89_open debug strerror filename errno :
  told debug (parse_exception debug strerror (Open filename errno)) = Ok (lit "I/O error handling " ++ filename ++ lit ": " ++ strerror errno).
Proof.
  unfold told, parse_exception, io_error. cbn [bind].
  change (format_message debug IO_ERROR [filename; strerror errno] = Ok (lit "I/O error handling " ++ filename ++ lit ": " ++ strerror errno)).
  rewrite C89_format. cbn [length frame snd fst Nat.eqb filled]. rewrite app_nil_r. reflexivity.
Qed.
Print Assumptions C89_open.

(** Errors in the document that is made of a script are told as errors in a string, with places in the
    document, also if the script has been read from a file *)
Theorem C89_xml_refuted debug strerror line col m :
  told debug (parse_exception debug strerror (xml_problem line col m)) = Ok (parse_told (lit "<string>") line col m).
Proof. unfold told. cbn [parse_exception xml_problem RefModel.error_source RefModel.error_line RefModel.error_column RefModel.error_statement RefModel.error_message need bind].
  unfold parse_error. rewrite check_full by discriminate. cbn [bind]. apply parse_message.
Qed.
Print Assumptions C89_xml_refuted.

(** Any problem a script can be rejected for (C57) is told with the place of its vertex *)
Theorem C89_validate debug position required provided p source_name : source_name <> [] ->
  told debug (validate_exception debug position required provided source_name p) =
    Ok (validate_told source_name (fst (position (vertex_of p))) (snd (position (vertex_of p))) (wrong required provided p)).
Proof.
  intros N. unfold told. destruct p; cbn [validate_exception]; rewrite C89_format; cbn [length frame snd fst Nat.eqb filled bind];
    unfold validate_error; rewrite (check_full debug _ N); cbn [bind]; rewrite validate_message; cbn [vertex_of wrong]; unfold words, number;
    rewrite ?app_nil_r; reflexivity.
Qed.
Print Assumptions C89_validate.

(** ** Places *)
Definition plain (c : ascii) : Prop := c <> ":"%char.
Lemma number_plain z : Forall plain (DecimalModel.show_int z).
Proof.
  eapply Forall_impl; [|apply PrintUnique.int_chars]. intros c [D| ->] E; [subst c|discriminate E].
  unfold PrintSpec.digit in D. vm_compute in D. destruct D as [_ D]. apply D. reflexivity.
Qed.
Lemma up_to_colon p p' x x' : Forall plain p -> Forall plain p' -> p ++ lit ":" ++ x = p' ++ lit ":" ++ x' -> p = p' /\ x = x'.
Proof.
  intros F F'. revert p' F'. induction F as [|c p C F IH]; intros p' F' E; destruct F' as [|c' p' C' F']; cbn in E.
  - injection E as ->. auto.
  - injection E as <- _. destruct C'. reflexivity.
  - injection E as -> _. destruct C. reflexivity.
  - injection E as -> E. destruct (IH p' F' E) as [-> ->]. auto.
Qed.
Lemma place_determined source_name line col line' col' x x' :
  place source_name line col ++ lit ":" ++ x = place source_name line' col' ++ lit ":" ++ x' -> line = line' /\ col = col' /\ x = x'.
Proof.
  unfold place. rewrite <- !app_assoc. intros E. apply app_inv_head in E. apply app_inv_head in E.
  apply up_to_colon in E; [|apply number_plain..]. destruct E as [A E].
  apply up_to_colon in E; [|apply number_plain..]. destruct E as [B E].
  split; [apply PrintUnique.show_int_injective, A|]. split; [apply PrintUnique.show_int_injective, B|exact E].
Qed.

(** For the same source, equal texts tell the same place, and what is wrong in the same words *)
Theorem C89_place source_name line col line' col' m m' :
  (parse_told source_name line col m = parse_told source_name line' col' m' -> line = line' /\ col = col' /\ m = m') /\
  (validate_told source_name line col m = validate_told source_name line' col' m' -> line = line' /\ col = col' /\ m = m') /\
  (forall statement statement', statement_told source_name line col statement m = statement_told source_name line' col' statement' m' ->
     line = line' /\ col = col').
Proof.
  unfold parse_told, validate_told, statement_told. split; [|split].
  - intros E. apply app_inv_head in E. apply (place_determined source_name line col line' col' (" "%char :: m) (" "%char :: m')) in E.
    destruct E as (A & B & E). injection E as E. auto.
  - intros E. apply (place_determined source_name line col line' col' (" "%char :: m) (" "%char :: m')) in E.
    destruct E as (A & B & E). injection E as E. auto.
  - intros statement statement' E. apply app_inv_head in E.
    apply (place_determined source_name line col line' col' (statement ++ lit ": " ++ m) (statement' ++ lit ": " ++ m')) in E. tauto.
Qed.
Print Assumptions C89_place.

(** A file with percent signs in its name *)
Example C89_case : told true (m <~ format_message true DOES_NOT_CONTAIN_VARIABLE [lit "%2%"] ;; io_error (lit "a%1%.nc") m) =
  Ok (lit "I/O error handling a%1%.nc: Does not contain variable: %2%").
Proof. reflexivity. Qed.

(** A script with an undefined name *)
Definition undefined_script : list (AstModel.stmt nat) := [AstModel.Expr (AstModel.Name 3 "b")].
Definition undefined_annotation : AnnotateModel.annot :=
  AnnotateModel.Build_annot [] [] (fun _ => [FlagModel.default_expression_type]) (fun _ => None).
Example C89_validate_case :
  AnnotateModel.validate_module undefined_annotation undefined_script = AnnotateModel.Rejected (AnnotateModel.UndefinedIdentifier "b" 3) /\
  told true (validate_exception true (fun _ => (2, 7)%Z) (fun _ _ => []) (fun _ _ => []) (lit "<string>") (AnnotateModel.UndefinedIdentifier "b" 3)) =
    Ok (lit "<string>:2:7: Undefined identifier: b").
Proof. split; reflexivity. Qed.

(** The syntax error of C87, with a statement, and with one that has no more than a line feed: debug
    builds abort, and release builds throw another exception when the message is asked for *)
Definition told_of (debug : bool) (statement : text) : res text :=
  match RefModel.throw_exception debug ErrorProps.first_type (fun _ => []) (lit "<string>")
    (ErrorProps.syntax_state (RefModel.Int 4) (RefModel.Str statement)) with
  | RefModel.Ok (e, _) => told debug (parse_exception debug (fun _ => []) (Syntax e))
  | _ => Undef
  end.
Theorem C89_empty_refuted :
  RefSpec.counted (RefModel.py_objects (ErrorProps.syntax_state (RefModel.Int 4) (RefModel.Str ["010"%char])))
    (RefSpec.error_references (ErrorProps.syntax_state (RefModel.Int 4) (RefModel.Str ["010"%char])) ++ [0]) /\
  (told_of true ["010"%char] = Abort) /\ told_of false ["010"%char] = Throws /\
  forall debug, told_of debug (lit "a b" ++ ["010"%char]) = Ok (lit "Error parsing <string>:2:4:a b: invalid syntax").
Proof. split; [apply ErrorProps.syntax_counted; reflexivity|]. split; [vm_compute; reflexivity|]. split; [vm_compute; reflexivity|]. intros []; vm_compute; reflexivity. Qed.
Print Assumptions C89_empty_refuted.
