(** * Documents of UncertML: which distributions they give, and which are refused *)
From Coq Require Import String Ascii List Bool Arith Lia.
From Verif Require Import StringModel XmlModel XmlProofs UncertModel UncertSpec UncertProofs.
Import ListNotations.

(** In debug builds a document gives a distribution exactly if it describes one: with one mean and one
    variance, which is positive.  The distribution has that mean and the square root of that variance. *)
Theorem C93_debug {D} read_double (sqrt : D -> D) positive nonnegative t mean sd :
  (forall d, positive d = true -> nonnegative d = true) ->
  parse D read_double sqrt positive nonnegative true t = Distribution mean sd <->
  exists variance, describes read_double t [mean] [variance] /\ positive variance = true /\ sd = sqrt variance.
Proof.
  intros PN. split.
  - destruct (describes_cases D read_double sqrt positive nonnegative t) as [(m & v & H & _)|[N _]].
    + rewrite (describes_debug _ _ _ _ _ _ _ _ H). destruct (forallb positive v) eqn:P; [|discriminate].
      unfold post. cbn [andb]. destruct m as [|m [|m' ms]]; try discriminate; destruct v as [|v [|v' vs]]; try discriminate.
      cbn [length Nat.eqb andb forallb]. destruct (nonnegative v); [|discriminate]. cbn. intros [= <- <-].
      cbn in P. rewrite andb_true_r in P. eauto.
    + destruct (not_described_debug D read_double sqrt positive nonnegative t N) as [->| ->]; discriminate.
  - intros (v & H & P & ->). rewrite (describes_debug _ _ _ _ _ _ _ _ H). cbn [forallb]. rewrite P.
    unfold post. cbn [length Nat.eqb andb forallb]. rewrite (PN v P). reflexivity.
Qed.
Print Assumptions C93_debug.

(** Release builds give a distribution exactly if the document has a mean and a variance, and take the first of each. *)
Theorem C93_release {D} read_double (sqrt : D -> D) positive nonnegative t mean sd :
  parse D read_double sqrt positive nonnegative false t = Distribution mean sd <->
  exists variance means variances, describes read_double t (mean :: means) (variance :: variances) /\ sd = sqrt variance.
Proof.
  destruct (describes_cases D read_double sqrt positive nonnegative t) as [(m & v & H & ->)|[N ->]].
  - unfold post. cbn [andb]. split.
    + destruct m as [|m ms]; [discriminate|]. destruct v as [|v vs]; [discriminate|]. intros [= <- <-]. eauto.
    + intros (v' & ms & vs & H' & ->). destruct (describes_unique _ _ positive _ _ _ _ _ H H') as [-> ->]. reflexivity.
  - split; [discriminate|]. intros (v' & ms & vs & H' & _). exfalso. eapply N. exact H'.
Qed.
Print Assumptions C93_release.

(** An error is thrown exactly (in release builds), or only (in debug builds), if a text does not describe anything: it is no document, it
    describes something else, or it has texts that are no numbers. *)
Theorem C93_errors {D} read_double (sqrt : D -> D) positive nonnegative t :
  (parse D read_double sqrt positive nonnegative false t = Throws <-> forall m v, ~ describes read_double t m v) /\
  (parse D read_double sqrt positive nonnegative true t = Throws -> forall m v, ~ describes read_double t m v) /\
  ((forall m v, ~ describes read_double t m v) ->
     parse D read_double sqrt positive nonnegative true t = Throws \/ parse D read_double sqrt positive nonnegative true t = Aborts).
Proof.
  split; [|split].
  - destruct (describes_cases D read_double sqrt positive nonnegative t) as [(m & v & H & ->)|[N ->]].
    + split; [|intros N; exfalso; eapply N; exact H]. unfold post. cbn [andb]. destruct m, v; discriminate.
    + tauto.
  - intros T m v H. rewrite (describes_debug _ _ _ _ _ _ _ _ H) in T. destruct (forallb positive v); [|discriminate].
    unfold post in T. destruct (true && _); [discriminate|]. destruct m, v; discriminate.
  - apply not_described_debug.
Qed.
Print Assumptions C93_errors.

(** Documents the schema allows but the parser does not: no mean or no variance is undefined behaviour in release
    builds, and more of them than one are left out silently; debug builds abort for both. *)
Theorem C93_number_refuted {D} read_double (sqrt : D -> D) positive nonnegative t means variances :
  describes read_double t means variances -> length means <> 1 \/ length variances <> 1 ->
  parse D read_double sqrt positive nonnegative true t = Aborts /\
  (means = [] \/ variances = [] -> parse D read_double sqrt positive nonnegative false t = Undefined) /\
  (forall m ms v vs, means = m :: ms -> variances = v :: vs ->
     parse D read_double sqrt positive nonnegative false t = Distribution m (sqrt v)).
Proof.
  intros H L. split; [|split].
  - rewrite (describes_debug _ _ _ _ _ _ _ _ H). destruct (forallb positive variances); [|reflexivity]. unfold post. cbn [andb].
    destruct (Nat.eqb_spec (length means) 1) as [E|E]; [|reflexivity]. destruct (Nat.eqb_spec (length variances) 1) as [E'|E']; [|reflexivity].
    destruct L; contradiction.
  - intros X. destruct (describes_cases D read_double sqrt positive nonnegative t) as [(m & v & H' & ->)|[N _]]; [|exfalso; eapply N; exact H].
    destruct (describes_unique _ _ positive _ _ _ _ _ H H') as [<- <-]. unfold post. cbn [andb]. destruct X as [-> | ->]; [reflexivity|].
    destruct means; reflexivity.
  - intros m ms v vs -> ->. apply C93_release. eauto.
Qed.
Print Assumptions C93_number_refuted.

(** A variance that is not positive is not told: debug builds abort (for zero as well, for which distributions exist), and
    release builds give a distribution with the square root of what is not positive. *)
Theorem C93_variance_refuted {D} read_double (sqrt : D -> D) positive nonnegative t mean variance :
  describes read_double t [mean] [variance] -> positive variance = false ->
  parse D read_double sqrt positive nonnegative true t = Aborts /\
  parse D read_double sqrt positive nonnegative false t = Distribution mean (sqrt variance).
Proof.
  intros H P. split.
  - rewrite (describes_debug _ _ _ _ _ _ _ _ H). cbn [forallb]. rewrite P. reflexivity.
  - apply C93_release. eauto.
Qed.
Print Assumptions C93_variance_refuted.

(** ** Texts *)
Lemma number_chars t : number_text t -> word t /\ data_text t.
Proof.
  intros [N F]. assert (F' : Forall (fun c => ~ In c [" "; "009"; "010"; "013"]%char /\ data_char c /\ c <> "]"%char) t).
  { eapply Forall_impl; [|exact F]. intros c C. change (In c (map (fun c => c) (lit "0123456789.+-eE"))) in C. cbn in C.
    repeat destruct C as [<-|C]; [..|destruct C];
      (split; [cbn; intuition discriminate|split; [repeat split; discriminate|discriminate]]). }
  split; [split; [exact N|]|split].
  - eapply Forall_impl; [|exact F']. intros c H. apply H.
  - eapply Forall_impl; [|exact F']. intros c H. apply H.
  - intros a b E. rewrite Forall_forall in F'. destruct (F' "]"%char) as (_ & _ & X); [|congruence].
    rewrite E. apply in_or_app. right. left. reflexivity.
Qed.
Lemma prefixed p l : prefix_text p -> Forall (fun c => name_char c = true) l -> xml_name (p ++ ":"%char :: l) = true.
Proof.
  intros [X _] F. unfold xml_name in *. destruct p as [|c p]; [discriminate|]. cbn [app]. apply andb_prop in X as [A B].
  rewrite A. cbn [andb]. rewrite forallb_app, B. cbn [andb forallb]. apply forallb_forall. rewrite Forall_forall in F. exact F.
Qed.

(** For every prefix and all texts of numbers, the document with these describes what the numbers are. *)
Theorem C93_text {D} (read_double : text -> option D) p m v mean variance :
  prefix_text p -> number_text m -> number_text v -> read_double m = Some mean -> read_double v = Some variance ->
  describes read_double (document_text p m v) [mean] [variance].
Proof.
  intros P M V Rm Rv. pose proof (number_chars m M) as [Wm Dm]. pose proof (number_chars v V) as [Wv Dv].
  set (uri := lit "http://www.uncertml.org/2.0").
  set (xm := Element (p ++ lit ":mean") [] [Chars m]). set (xv := Element (p ++ lit ":variance") [] [Chars v]).
  set (x := Element (p ++ lit ":NormalDistribution") [(lit "xmlns:" ++ p, uri)] [xm; xv]).
  assert (E : document_text p m v = declaration ++ show x).
  { unfold document_text, x, xm, xv. cbn [show flat_map app]. unfold show_attributes. cbn [flat_map]. unfold show_attribute. cbn [fst snd].
    replace (esc uri) with uri by reflexivity.
    change (lit ":NormalDistribution xmlns:") with (lit ":NormalDistribution" ++ lit " xmlns:").
    change (lit "=""http://www.uncertml.org/2.0"">") with (lit "=""" ++ uri ++ [""""%char] ++ lit ">").
    change (lit ":mean>") with (lit ":mean" ++ lit ">"). change (lit ":variance>") with (lit ":variance" ++ lit ">").
    change (lit ":NormalDistribution>") with (lit ":NormalDistribution" ++ lit ">").
    change (lit "<?xml version=""1.0""?>") with declaration.
    rewrite <- !app_assoc. f_equal. cbn [app lit list_ascii_of_string]. do 4 (rewrite <- ?app_assoc; cbn [app]). rewrite ?app_nil_r. do 2 (rewrite <- ?app_assoc; cbn [app]). reflexivity. }
  assert (NM : Forall (fun c => name_char c = true) (lit "mean")) by (repeat constructor).
  assert (NV : Forall (fun c => name_char c = true) (lit "variance")) by (repeat constructor).
  assert (NN : Forall (fun c => name_char c = true) (lit "NormalDistribution")) by (repeat constructor).
  assert (G : good x).
  { apply G_elements.
    - apply (prefixed p (lit "NormalDistribution") P NN).
    - constructor; [|constructor]. split; cbn [fst snd].
      + destruct P as [X _]. apply xml_name_chars in X. rewrite Forall_forall in X.
        unfold xml_name. cbn [app lit list_ascii_of_string]. cbn. apply forallb_forall. exact X.
      + unfold uri, value_char. vm_compute. repeat constructor.
    - constructor; [|constructor; [|constructor]].
      + apply G_text; [apply (prefixed p (lit "mean") P NM)|constructor|apply M|exact Dm].
      + apply G_text; [apply (prefixed p (lit "variance") P NV)|constructor|apply V|exact Dv]. }
  assert (ST : stands_for [(p, uri)] p uri) by (exists [], []; split; [reflexivity|intros []]).
  assert (NI : forall l, plain l -> name_is (p ++ ":"%char :: l) p l) by (intros l _; left; split; [apply P|reflexivity]).
  assert (PL : forall s, forallb (fun c => negb (Ascii.eqb c ":"%char)) (lit s) = true -> plain (lit s)).
  { intros s H I. rewrite forallb_forall in H. specialize (H _ I). rewrite Ascii.eqb_refl in H. discriminate. }
  exists x, [m], [v]. split; [rewrite E; apply document_good; exact G|]. split; [|auto].
  exists (p ++ lit ":NormalDistribution"), [(lit "xmlns:" ++ p, uri)], [(p, uri)], [], xm, [], xv, [].
  split; [reflexivity|]. split; [constructor; [right; reflexivity|constructor]|].
  split; [exists p; split; [apply (NI (lit "NormalDistribution")); apply PL; reflexivity|exact ST]|].
  split; [constructor; [left; exists p; right; reflexivity|constructor]|].
  split; [constructor|]. split; [constructor|]. split; [constructor|]. split.
  - exists (p ++ lit ":mean"), [], [], [m]. split; [reflexivity|]. split; [constructor|].
    split; [exists p; split; [apply (NI (lit "mean")); apply PL; reflexivity|exact ST]|]. split; [constructor|].
    cbn [concat]. rewrite app_nil_r. apply (W_last []); [constructor|exact Wm].
  - exists (p ++ lit ":variance"), [], [], [v]. split; [reflexivity|]. split; [constructor|].
    split; [exists p; split; [apply (NI (lit "variance")); apply PL; reflexivity|exact ST]|]. split; [constructor|].
    cbn [concat]. rewrite app_nil_r. apply (W_last []); [constructor|exact Wv].
Qed.
Print Assumptions C93_text.

(** ** Cases *)

(** Numbers are whole here, with the text of their digits *)
Definition digits_of (t : text) : option nat :=
  fold_left (fun n c => match n with Some n => if digit c then Some (10 * n + (nat_of_ascii c - 48)) else None | None => None end) t (Some 0).
Definition parse_whole := parse nat digits_of Nat.sqrt (fun d => Nat.ltb 0 d) (fun _ => true).
Definition example (means variances : string) : text :=
  lit "<?xml version=""1.0""?><NormalDistribution xmlns=""http://www.uncertml.org/2.0""> <mean href=""a"">" ++ lit means ++
  lit "</mean><u:variance xmlns:u=""http://www.uncertml.org/2.0"">" ++ lit variances ++ lit "</u:variance> </NormalDistribution>".
Example C93_case :
  parse_whole true (example "3" " 25 ") = Distribution 3 5 /\ parse_whole true (document_text (lit "un") (lit "3") (lit "16")) = Distribution 3 4 /\
  parse_whole true (example "3 4" "25") = Aborts /\ parse_whole false (example "3 4" "25") = Distribution 3 5 /\
  parse_whole false (example "" "25") = Undefined /\ parse_whole true (example "3" "0") = Aborts /\ parse_whole false (example "3" "0") = Distribution 3 0 /\
  parse_whole true (example "3" "x") = Throws /\ parse_whole true (example "3" "0 x") = Aborts /\ parse_whole true (lit "abc") = Throws.
Proof. vm_compute. repeat split. Qed.
Example C93_described_case : describes digits_of (example "3 4" "25") [3; 4] [25] /\ describes digits_of (example "3" "0") [3] [0].
Proof.
  split; apply (describes_spec nat digits_of (fun d => Nat.ltb 0 d)).
  - destruct (document (example "3 4" "25")) as [[n a c|]|] eqn:E; vm_compute in E; try discriminate.
    exists n, a, c. split; [reflexivity|]. injection E as <- <- <-. vm_compute. auto.
  - destruct (document (example "3" "0")) as [[n a c|]|] eqn:E; vm_compute in E; try discriminate.
    exists n, a, c. split; [reflexivity|]. injection E as <- <- <-. vm_compute. auto.
Qed.
