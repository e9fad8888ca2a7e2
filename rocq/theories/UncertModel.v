(** * Distributions described by documents of UncertML

    Models [language/io/uncertml2/uncertml2_parser.cc], the parser that is generated from
    [language/io/uncertml2/uncertml2.xsd] for normal distributions, and
    [language/uncertainty/normal_distribution.cc].

    Trusted is what the libraries do: documents are read as in [XmlModel], names of elements as in
    https://www.w3.org/TR/xml-names/, and the generated parser checks a document against its schema while
    it calls the functions of the parser in the order of the document.

    Simplifications: texts that are no documents are refused before anything is called, attributes of
    namespaces (such as xsi:type) are refused, and what is written to the standard output is left out.
    Numbers are parameters: the type, how texts are read, the square root and the comparisons with zero. *)
From Coq Require Import String Ascii List Bool Arith.
From Verif Require Import StringModel XmlModel.
Import ListNotations.

(** Names: the text before the first colon, and the text after it *)
Fixpoint colon (t : text) : option (text * text) :=
  match t with
  | [] => None
  | c :: t' => if Ascii.eqb c ":"%char then Some ([], t')
               else match colon t' with Some (p, l) => Some (c :: p, l) | None => None end
  end.
Definition qualified (t : text) : text * text := match colon t with Some pl => pl | None => ([], t) end.

(** The prefix an attribute declares.  [None]: it is another attribute *)
Definition declares (name : text) : option text :=
  if is "xmlns" name then Some []
  else let (p, l) := qualified name in if is "xmlns" p then Some l else None.
Fixpoint declarations (attributes : list (text * text)) : list (text * text) :=
  match attributes with
  | [] => []
  | (n, v) :: a' => match declares n with Some p => (p, v) :: declarations a' | None => declarations a' end
  end.
Fixpoint lookup (prefix : text) (scope : list (text * text)) : option text :=
  match scope with
  | [] => match prefix with [] => Some [] | _ => None end
  | (p, uri) :: s => if text_eqb p prefix then Some uri else lookup prefix s
  end.
(** Whether an element is one of UncertML; uncertml2_parser.cc:177-178 *)
Definition namespace : text := lit "http://www.uncertml.org/2.0".
Definition named (scope : list (text * text)) (name : text) (local : string) : bool :=
  let (p, l) := qualified name in
  match lookup p scope with Some uri => text_eqb uri namespace && is local l | None => false end.

(** The attributes an element can have; uncertml2.xsd:64-67 *)
Definition allowed (names : list string) (attributes : list (text * text)) : bool :=
  forallb (fun a => match declares (fst a) with Some _ => true | None => existsb (fun n => is n (fst a)) names end) attributes.
Definition reference : list string := ["href"; "mimeType"]%string.

(** The items of a list *)
Fixpoint words (current t : text) : list text :=
  match t with
  | [] => match current with [] => [] | _ => [rev current] end
  | c :: t' => if white c then match current with [] => words [] t' | _ => rev current :: words [] t' end
               else words (c :: current) t'
  end.
(** The text of an element that can have no elements *)
Fixpoint characters (content : list xml) : option text :=
  match content with
  | [] => Some []
  | Chars t :: l => match characters l with Some r => Some (t ++ r) | None => None end
  | Element _ _ _ :: _ => None
  end.

Section Parser.
Variable D : Type.
Variable read_double : text -> option D.
Variable sqrt : D -> D.
Variables positive nonnegative : D -> bool.
Variable debug : bool.

(** [Throws]: a [ParseError]; uncertml2_parser.cc:203-218 *)
Inductive outcome := Distribution (mean standard_deviation : D) | Throws | Aborts | Undefined.
Inductive step (A : Type) := Go (a : A) | Stop (o : outcome).
Arguments Go {A} _. Arguments Stop {A} _.

(** uncertml2_parser.cc:70-74 and 106-111: [item] *)
Fixpoint items (check : D -> bool) (l : list text) : step (list D) :=
  match l with
  | [] => Go []
  | t :: l' =>
      match read_double t with
      | None => Stop Throws
      | Some d => if debug && negb (check d) then Stop Aborts
                  else match items check l' with Go r => Go (d :: r) | Stop o => Stop o end
      end
  end.
(** uncertml2_parser.cc:60-122: an element with a list of numbers *)
Definition numbers (check : D -> bool) (attributes : list (text * text)) (content : list xml) : step (list D) :=
  if allowed reference attributes then
    match characters content with
    | Some t => items check (words [] t)
    | None => Stop Throws
    end
  else Stop Throws.

(** uncertml2.xsd:706-715: first the mean, then the variance; uncertml2_parser.cc:29-39 *)
Inductive seen := Neither | Mean (means : list D) | Both (means variances : list D).
Fixpoint sequence (scope : list (text * text)) (s : seen) (content : list xml) : step (list D * list D) :=
  match content with
  | [] => match s with Both m v => Go (m, v) | _ => Stop Throws end
  | Chars t :: l => if forallb white t then sequence scope s l else Stop Throws
  | Element n a c :: l =>
      let inner := declarations a ++ scope in
      match s with
      | Neither =>
          if named inner n "mean" then
            match numbers (fun _ => true) a c with Go m => sequence scope (Mean m) l | Stop o => Stop o end
          else Stop Throws
      | Mean m =>
          if named inner n "variance" then
            match numbers positive a c with Go v => sequence scope (Both m v) l | Stop o => Stop o end
          else Stop Throws
      | Both _ _ => Stop Throws
      end
  end.

(** uncertml2_parser.cc:41-49 *)
Definition post (m v : list D) : outcome :=
  if debug && negb (Nat.eqb (length m) 1 && Nat.eqb (length v) 1 && forallb nonnegative v) then Aborts
  else match m, v with
       | mean :: _, variance :: _ => Distribution mean (sqrt variance)
       | _, _ => Undefined
       end.

(** uncertml2_parser.cc:158-183 *)
Definition parse_tree (x : xml) : outcome :=
  match x with
  | Element n a content =>
      let scope := declarations a in
      if named scope n "NormalDistribution" && allowed [] a then
        match sequence scope Neither content with Go (m, v) => post m v | Stop o => o end
      else Throws
  | Chars _ => Throws
  end.
(** uncertml2_parser.cc:190-221 *)
Definition parse (t : text) : outcome :=
  match document t with Some x => parse_tree x | None => Throws end.
End Parser.
Arguments Distribution {D} _ _. Arguments Throws {D}. Arguments Aborts {D}. Arguments Undefined {D}.
Arguments Go {D A} _. Arguments Stop {D A} _.
Arguments Neither {D}. Arguments Mean {D} _. Arguments Both {D} _ _.
