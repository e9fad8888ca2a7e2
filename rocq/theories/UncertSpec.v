(** * What documents of UncertML describe *)
From Coq Require Import String Ascii List Bool Arith.
From Verif Require Import StringModel XmlModel UncertModel.
Import ListNotations.

(** ** Names in namespaces *)
Definition plain (t : text) : Prop := ~ In ":"%char t.
(** A name is a prefix and a local name, or a local name only *)
Definition name_is (name prefix local : text) : Prop :=
  (plain prefix /\ name = prefix ++ ":"%char :: local) \/ (prefix = [] /\ plain local /\ name = local).
(** An attribute declares a prefix, or the names without one *)
Definition declaration_of (attribute prefix : text) : Prop :=
  (attribute = lit "xmlns" /\ prefix = []) \/ attribute = lit "xmlns:" ++ prefix.
Inductive declared : list (text * text) -> list (text * text) -> Prop :=
| D_none : declared [] []
| D_prefix n p v a s : declaration_of n p -> declared a s -> declared ((n, v) :: a) ((p, v) :: s)
| D_other n v a s : (forall p, ~ declaration_of n p) -> declared a s -> declared ((n, v) :: a) s.
(** What a prefix stands for: what has been declared last *)
Definition stands_for (scope : list (text * text)) (prefix uri : text) : Prop :=
  exists before after, scope = before ++ (prefix, uri) :: after /\ ~ In prefix (map fst before).
Definition of_uncertml (scope : list (text * text)) (name : text) (local : string) : Prop :=
  exists prefix, name_is name prefix (lit local) /\ stands_for scope prefix (lit "http://www.uncertml.org/2.0").
Definition has_only (names : list string) (attributes : list (text * text)) : Prop :=
  Forall (fun a => (exists p, declaration_of (fst a) p) \/ exists n, In n names /\ fst a = lit n) attributes.

(** ** Lists of words *)
Definition blank (t : text) : Prop := Forall (fun c => In c [" "; "009"; "010"; "013"]%char) t.
Definition word (t : text) : Prop := t <> [] /\ Forall (fun c => ~ In c [" "; "009"; "010"; "013"]%char) t.
Inductive words_of : text -> list text -> Prop :=
| W_none t : blank t -> words_of t []
| W_last s w : blank s -> word w -> words_of (s ++ w) [w]
| W_next s w b r l : blank s -> word w -> blank [b] -> words_of r l -> words_of (s ++ w ++ b :: r) (w :: l).

(** ** Documents *)
Definition spaces (l : list xml) : Prop := Forall (fun x => exists t, x = Chars t /\ blank t) l.
(** An element of UncertML with a list of words *)
Definition list_element (scope : list (text * text)) (local : string) (x : xml) (l : list text) : Prop :=
  exists n a own texts, x = Element n a (map Chars texts) /\ declared a own /\ of_uncertml (own ++ scope) n local /\
    has_only ["href"; "mimeType"]%string a /\ words_of (concat texts) l.
(** A normal distribution: first the means, then the variances *)
Definition normal_distribution (x : xml) (means variances : list text) : Prop :=
  exists n a scope s1 m s2 v s3, x = Element n a (s1 ++ m :: s2 ++ v :: s3) /\
    declared a scope /\ of_uncertml scope n "NormalDistribution" /\ has_only [] a /\
    spaces s1 /\ spaces s2 /\ spaces s3 /\ list_element scope "mean" m means /\ list_element scope "variance" v variances.
(** A text describes normal distributions with means and variances *)
Definition describes {D} (read_double : text -> option D) (t : text) (means variances : list D) : Prop :=
  exists x ms vs, document t = Some x /\ normal_distribution x ms vs /\
    Forall2 (fun w d => read_double w = Some d) ms means /\ Forall2 (fun w d => read_double w = Some d) vs variances.

(** The text of a document, with a prefix for the names; number_text: the characters of decimal numbers *)
Definition number_text (t : text) : Prop := t <> [] /\ Forall (fun c => In c (lit "0123456789.+-eE")) t.
Definition prefix_text (p : text) : Prop := xml_name p = true /\ plain p.
Definition document_text (p mean variance : text) : text :=
  lit "<?xml version=""1.0""?>" ++
  lit "<" ++ p ++ lit ":NormalDistribution xmlns:" ++ p ++ lit "=""http://www.uncertml.org/2.0"">" ++
  lit "<" ++ p ++ lit ":mean>" ++ mean ++ lit "</" ++ p ++ lit ":mean>" ++
  lit "<" ++ p ++ lit ":variance>" ++ variance ++ lit "</" ++ p ++ lit ":variance>" ++
  lit "</" ++ p ++ lit ":NormalDistribution>".
