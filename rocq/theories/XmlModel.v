(** * XML documents

    Models what the XML library does that the generated parser of
    [language/ast/xml/syntax_tree.xsd] is built on (expat or Xerces, by way of CodeSynthesis
    XSD): reading the text of a document.  This is library code and trusted; it follows
    https://www.w3.org/TR/xml/.

    Simplifications: character references, comments, sections of character data, document type
    declarations and processing instructions are refused, and so is white space around the
    equals sign of an attribute; the only declaration is [<?xml version="1.0"?>]; characters
    beyond ASCII are let through without checking their encoding, and are not letters. *)

From Coq Require Import String Ascii List Bool Arith.
From Verif Require Import StringModel.
Import ListNotations.

Inductive xml :=
| Element (name : text) (attributes : list (text * text)) (content : list xml)
| Chars (characters : text).

Definition text_eqb (a b : text) : bool := if list_eq_dec ascii_dec a b then true else false.
Definition is (s : string) (t : text) : bool := text_eqb (lit s) t.

(** 2.2 characters *)
Definition white (c : ascii) : bool :=
  let n := nat_of_ascii c in (n =? 32) || (n =? 9) || (n =? 10) || (n =? 13).
Definition xml_char (c : ascii) : bool := white c || (32 <=? nat_of_ascii c).

(** 2.3 names *)
Definition letter (c : ascii) : bool :=
  let n := nat_of_ascii c in
  ((65 <=? n) && (n <=? 90)) || ((97 <=? n) && (n <=? 122)) || (n =? 95) || (n =? 58).
Definition digit (c : ascii) : bool :=
  let n := nat_of_ascii c in (48 <=? n) && (n <=? 57).
Definition name_char (c : ascii) : bool :=
  let n := nat_of_ascii c in letter c || digit c || (n =? 45) || (n =? 46).
Definition xml_name (t : text) : bool :=
  match t with [] => false | c :: t' => letter c && forallb name_char t' end.

(** 2.11 end-of-line handling, before anything else *)
Fixpoint line_ends (t : text) : text :=
  match t with
  | [] => []
  | c :: t' =>
      if Ascii.eqb c "013"%char
      then "010"%char :: match t' with
                         | d :: t'' => if Ascii.eqb d "010"%char then line_ends t'' else line_ends t'
                         | [] => []
                         end
      else c :: line_ends t'
  end.

(** 4.6 predefined entities *)
Definition entity (name : text) : option ascii :=
  if is "amp" name then Some "&"%char
  else if is "lt" name then Some "<"%char
  else if is "gt" name then Some ">"%char
  else if is "quot" name then Some """"%char
  else if is "apos" name then Some "'"%char
  else None.

(** 2.3 and 3.3.3 attributes: names and values, in which white space becomes a space *)
Inductive in_attributes :=
| Gap (spaced : bool)
| InName (name : text)
| Equals (name : text)
| InValue (name : text) (quote : ascii) (value : text)
| InReference (name : text) (quote : ascii) (value reference : text).
Fixpoint attributes (st : in_attributes) (t : text) : option (list (text * text)) :=
  match t with
  | [] => match st with Gap _ => Some [] | _ => None end
  | c :: t' =>
      match st with
      | Gap spaced =>
          if white c then attributes (Gap true) t'
          else if spaced && letter c then attributes (InName [c]) t'
          else None
      | InName n =>
          if name_char c then attributes (InName (c :: n)) t'
          else if Ascii.eqb c "="%char then attributes (Equals (rev n)) t'
          else None
      | Equals n =>
          if Ascii.eqb c """"%char || Ascii.eqb c "'"%char
          then attributes (InValue n c []) t' else None
      | InValue n q v =>
          if Ascii.eqb c q
          then match attributes (Gap false) t' with
               | Some l => Some ((n, rev v) :: l)
               | None => None
               end
          else if Ascii.eqb c "&"%char then attributes (InReference n q v []) t'
          else if Ascii.eqb c "<"%char || negb (xml_char c) then None
          else attributes (InValue n q ((if white c then " "%char else c) :: v)) t'
      | InReference n q v r =>
          if Ascii.eqb c ";"%char
          then match entity (rev r) with
               | Some d => attributes (InValue n q (d :: v)) t'
               | None => None
               end
          else attributes (InReference n q v (c :: r)) t'
      end
  end.

Inductive token :=
| Open (name : text) (attributes : list (text * text))
| Close (name : text)
| Empty (name : text) (attributes : list (text * text))
| Data (characters : text).

(** The name at the start of a tag, and the rest *)
Fixpoint tag_name (t : text) : text * text :=
  match t with
  | [] => ([], [])
  | c :: t' =>
      if name_char c then let (n, r) := tag_name t' in (c :: n, r) else ([], t)
  end.

(** 3.1: a tag, given what is between the brackets *)
Definition opening (t : text) : option (text * list (text * text)) :=
  let (n, r) := tag_name t in
  if xml_name n then
    match attributes (Gap false) r with Some l => Some (n, l) | None => None end
  else None.
Definition tag (t : text) : option token :=
  if starts_with t (lit "/") then
    let (n, r) := tag_name (tl t) in
    if xml_name n && forallb white r then Some (Close n) else None
  else if ends_with t (lit "/") then
    match opening (removelast t) with Some (n, l) => Some (Empty n l) | None => None end
  else match opening t with Some (n, l) => Some (Open n l) | None => None end.

(** 2.4: character data and tags.  What has been read of either is kept in reverse. *)
Inductive in_text :=
| InData (characters : text)
| InEntity (characters reference : text)
| InTag (between : text) (quote : option ascii).
Definition flush (a : text) (l : option (list token)) : option (list token) :=
  match l, a with
  | Some l, [] => Some l
  | Some l, _ => Some (Data (rev a) :: l)
  | None, _ => None
  end.
Fixpoint tokens_of (st : in_text) (t : text) : option (list token) :=
  match t with
  | [] => match st with InData a => flush a (Some []) | _ => None end
  | c :: t' =>
      match st with
      | InData a =>
          if Ascii.eqb c "<"%char then flush a (tokens_of (InTag [] None) t')
          else if Ascii.eqb c "&"%char then tokens_of (InEntity a []) t'
          else if Ascii.eqb c ">"%char && starts_with a (lit "]]") then None
          else if xml_char c then tokens_of (InData (c :: a)) t'
          else None
      | InEntity a r =>
          if Ascii.eqb c ";"%char
          then match entity (rev r) with
               | Some d => tokens_of (InData (d :: a)) t'
               | None => None
               end
          else tokens_of (InEntity a (c :: r)) t'
      | InTag b None =>
          if Ascii.eqb c ">"%char
          then match tag (rev b), tokens_of (InData []) t' with
               | Some k, Some l => Some (k :: l)
               | _, _ => None
               end
          else if Ascii.eqb c "<"%char then None
          else tokens_of (InTag (c :: b)
                 (if Ascii.eqb c """"%char || Ascii.eqb c "'"%char then Some c else None)) t'
      | InTag b (Some q) =>
          if Ascii.eqb c "<"%char then None
          else tokens_of (InTag (c :: b) (if Ascii.eqb c q then None else Some q)) t'
      end
  end.

(** 3: the elements that are open, innermost first, each with its content so far, reversed *)
Definition frame : Type := text * list (text * text) * list xml.
Definition add (x : xml) (open : list frame) (root : option xml)
  : option (list frame * option xml) :=
  match open, root with
  | (n, a, l) :: open', _ => Some ((n, a, x :: l) :: open', root)
  | [], None => Some ([], Some x)
  | [], Some _ => None
  end.
Fixpoint build (open : list frame) (root : option xml) (l : list token) : option xml :=
  match l with
  | [] => match open with [] => root | _ => None end
  | Open n a :: l' =>
      match open, root with
      | [], Some _ => None
      | _, _ => build ((n, a, []) :: open) root l'
      end
  | Close n :: l' =>
      match open with
      | (m, a, content) :: open' =>
          if text_eqb n m
          then match add (Element m a (rev content)) open' root with
               | Some (open, root) => build open root l'
               | None => None
               end
          else None
      | [] => None
      end
  | Empty n a :: l' =>
      match add (Element n a []) open root with
      | Some (open, root) => build open root l'
      | None => None
      end
  | Data t :: l' =>
      match open with
      | [] => if forallb white t then build open root l' else None
      | (n, a, content) :: open' => build ((n, a, Chars t :: content) :: open') root l'
      end
  end.

(** 2.1, 2.8: a document *)
Definition declaration : text := lit "<?xml version=""1.0""?>".
Definition document (t : text) : option xml :=
  let t := line_ends t in
  let t := if starts_with t declaration then skipn (length declaration) t else t in
  match tokens_of (InData []) t with
  | Some l => build [] None l
  | None => None
  end.
