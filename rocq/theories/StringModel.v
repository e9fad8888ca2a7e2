(** * Strings, data names and paths

    Models [core/string.cc], [core/data_name.cc] and [core/path.cc].  A [std::string] is a list
    of characters.  The standard library's and Boost's string functions are modelled by what
    they are documented to do on characters; conversion to numbers ([is_convertable_to], [as],
    string.cc:49-81) is not modelled.  A failed assertion is [None]. *)

From Coq Require Import String Ascii List Bool Arith.
Import ListNotations.

Definition text : Type := list ascii.
Definition lit (s : string) : text := list_ascii_of_string s.

(** [characters.find(c) != npos]; string.cc:150-151, 165-166 *)
Definition one_of (characters : text) (c : ascii) : bool := existsb (Ascii.eqb c) characters.

(** [isspace] in the C locale; the class [[:space:]] (string.cc:100) and the characters that
    [boost::algorithm::trim] (string.cc:130) removes: tab, line feed, vertical tab, form feed,
    carriage return and space *)
Definition space_characters : text :=
  [ascii_of_nat 9; ascii_of_nat 10; ascii_of_nat 11; ascii_of_nat 12; ascii_of_nat 13;
   ascii_of_nat 32].

(** string.cc:99-101 (also 129-131): no characters stands for white space *)
Definition or_space (characters : text) : text :=
  match characters with [] => space_characters | _ => characters end.

(** string.cc:107-108: the tokens between the matches of the regular expression, which are the
    longest runs of separators.  [current] is the token being read, reversed; [matching] tells
    whether the previous character was a separator. *)
Fixpoint tokens (separator : ascii -> bool) (matching : bool) (current s : text) : list text :=
  match s with
  | [] => [rev current]
  | c :: s' =>
      if separator c
      then if matching then tokens separator true [] s'
           else rev current :: tokens separator true [] s'
      else tokens separator false (c :: current) s'
  end.

(** string.cc:95-113.  The characters are put in a bracket expression; like the code's
    documentation it is assumed that this gives a regular expression that matches these
    characters: they do not include ['['], [']'], ['\'], ['^'] or ['-']. *)
Definition split (s characters : text) : list text :=
  filter (fun w => match w with [] => false | _ => true end)
    (tokens (one_of (or_space characters)) false [] s).

(** string.cc:146-153 *)
Fixpoint strip_begin (s characters : text) : text :=
  match s with
  | [] => []
  | c :: s' => if one_of characters c then strip_begin s' characters else s
  end.

(** string.cc:161-168; trimming searches from the end *)
Definition strip_end (s characters : text) : text :=
  rev (strip_begin (rev s) characters).

(** string.cc:125-138.  [boost::algorithm::trim] trims the end first and the other branch the
    begin. *)
Definition strip (s characters : text) : text :=
  match characters with
  | [] => strip_begin (strip_end s space_characters) space_characters
  | _ => strip_end (strip_begin s characters) characters
  end.

(** string.cc:181-186; [boost::algorithm::join] *)
Definition join (strings : list text) (separator : text) : text :=
  match strings with
  | [] => []
  | w :: ws => fold_left (fun result w' => (result ++ separator) ++ w') ws w
  end.

(** string.cc:205-210 *)
Fixpoint starts_with (s sub : text) : bool :=
  match sub, s with
  | [], _ => true
  | _ :: _, [] => false
  | c :: sub', d :: s' => Ascii.eqb c d && starts_with s' sub'
  end.

(** string.cc:217-222 *)
Definition ends_with (s sub : text) : bool := starts_with (rev s) (rev sub).

(** string.cc:193-198 *)
Fixpoint contains (s sub : text) : bool :=
  starts_with s sub || match s with [] => false | _ :: s' => contains s' sub end.

(** string.cc:241-248: [boost::replace_all] copies what is between the matches; the search goes
    on behind a match.  [skip] counts the characters of the match still to be passed.  An
    empty string is never found. *)
Fixpoint replace_loop (old new : text) (skip : nat) (s : text) : text :=
  match s with
  | [] => []
  | c :: s' =>
      match skip with
      | S k => replace_loop old new k s'
      | O => if starts_with s old then new ++ replace_loop old new (pred (length old)) s'
             else c :: replace_loop old new 0 s'
      end
  end.
Definition replace (s old new : text) : text :=
  match old with [] => s | _ => replace_loop old new 0 s end.

(** ** Data names *)
Definition colon : ascii := ":"%char.
Definition slash : text := lit "/".
Definition slashes : text := lit "//".

(** The characters that [.] does not match: line feed and carriage return. *)
Definition line_end (c : ascii) : bool := one_of [ascii_of_nat 10; ascii_of_nat 13] c.

(** The greedy [[^:]+]: the characters before the first colon, and the rest. *)
Fixpoint before_colon (s : text) : text * text :=
  match s with
  | [] => ([], [])
  | c :: s' =>
      if Ascii.eqb c colon then ([], s)
      else let '(a, b) := before_colon s' in (c :: a, b)
  end.

(** data_name.cc:22, 40-50: the regular expression [([^:]+)(?::(.+)?)?] has to match the whole
    string.  The second group does not take part, or is empty, when nothing follows. *)
Definition match_name (s : text) : option (text * text) :=
  let '(database, rest) := before_colon s in
  match database, rest with
  | [], _ => None
  | _, [] => Some (database, [])
  | _, _ :: data => if existsb line_end data then None else Some (database, data)
  end.

(** data_name.cc:57-59; [fuel] bounds the number of iterations *)
Fixpoint single_slashes (fuel : nat) (s : text) : option text :=
  if contains s slashes then
    match fuel with
    | O => None
    | S fuel' => single_slashes fuel' (replace s slashes slash)
    end
  else Some s.

(** data_name.cc:34-72.  [Path] keeps the string it is made from (core/path.cc:24-30, 51-54). *)
Definition data_name (s : text) : option (text * text) :=
  match match_name s with
  | None => None
  | Some (database, data) =>
      match single_slashes (length data) (strip_end data slash) with
      | None => None
      | Some path =>
          let path :=
            match path with
            | [] => slash
            | _ => if starts_with path slash then path else slash ++ path
            end in
          if starts_with path slash then Some (database, path) else None
      end
  end.

(** core/path.cc:82-85 *)
Definition names (path : text) : list text := split path slash.
