(** * References to Python objects, and errors of Python

    Models [language/python/owned_reference.cc], [borrowed_reference.cc], [string.cc] and
    [exception.cc].  Python's heap is a list of objects with their reference counts; an object whose
    count drops to zero is freed and the references it has are dropped.  A pointer is the index of an
    object, or none ([NULL]).  A failed assertion, in a debug build, is [Abort]; the use of an object
    that has been freed, or of [NULL] where Python does not check for it, is [Undef].

    Simplifications: objects are strings, integers, [None], tuples and others, which are no sequences
    and do not convert to numbers.  The objects of errors that Python sets itself, when a call of it
    fails, are left out: only whether there is such an error is modelled. *)
From Coq Require Import String Ascii ZArith List Bool Arith.
From Verif Require Import StringModel.
From Verif Require ScriptModel.
Import ListNotations.

Inductive object := Str (s : text) | Int (z : Z) | NoneObject | Tuple (items : list nat) | Other.
Inductive cell := Freed | Live (count : nat) (x : object).
Definition heap := list cell.

Inductive res (A : Type) := Ok (a : A) | Abort | Undef.
Arguments Ok {A} _. Arguments Abort {A}. Arguments Undef {A}.
Definition bind {A B} (p : res A) (f : A -> res B) : res B :=
  match p with Ok a => f a | Abort => Abort | Undef => Undef end.
Notation "x <~ p ;; q" := (bind p (fun x => q)) (at level 61, p at next level, right associativity).

Fixpoint set (h : heap) (i : nat) (c : cell) : heap :=
  match h, i with
  | [], _ => []
  | _ :: h', 0 => c :: h'
  | d :: h', S i' => d :: set h' i' c
  end.

(** Python's [Py_INCREF] *)
Definition incref (h : heap) (i : nat) : res heap :=
  match nth_error h i with
  | Some (Live n x) => Ok (set h i (Live (S n) x))
  | _ => Undef
  end.

(** The references an object has *)
Definition items (x : object) : list nat := match x with Tuple l => l | _ => [] end.

(** Python's [Py_DECREF] of the objects in [work], one after the other *)
Fixpoint release (fuel : nat) (work : list nat) (h : heap) : res heap :=
  match work, fuel with
  | [], _ => Ok h
  | _, 0 => Undef
  | i :: work', S fuel' =>
      match nth_error h i with
      | Some (Live 1 x) => release fuel' (items x ++ work') (set h i Freed)
      | Some (Live (S n) x) => release fuel' work' (set h i (Live n x))
      | _ => Undef
      end
  end.
Definition cell_size (c : cell) : nat := match c with Live _ x => S (length (items x)) | Freed => 0 end.
Definition size (h : heap) : nat := list_sum (map cell_size h).
Definition decref (h : heap) (i : nat) : res heap := release (S (size h)) [i] h.

Section References.
Variable debug : bool.

(** ** The class [OwnedReference]; an instance is what it layers, [_object] *)
Definition reference := option nat.

(** owned_reference.cc:19-24, 39-45 *)
Definition default_reference : reference := None.
Definition reference_to (object : option nat) : reference := object.

(** owned_reference.cc:146-150 *)
Definition dec_ref (self : reference) (h : heap) : res heap :=
  match self with Some i => decref h i | None => if debug then Abort else Undef end.
(** owned_reference.cc:139-143 *)
Definition inc_ref (self : reference) (h : heap) : res heap :=
  match self with Some i => incref h i | None => if debug then Abort else Undef end.

Definition same (a b : reference) : bool :=
  match a, b with Some i, Some j => Nat.eqb i j | None, None => true | _, _ => false end.

(** owned_reference.cc:77-92 *)
Definition assign (self : reference) (object : option nat) (h : heap) : res (reference * heap) :=
  if same self object then Ok (self, h)
  else
    h <~ match self with Some _ => dec_ref self h | None => Ok h end ;;
    Ok (object, h).

(** owned_reference.cc:99-104 *)
Definition destruct_reference (self : reference) (h : heap) : res heap :=
  match self with Some _ => dec_ref self h | None => Ok h end.

(** owned_reference.cc:121-125: what the instance layers if [object] is stored at the address that is
    returned *)
Definition store (self : reference) (object : option nat) : res reference :=
  match self with
  | Some _ => if debug then Abort else Ok object
  | None => Ok object
  end.

(** ** Histories of instances, which have names *)
Record world := World {
  objects : heap;
  owned : list (nat * reference);
  borrowed : list (nat * reference)
}.

Fixpoint instance (l : list (nat * reference)) (v : nat) : option reference :=
  match l with [] => None | (w, r) :: l' => if Nat.eqb w v then Some r else instance l' v end.
Fixpoint replace (l : list (nat * reference)) (v : nat) (r : reference) : list (nat * reference) :=
  match l with [] => [] | (w, s) :: l' => if Nat.eqb w v then (w, r) :: l' else (w, s) :: replace l' v r end.
Fixpoint discard (l : list (nat * reference)) (v : nat) : list (nat * reference) :=
  match l with [] => [] | (w, s) :: l' => if Nat.eqb w v then l' else (w, s) :: discard l' v end.

(** What happens: a Python function returns a new reference to an object; someone other than an
    instance drops a reference; instances are made (of nothing, of a new reference, and, by calling
    [inc_ref] right away, of a reference that is not new), assigned to, stored into by address, told to
    [inc_ref], and destructed; the object of an instance is used; and the same for instances of
    [BorrowedReference] (borrowed_reference.cc:19-37, 94-97; the destructor does nothing) *)
Inductive call :=
| Obtain (i : nat) | GiveUp (i : nat)
| Default (v : nat) | From (v : nat) (object : option nat) | Keep (v : nat) (object : option nat)
| Assign (v : nat) (object : option nat) | Store (v : nat) (object : option nat)
| Increment (v : nat) | End (v : nat) | Use (v : nat)
| Borrow (b : nat) (object : option nat) | UseBorrowed (b : nat).

Definition use (h : heap) (r : option reference) : res unit :=
  match r with
  | Some (Some i) => match nth_error h i with Some (Live _ _) => Ok tt | _ => Undef end
  | _ => Undef
  end.

(** The functions above; a name that is not that of an instance is not a program. *)
Definition step (c : call) (w : world) : res world :=
  let '(World h l b) := w in
  match c with
  | Obtain i => h <~ incref h i ;; Ok (World h l b)
  | GiveUp i => h <~ decref h i ;; Ok (World h l b)
  | Default v => Ok (World h ((v, default_reference) :: l) b)
  | From v o => Ok (World h ((v, reference_to o) :: l) b)
  | Keep v o => h <~ inc_ref (reference_to o) h ;; Ok (World h ((v, reference_to o) :: l) b)
  | Assign v o =>
      match instance l v with
      | Some r => x <~ assign r o h ;; Ok (World (snd x) (replace l v (fst x)) b)
      | None => Undef
      end
  | Store v o =>
      match instance l v with
      | Some r => r <~ store r o ;; Ok (World h (replace l v r) b)
      | None => Undef
      end
  | Increment v =>
      match instance l v with
      | Some r => h <~ inc_ref r h ;; Ok (World h l b)
      | None => Undef
      end
  | End v =>
      match instance l v with
      | Some r => h <~ destruct_reference r h ;; Ok (World h (discard l v) b)
      | None => Undef
      end
  | Use v => _ <~ use h (instance l v) ;; Ok w
  | Borrow v o => Ok (World h l ((v, o) :: b))
  | UseBorrowed v => _ <~ use h (instance b v) ;; Ok w
  end.

Fixpoint run (calls : list call) (w : world) : res world :=
  match calls with [] => Ok w | c :: calls' => w <~ step c w ;; run calls' w end.

(** ** Errors of Python *)

(** core/exception.h: what a [ParseError] carries *)
Record parse_error := ParseError {
  error_source : option text; error_line : option Z; error_column : option Z;
  error_statement : option text; error_message : option text
}.

(** The error that is set: its type, value and traceback.  [failed]: whether a call has failed since
    the error has been fetched *)
Record python := Python {
  py_objects : heap;
  indicator : option (option nat * option nat * option nat);
  failed : bool
}.

(** Python: [PyErr_Occurred], and a failing call *)
Definition occurred (s : python) : bool :=
  failed s || match indicator s with Some _ => true | None => false end.
Definition fail (s : python) : python := Python (py_objects s) (indicator s) true.
Definition with_objects (h : heap) (s : python) : python := Python h (indicator s) (failed s).
Definition look (s : python) (i : nat) : res object :=
  match nth_error (py_objects s) i with Some (Live _ x) => Ok x | _ => Undef end.
(** Python: a new object, to which the caller has the reference *)
Definition fresh (x : object) (s : python) : res (option nat * python) :=
  Ok (Some (length (py_objects s)), with_objects (py_objects s ++ [Live 1 x]) s).

(** Python: [PySequence_GetItem].  The characters of strings are made anew. *)
Definition get_item (o : option nat) (n : nat) (s : python) : res (option nat * python) :=
  match o with
  | None => Ok (None, fail s)
  | Some i =>
      x <~ look s i ;;
      match x with
      | Tuple l =>
          match nth_error l n with
          | Some j => h <~ incref (py_objects s) j ;; Ok (Some j, with_objects h s)
          | None => Ok (None, fail s)
          end
      | Str t =>
          match nth_error t n with
          | Some c => fresh (Str [c]) s
          | None => Ok (None, fail s)
          end
      | _ => Ok (None, fail s)
      end
  end.
(** Python: [PySequence_Check] and [PySequence_Length] of a sequence *)
Definition sequence_length (o : option nat) (s : python) : res (option nat) :=
  match o with
  | None => Ok None
  | Some i =>
      x <~ look s i ;;
      Ok match x with Tuple l => Some (length l) | Str t => Some (length t) | _ => None end
  end.
(** Python: [PyInt_Check] and [PyInt_AsLong]; the former does not check for [NULL] *)
Definition is_int (o : option nat) (s : python) : res bool :=
  match o with
  | None => Undef
  | Some i => x <~ look s i ;; Ok match x with Int _ => true | _ => false end
  end.
Definition as_long (o : option nat) (s : python) : res (Z * python) :=
  match o with
  | None => Ok ((-1)%Z, fail s)
  | Some i => x <~ look s i ;; Ok match x with Int z => (z, s) | _ => ((-1)%Z, fail s) end
  end.

Definition check (p : res bool) : res unit := if debug then (b <~ p ;; if b then Ok tt else Abort) else Ok tt.

(** language/python/string.cc:15-23, with Python's [PyString_AsString] *)
Definition as_unicode_string (o : option nat) (s : python) : res text :=
  match o with
  | None => Undef
  | Some i =>
      x <~ look s i ;;
      match x with Str t => Ok (ScriptModel.c_string t) | _ => if debug then Abort else Undef end
  end.

(** The end of the scope of an instance of [OwnedReference]; with exceptions too *)
Definition scoped {A} (self : reference) (p : res (A * python)) : res (A * python) :=
  x <~ p ;; h <~ destruct_reference self (py_objects (snd x)) ;; Ok (fst x, with_objects h (snd x)).

Definition has_length (n : nat) (o : option nat) (s : python) : res bool :=
  l <~ sequence_length o s ;; Ok match l with Some m => Nat.eqb m n | None => false end.

(** exception.cc:36-85: the exception that is thrown *)
Definition throw_syntax_error (source : text) (value : option nat) (s : python) : res (parse_error * python) :=
  _ <~ check (has_length 2 value s) ;;
  m <~ get_item value 0 s ;;
  scoped (reference_to (fst m)) (
    let s := snd m in
    message <~ as_unicode_string (fst m) s ;;
    d <~ get_item value 1 s ;;
    scoped (reference_to (fst d)) (
      let s := snd d in
      let details := fst d in
      _ <~ check (has_length 4 details s) ;;
      l <~ get_item details 1 s ;;
      scoped (reference_to (fst l)) (
        let s := snd l in
        _ <~ check (is_int (fst l) s) ;;
        line <~ as_long (fst l) s ;;
        let s := snd line in
        _ <~ check (Ok (negb (occurred s))) ;;
        c <~ get_item details 2 s ;;
        scoped (reference_to (fst c)) (
          let s := snd c in
          _ <~ check (is_int (fst c) s) ;;
          column <~ as_long (fst c) s ;;
          let s := snd column in
          _ <~ check (Ok (negb (occurred s))) ;;
          t <~ get_item details 3 s ;;
          scoped (reference_to (fst t)) (
            let s := snd t in
            statement <~ as_unicode_string (fst t) s ;;
            _ <~ check (Ok (negb (occurred s))) ;;
            Ok (ParseError (Some source) (Some (fst line)) (Some (fst column))
                  (Some (strip statement [ascii_of_nat 10])) (Some message), s)))))).

(** Python: [PyErr_GivenExceptionMatches] with [SyntaxError], and [PyObject_Str] of what is no
    string *)
Variables (matches : nat -> bool) (shown : option nat -> text).

(** Python: [PyObject_Str] *)
Definition object_str (o : option nat) (s : python) : res (option nat * python) :=
  match o with
  | None => fresh (Str (shown None)) s
  | Some i =>
      x <~ look s i ;;
      match x with
      | Str _ => h <~ incref (py_objects s) i ;; Ok (Some i, with_objects h s)
      | _ => fresh (Str (shown (Some i))) s
      end
  end.

(** exception.cc:20-33; what it asserts first does not matter: see the call *)
Definition throw_error (value : option nat) (s : python) : res (parse_error * python) :=
  d <~ object_str value s ;;
  scoped (reference_to (fst d)) (
    description <~ as_unicode_string (fst d) (snd d) ;;
    Ok (ParseError None None None None (Some description), snd d)).

(** exception.cc:90-118.  Python: [PyErr_Fetch] and [PyErr_Clear] *)
Definition throw_exception (source : text) (s : python) : res (parse_error * python) :=
  _ <~ check (Ok (occurred s)) ;;
  let '(t, v, b) := match indicator s with Some e => e | None => (None, None, None) end in
  type <~ store default_reference t ;;
  value <~ store default_reference v ;;
  traceback <~ store default_reference b ;;
  let s := Python (py_objects s) None false in
  scoped type (scoped value (scoped traceback (
    _ <~ check (Ok match type with Some _ => true | None => false end) ;;
    if match type with Some i => matches i | None => false end then throw_syntax_error source value s
    else
      _ <~ check (Ok false) ;;
      throw_error value s))).
End References.
