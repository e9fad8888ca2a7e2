(** * What the C++ code of a compiled module is expected to be *)
From Coq Require Import String List Bool Arith Ascii.
From Verif Require Import AstModel CompileModel IoSpec.
Import ListNotations.
Open Scope string_scope.

(** ** The C++ that is meant to be generated

    [std::shared_ptr<fern::Argument> x(data_sources[i]->read())],
    [… results(_operations->operation("f")->execute({x, …}))],
    [std::shared_ptr<fern::Argument> x(results[0])] and
    [if(i < data_syncs.size()) {], which writes [x] to [data_syncs[i]]. *)
Inductive cpp :=
| Read (x : string) (i : nat)
| Execute (f : string) (xs : list string)
| Take (x : string)
| Put (i : nat) (x : string).

(** Its text; empty statements (a [;] too many) mean nothing in C++. *)
Definition show (p : cpp) : list string :=
  match p with
  | Read x i => ["std::shared_ptr<fern::Argument> " ++ x ++ "(data_sources[" ++ decimal i ++ "]->read());"]
  | Execute f xs =>
      ["std::vector<std::shared_ptr<fern::Argument>> results(_operations->operation(""" ++ f ++
       """)->execute(std::vector<std::shared_ptr<fern::Argument>>{" ++ String.concat ", " xs ++ "}))"]
  | Take x => ["std::shared_ptr<fern::Argument> " ++ x ++ "(results[0])"]
  | Put i x =>
      ["if(" ++ decimal i ++ " < data_syncs.size()) {";
       "    data_syncs[" ++ decimal i ++ "]->write(*" ++ x ++ ");"; "}"]
  end.

(** Its meaning, with what operations do given: what is written to which data sync.  [None]: this
    is not C++ (a name is declared twice or not at all), or an element outside of a vector is used. *)
Section Run.
Context {V : Type}.
Variable operations : string -> list V -> list V.
Variable sources : list V.
Variable syncs : nat.

Fixpoint lookup (x : string) (env : list (string * V)) : option V :=
  match env with
  | [] => None
  | (y, v) :: env' => if String.eqb y x then Some v else lookup x env'
  end.
Definition declare (x : string) (v : option V) (env : list (string * V)) : option (list (string * V)) :=
  match v, lookup x env with Some v, None => Some ((x, v) :: env) | _, _ => None end.
Fixpoint values (xs : list string) (env : list (string * V)) : option (list V) :=
  match xs with
  | [] => Some []
  | x :: xs' =>
      match lookup x env, values xs' env with Some v, Some vs => Some (v :: vs) | _, _ => None end
  end.
Fixpoint run (p : list cpp) (env : list (string * V)) (res : option (list V)) : option (list (nat * V)) :=
  match p with
  | [] => Some []
  | Read x i :: p' =>
      match declare x (nth_error sources i) env with Some env' => run p' env' res | None => None end
  | Execute f xs :: p' =>
      match res, values xs env with
      | None, Some vs => run p' env (Some (operations f vs))
      | _, _ => None
      end
  | Take x :: p' =>
      match res with
      | Some (v :: _) => match declare x (Some v) env with Some env' => run p' env' res | None => None end
      | _ => None
      end
  | Put i x :: p' =>
      match lookup x env with
      | Some v =>
          match run p' env res with
          | Some w => Some (if Nat.ltb i syncs then (i, v) :: w else w)
          | None => None
          end
      | None => None
      end
  end.
End Run.

(** ** What all C++ has in common *)

Fixpoint occurrences (a : ascii) (s : string) : nat :=
  match s with
  | EmptyString => 0
  | String b s' => (if Ascii.eqb a b then 1 else 0) + occurrences a s'
  end.
(** As many parentheses are closed as are opened. *)
Definition balanced (s : string) : Prop := occurrences "("%char s = occurrences ")"%char s.
(** A text that declares the variable [results]. *)
Definition declares_results (s : string) : bool :=
  prefix "std::vector<std::shared_ptr<fern::Argument>> results(" s.

(** ** Scripts *)
Section Script.
Context {A : Type}.

(** A name as it occurs in scripts, or the name of an operation: no parentheses in it. *)
Definition plain_name (x : string) : Prop :=
  occurrences "("%char x = 0 /\ occurrences ")"%char x = 0.
Fixpoint plain (e : expr A) : Prop :=
  match e with
  | Name _ x => plain_name x
  | Const _ _ => True
  | Operation _ f args => plain_name f /\ fold_right (fun e P => plain e /\ P) True args
  | Subscript _ _ _ => True
  | Attribute _ _ _ => False   (* attributes are a case of their own *)
  end.
(** The assignments of a module that are not in an if or a while. *)
Definition assigned (m : list (stmt A)) : list (string * expr A) :=
  flat_map (fun t => match t with Assign _ x e => [(x, e)] | _ => [] end) m.
Definition is_operation (e : expr A) : bool := match e with Operation _ _ _ => true | _ => false end.
(** An operation whose arguments are not operations. *)
Definition one_operation (e : expr A) : Prop :=
  exists i f args, e = Operation i f args /\ forall a, In a args -> is_operation a = false.
Definition all_known (known : string -> bool) (e : expr A) : Prop :=
  (fix go (e : expr A) : Prop :=
     match e with
     | Operation _ f args => known f = true /\ fold_right (fun e P => go e /\ P) True args
     | Attribute _ e _ => go e
     | _ => True
     end) e.
End Script.
