(** * C++ code of compiled modules

    Models [language/compiler/compile_visitor.cc].  [None] is a failed assertion.

    Simplifications: the texts around the code (compile_visitor.cc:177-248: the header and the
    skeleton of the class, which only the name of the file goes into) are left out; what is
    modelled is what is put into them for [%3%], [%4%] and [%5%]. *)

From Coq Require Import String List Bool Arith Ascii Decimal DecimalString DecimalNat.
From Verif Require Import AstModel SymbolModel IoModel.
Import ListNotations.
Open Scope string_scope.

(** [boost::format("%1%") % i] for a [size_t] *)
Definition decimal (i : nat) : string := NilEmpty.string_of_uint (Nat.to_uint i).

(** compile_visitor.h:50-53 *)
Record compiler := { statement : string; body : list string }.

(** [_statement += s] and [_body.emplace_back(s)] *)
Definition add (s : string) (c : compiler) : compiler :=
  {| statement := statement c ++ s; body := body c |}.
Definition emplace (s : string) (c : compiler) : compiler :=
  {| statement := statement c; body := (body c ++ [s])%list |}.
(** [_statement.clear()] *)
Definition clear (c : compiler) : compiler := {| statement := ""; body := body c |}.

Section Compile.
Context {A : Type}.
(** The names of the operations that exist; operations.cc:46-53. *)
Variable known : string -> bool.

(** compile_visitor.cc:78-118, 252-261; for attributes ast_visitor.cc:66-84, which ends in
    compile_visitor.cc:112-118 *)
Fixpoint compile_expr (e : expr A) (c : compiler) : option compiler :=
  match e with
  | Name _ x => Some (add x c)
  | Const _ _ => Some c
  | Operation _ f args =>
      if known f then
        match visits compile_expr args
                (add ("_operations->operation(""" ++ f ++ """)->execute(std::vector<std::shared_ptr<fern::Argument>>{") c)
        with
        | Some c' => Some (add "}))" c')
        | None => None
        end
      else None
  | Subscript _ _ _ => Some c
  | Attribute _ e _ => match compile_expr e c with Some c' => Some (clear c') | None => None end
  end.

(** compile_visitor.cc:52-75 *)
Definition compile_stmt (t : stmt A) (c : compiler) : option compiler :=
  match t with
  | Assign _ x e =>
      match compile_expr e (add "std::vector<std::shared_ptr<fern::Argument>> results(" (clear c)) with
      | Some c' =>
          Some (emplace ("std::shared_ptr<fern::Argument> " ++ x ++ "(results[0])")
                        (emplace (statement c') c'))
      | None => None
      end
  | Expr e => compile_expr e c
  | If _ _ _ | While _ _ _ => Some c
  end.

(** [name()] of the vertex of an output: the targets of all assignments, with their names *)
Fixpoint targets (t : stmt A) : list (nat * string) :=
  match t with
  | Assign id x _ => [(id, x)]
  | Expr _ => []
  | If _ t f | While _ t f => flat_map targets t ++ flat_map targets f
  end.
Definition target_name (m : list (stmt A)) (id : nat) : string :=
  match find (fun d => Nat.eqb (fst d) id) (flat_map targets m) with Some (_, x) => x | None => "" end.

(** compile_visitor.cc:135-151 *)
Definition description (x : string) : string := "fern::DataDescription(""" ++ x ++ """)".
Definition initializers (l : list string) : string := String.concat ", " (map description l).

(** compile_visitor.cc:154-159; the inputs from number [i] on *)
Fixpoint read_inputs (l : list string) (i : nat) (c : compiler) : compiler :=
  match l with
  | [] => c
  | x :: l' =>
      read_inputs l' (S i)
        (emplace ("std::shared_ptr<fern::Argument> " ++ x ++ "(data_sources[" ++ decimal i ++ "]->read());") c)
  end.

(** compile_visitor.cc:164-174; the outputs from number [i] on *)
Fixpoint write_outputs (l : list string) (i : nat) (c : compiler) : compiler :=
  match l with
  | [] => c
  | x :: l' =>
      write_outputs l' (S i)
        (emplace "}"
          (emplace ("    data_syncs[" ++ decimal i ++ "]->write(*" ++ x ++ ");")
            (emplace ("if(" ++ decimal i ++ " < data_syncs.size()) {") c)))
  end.

Record code := { arguments : string; results : string; statements : list string; run_body : string }.

(** compile_visitor.cc:121-174, 247-248 *)
Definition compile_module (m : list (stmt A)) : option code :=
  match io_module m with
  | Some io =>
      let names := map (target_name m) (outputs io) in
      match visits compile_stmt m (read_inputs (inputs io) 0 {| statement := ""; body := [] |}) with
      | Some c =>
          let b := body (write_outputs names 0 c) in
          Some {| arguments := initializers (inputs io); results := initializers names;
                  statements := b;
                  run_body := String.concat (";" ++ String (ascii_of_nat 10) "    ") b ++
                              match b with [] => "" | _ => ";" end |}
      | None => None
      end
  | None => None
  end.
End Compile.
