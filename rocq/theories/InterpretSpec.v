(** * What a user of the interpreter expects *)
From Coq Require Import String List Bool Arith ZArith.
From Verif Require Import AstModel SymbolModel FlagModel AnnotateModel AnnotateSpec ExecModel ExecSpec InterpretModel.
Import ListNotations.

Section Spec.
Context {A : Type}.
Variable operations : string -> option aop.
Variable const_type : A -> expression_type.
Variable exec_operations : string -> option (op A).

(** Values have types. *)
Variable is_of : A -> expression_type -> Prop.

(** An operation keeps its promises: it has a type for any arguments, it can be executed with
    as many arguments as it has parameters, and if the types of these are accepted it returns one
    result of that type, or none if the type is not defined. *)
Definition sound_operation (f : string) (o : aop) : Prop :=
  let params := op_parameters (signature o) in
  reversible o /\
  (forall ts, length ts = length params -> exists t, result_type o ts = Some t) /\
  exists x, exec_operations f = Some x /\ arity x = length params /\
    forall vs ts t,
      Forall2 is_of vs ts -> Forall2 (fun p t => accepts_type p t = true) params ts ->
      result_type o ts = Some t ->
      if et_defined t then exists v, execute x vs = Some [v] /\ is_of v t
      else execute x vs = Some [].

Definition sound : Prop :=
  (forall c, is_of c (const_type c)) /\
  (forall f o, operations f = Some o -> sound_operation f o).

(** Every name that the annotator has a type for has a value of that type. *)
Definition in_sync (i : interp A) : Prop :=
  ready (back_end i) /\ annot_ready (annotator i) /\
  forall x, et_defined (known_types (annotator i) x) = true ->
    exists v, known (bound_names (back_end i)) (input_names (back_end i)) x = Some v /\
      is_of v (known_types (annotator i) x).

(** The types of names once data sources are passed in. *)
Definition with_sources (l : list (source A)) (n : typing) : typing :=
  fun x => match scope_find (source_types l) x with Some t => t | None => n x end.

(** The data sources are of the types they say, there is one for each name, and the sources of
    earlier calls that were not read yet are passed in again. *)
Definition good_sources (l : list (source A)) (i : interp A) : Prop :=
  NoDup (map (fun p => fst (fst p)) l) /\
  Forall (fun p => is_of (snd p) (snd (fst p))) l /\
  forall x, input_names (back_end i) x <> None -> bound_names (back_end i) x = None ->
    In x (map (fun p => fst (fst p)) l).
End Spec.
