(** * What is done with the functions of a script *)
From Coq Require Import String List Bool Arith.
From Verif Require Import AstModel SymbolModel FlagModel AnnotateModel AnnotateSpec IoModel ExecModel ExecSpec InterpretModel FunctionModel.
Import ListNotations.

Section Spec.
Context {A : Type}.

(** A script in which each definition is replaced by its parameters, as expression statements, and
    its body, and each return statement by the expression that it returns. *)
Fixpoint inline_stmt (t : fstmt A) : list (stmt A) :=
  match t with
  | FAssign v x e => [Assign v x e]
  | FExpr e => [Expr e]
  | FIf c t f => [If c (flat_map inline_stmt t) (flat_map inline_stmt f)]
  | FWhile c t f => [While c (flat_map inline_stmt t) (flat_map inline_stmt f)]
  | FDefine _ ps b => map (fun p => Expr (Name (fst p) (snd p))) ps ++ flat_map inline_stmt b
  | FReturn (Some e) => [Expr e]
  | FReturn None => []
  end.
Definition inline (m : list (fstmt A)) : list (stmt A) := flat_map inline_stmt m.

(** A script without functions, as a script. *)
Fixpoint plain_script (t : stmt A) : fstmt A :=
  match t with
  | Assign v x e => FAssign v x e
  | Expr e => FExpr e
  | If c t f => FIf c (map plain_script t) (map plain_script f)
  | While c t f => FWhile c (map plain_script t) (map plain_script f)
  end.

(** A script with other names for the functions that it defines.  The calls are left as they are. *)
Fixpoint rename (r : string -> string) (t : fstmt A) : fstmt A :=
  match t with
  | FIf c t f => FIf c (map (rename r) t) (map (rename r) f)
  | FWhile c t f => FWhile c (map (rename r) t) (map (rename r) f)
  | FDefine f ps b => FDefine (r f) ps (map (rename r) b)
  | t => t
  end.

(** The expression calls [f]. *)
Fixpoint calls_in (f : string) (e : expr A) : Prop :=
  match e with
  | Name _ _ | Const _ _ => False
  | Operation _ g args => g = f \/ fold_right (fun a P => calls_in f a \/ P) False args
  | Subscript _ e s => calls_in f e \/ calls_in f s
  | Attribute _ e _ => calls_in f e
  end.

(** The statement calls [f], somewhere. *)
Fixpoint calls (f : string) (t : fstmt A) : Prop :=
  let some := fold_right (fun t P => calls f t \/ P) False in
  match t with
  | FAssign _ _ e | FExpr e | FReturn (Some e) => calls_in f e
  | FIf c t u | FWhile c t u => calls_in f c \/ some t \/ some u
  | FDefine _ _ b => some b
  | FReturn None => False
  end.

(** The statement assigns to [x], somewhere. *)
Fixpoint assigns (x : string) (t : fstmt A) : Prop :=
  let some := fold_right (fun t P => assigns x t \/ P) False in
  match t with
  | FAssign _ y _ => y = x
  | FIf _ t u | FWhile _ t u => some t \/ some u
  | FDefine _ _ b => some b
  | FExpr _ | FReturn _ => False
  end.

(** The same, other than in a branch. *)
Fixpoint assigns_here (x : string) (t : fstmt A) : Prop :=
  match t with
  | FAssign _ y _ => y = x
  | FDefine _ _ b => fold_right (fun t P => assigns_here x t \/ P) False b
  | FIf _ _ _ | FWhile _ _ _ | FExpr _ | FReturn _ => False
  end.
End Spec.
