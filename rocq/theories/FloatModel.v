(** * Elementary algebra on floating point numbers

    Models the algorithms and the range and domain policies of
    [algorithm/algebra/elementary/detail/{add,subtract,multiply,divide,less,...}.h] for
    arguments at least one of which is a floating point number, and the conversion of the
    arguments to the type of the result.  Two integers are in [ArithModel].

    Floating point numbers and the operations on them are those of
    [Coq.Floats.SpecFloat]: IEEE 754 binary formats, rounding to nearest even.
    Simplifications: one kind of NaN; no excess precision; floating point exceptions leave
    no trace (no [errno], no flags). *)

From Coq Require Import ZArith Bool SpecFloat.
From Verif Require Import IntsModel ArithModel.
Open Scope Z_scope.

(** [float] and [double] *)
Inductive fmt := Single | Double.
Definition fprec (f : fmt) : Z := match f with Single => 24 | Double => 53 end.
Definition femax (f : fmt) : Z := match f with Single => 128 | Double => 1024 end.
Definition fmt_eqb (f g : fmt) : bool :=
  match f, g with Single, Single | Double, Double => true | _, _ => false end.

(** An argument: an integer or a floating point number *)
Inductive num := NInt (t : ity) (z : Z) | NFloat (f : fmt) (x : spec_float).

Definition vty_of (n : num) : vty :=
  match n with NInt t _ => VInt t | NFloat Single _ => VFloat32 | NFloat Double _ => VFloat64 end.

(** core/detail/result_value.h:33-250, by way of [ArithModel.result_value]; [None]: the
    result is not a floating point number *)
Definition result_format (n1 n2 : num) : option fmt :=
  match result_value (vty_of n1) (vty_of n2) with
  | Some VFloat32 => Some Single
  | Some VFloat64 => Some Double
  | _ => None
  end.

(** [static_cast<R>(value)]: an integer is rounded; a [float] is widened *)
Definition to_format (R : fmt) (n : num) : spec_float :=
  match n with
  | NInt _ z => binary_normalize (fprec R) (femax R) z 0 false
  | NFloat f x =>
      if fmt_eqb f R then x else
      match x with
      | S754_finite s m e => binary_round (fprec R) (femax R) s m e
      | _ => x
      end
  end.

(** [std::isfinite] *)
Definition isfinite (x : spec_float) : bool :=
  match x with S754_zero _ | S754_finite _ _ _ => true | _ => false end.

(** What happens to an element whose arguments are valid: a result is written and left
    unmarked; the element is marked; an assertion fails; the types do not give a floating
    point result. *)
Inductive element := Written (r : spec_float) | Marked | AssertionFailed | NotFloat.

(** core/detail/binary_local_operation.h: the result is calculated, and the element is marked
    if the range policy says no.  [None]: the policy fails an assertion. *)
Definition checked (r : spec_float) (within_range : option bool) : element :=
  match within_range with
  | Some true => Written r
  | Some false => Marked
  | None => AssertionFailed
  end.

Section Debug.
(** assertions are enabled *)
Variable debug : bool.

(** add.h:160-234 *)
Definition fadd_within_range (n1 n2 : num) (r : spec_float) : option bool :=
  match n1, n2 with
  | NFloat _ _, NFloat _ _ => Some (isfinite r)
  | _, _ => Some true
  end.
(** add.h:239-258 *)
Definition fadd (n1 n2 : num) : element :=
  match result_format n1 n2 with
  | None => NotFloat
  | Some R =>
      let r := SFadd (fprec R) (femax R) (to_format R n1) (to_format R n2) in
      checked r (fadd_within_range n1 n2 r)
  end.

(** subtract.h:166-252 *)
Definition fsubtract_within_range (n1 n2 : num) (r : spec_float) : option bool :=
  match n1, n2 with
  | NFloat _ _, NFloat _ _ => Some (isfinite r)
  | _, _ => if debug && negb (isfinite r) then None else Some true
  end.
(** subtract.h:256-275 *)
Definition fsubtract (n1 n2 : num) : element :=
  match result_format n1 n2 with
  | None => NotFloat
  | Some R =>
      let r := SFsub (fprec R) (femax R) (to_format R n1) (to_format R n2) in
      checked r (fsubtract_within_range n1 n2 r)
  end.

(** multiply.h:197-270, 275-294 *)
Definition fmultiply (n1 n2 : num) : element :=
  match result_format n1 n2 with
  | None => NotFloat
  | Some R =>
      let r := SFmul (fprec R) (femax R) (to_format R n1) (to_format R n2) in
      checked r (Some (isfinite r))
  end.

(** divide.h (elementary):71-76: [is_not_equal(value2, Value2(0))]; core/math.h:48-87 *)
Definition fdivide_within_domain (n2 : num) : bool :=
  match n2 with
  | NInt t z => negb (z =? 0)
  | NFloat _ x => negb (SFeqb x (S754_zero false))
  end.
(** detail/divide.h:160-228, 233-254; the assertion repeats the domain policy *)
Definition fdivide (n1 n2 : num) : element :=
  match result_format n1 n2 with
  | None => NotFloat
  | Some R =>
      if fdivide_within_domain n2 then
        let r := SFdiv (fprec R) (femax R) (to_format R n1) (to_format R n2) in
        checked r (Some (isfinite r))
      else Marked
  end.
End Debug.

(** ** Rasters

    The four operations on arguments of the same floating point type, in the shape that
    [LocalModel] expects: the algorithm, the domain policy and the range policy.  The result of
    dividing by zero is not calculated. *)
Inductive operation := Plus | Minus | Times | Over.
Definition alg (R : fmt) (o : operation) (x y : spec_float) : spec_float :=
  match o with
  | Plus => SFadd (fprec R) (femax R) x y
  | Minus => SFsub (fprec R) (femax R) x y
  | Times => SFmul (fprec R) (femax R) x y
  | Over => SFdiv (fprec R) (femax R) x y
  end.
Definition alg_domain (R : fmt) (o : operation) (x y : spec_float) : bool :=
  match o with Over => fdivide_within_domain (NFloat R y) | _ => true end.
Definition alg_range (R : fmt) (o : operation) (x y r : spec_float) : bool := isfinite r.

(** ** Comparisons: detail/{less,less_equal,greater,greater_equal}.h:22-38

    [value1 < value2]: the usual arithmetic conversions convert both arguments to the wider
    floating point type, or an integer to the floating point type. *)
Definition fcompare (rel : spec_float -> spec_float -> bool) (n1 n2 : num) : option bool :=
  match result_format n1 n2 with
  | None => None
  | Some R => Some (rel (to_format R n1) (to_format R n2))
  end.
Definition fless (n1 n2 : num) := fcompare SFltb n1 n2.
Definition fless_equal (n1 n2 : num) := fcompare SFleb n1 n2.
Definition fgreater (n1 n2 : num) := fcompare (fun x y => SFltb y x) n1 n2.
Definition fgreater_equal (n1 n2 : num) := fcompare (fun x y => SFleb y x) n1 n2.
(** detail/equal.h:26-41, core/math.h:5-45: both arguments have the same type *)
Definition fequal (f : fmt) (x y : spec_float) : bool := SFeqb x y.
