(** * Elementary algebra on integers

    Models the algorithms and the range and domain policies of
    [algorithm/algebra/elementary/detail/{add,subtract,multiply,divide,absolute}.h], the
    comparisons and Boolean operations, and [algorithm/core/detail/result_value.h].

    Floating point arguments of the algorithms are in [FloatModel]. *)

From Coq Require Import ZArith Bool.
From Verif Require Import IntsModel.
Open Scope Z_scope.

(** ** Value type of the result: core/detail/result_value.h *)

Inductive vty := VBool | VInt (t : ity) | VFloat32 | VFloat64.

(** result_value.h:122-147: next larger signed type of an unsigned type *)
Definition next_signed (t : ity) : ity :=
  match t with U8 => S16 | U16 => S32 | U32 => S64 | _ => S64 end.

(** result_value.h:60-105 (same signedness: the larger one, the first on ties), 119-162 *)
Definition result_int (s t : ity) : ity :=
  if Bool.eqb (signed s) (signed t) then if width s <? width t then t else s
  else if signed s then if width s <? width (next_signed t) then next_signed t else s
  else if width t <? width (next_signed s) then next_signed s else t.

(** result_value.h:33-250; [None]: no nested [type], the program does not compile *)
Definition result_value (a b : vty) : option vty :=
  match a, b with
  | VBool, VBool => Some VBool
  | VInt s, VInt t => Some (VInt (result_int s t))
  | VFloat32, VFloat32 => Some VFloat32
  | VFloat64, VFloat32 | VFloat32, VFloat64 | VFloat64, VFloat64 => Some VFloat64
  | VFloat32, VInt _ | VInt _, VFloat32 => Some VFloat32
  | VFloat64, VInt _ | VInt _, VFloat64 => Some VFloat64
  | _, _ => None
  end.

Section Algorithms.
Variable wrapv : bool.

(** [static_cast<R>(value1) OP static_cast<R>(value2)], assigned to an [R]. *)
Definition op_in (op : Z -> Z -> Z) (R : ity) (v1 v2 : Z) : option Z :=
  option_map (conv R) (arith wrapv (promote R) (op (conv R v1) (conv R v2))).

(** ** add.h *)

(** add.h:239-258 *)
Definition add (T1 T2 : ity) (v1 v2 : Z) : option Z :=
  op_in Z.add (result_int T1 T2) v1 v2.

(** add.h:34-134 *)
Definition add_within_range (T1 T2 : ity) (v1 v2 r : Z) : bool :=
  let R := result_int T1 T2 in
  let mixed Ts s := if tv_gt (Ts, s) zero then tv_ge (R, r) (Ts, s)
                    else tv_le (R, r) (Ts, s) in
  match signed T1, signed T2 with
  | false, false => negb (tv_lt (R, r) (T1, v1))
  | true, true =>
      if tv_gt (T2, v2) zero then negb (tv_lt (R, r) (T1, v1))
      else negb (tv_gt (R, r) (T1, v1))
  | false, true => mixed T2 v2
  | true, false => mixed T1 v1
  end.

(** ** subtract.h *)

(** subtract.h:256-275 *)
Definition subtract (T1 T2 : ity) (v1 v2 : Z) : option Z :=
  op_in Z.sub (result_int T1 T2) v1 v2.

(** subtract.h:34-140 *)
Definition subtract_within_range (T1 T2 : ity) (v1 v2 r : Z) : bool :=
  let R := result_int T1 T2 in
  match signed T1, signed T2 with
  | false, false => negb (tv_gt (R, r) (T1, v1))
  | true, true =>
      if tv_gt (T2, v2) zero then negb (tv_gt (R, r) (T1, v1))
      else negb (tv_lt (R, r) (T1, v1))
  | _, _ =>
      if tv_gt (T2, v2) zero then tv_lt (R, r) (R, conv R v1)
      else tv_ge (R, r) (R, conv R v1)
  end.

(** ** multiply.h *)

(** multiply.h:275-294 *)
Definition multiply (T1 T2 : ity) (v1 v2 : Z) : option Z :=
  op_in Z.mul (result_int T1 T2) v1 v2.

Definition bind_tv {X} (o : option tv) (k : tv -> option X) : option X :=
  match o with Some x => k x | None => None end.

(** multiply.h:113-146 *)
Definition multiply_u_s (R T1 T2 : ity) (v1 v2 : Z) : option bool :=
  if tv_eq (T2, v2) (T2, 0) then Some true
  else if tv_gt (T2, v2) zero then
    bind_tv (tv_div (R, imax R) (T2, v2)) (fun q => Some (tv_le (T1, v1) q))
  else
    bind_tv (tv_neg wrapv (R, imax R)) (fun n =>
    bind_tv (tv_div n (T2, v2)) (fun q => Some (tv_le (T1, v1) q))).

(** multiply.h:63-110 *)
Definition multiply_s_s (R T1 T2 : ity) (v1 v2 : Z) : option bool :=
  if tv_eq (T2, v2) (T2, 0) then Some true
  else if tv_gt (T1, v1) (T1, 0) then
    if tv_gt (T2, v2) (T2, 0) then
      bind_tv (tv_div (R, imax R) (T2, v2)) (fun q => Some (tv_le (T1, v1) q))
    else
      bind_tv (tv_neg wrapv (T1, v1)) (fun n =>
      bind_tv (tv_div (R, imax R) (T2, v2)) (fun q => Some (tv_ge n q)))
  else
    if tv_lt (T2, v2) (T2, 0) then
      bind_tv (tv_div (R, imax R) (T2, v2)) (fun q => Some (tv_ge (T1, v1) q))
    else
      bind_tv (tv_neg wrapv (R, imax R)) (fun n =>
      bind_tv (tv_div n (T2, v2)) (fun q => Some (tv_ge (T1, v1) q))).

(** multiply.h:35-60 *)
Definition multiply_u_u (R T1 T2 : ity) (v1 v2 : Z) : option bool :=
  if tv_eq (T2, v2) (T2, 0) then Some true
  else bind_tv (tv_div (R, imax R) (T2, v2)) (fun q => Some (tv_le (T1, v1) q)).

(** multiply.h:35-195 *)
Definition multiply_within_range (T1 T2 : ity) (v1 v2 : Z) : option bool :=
  let R := result_int T1 T2 in
  match signed T1, signed T2 with
  | false, false => multiply_u_u R T1 T2 v1 v2
  | true, true => multiply_s_s R T1 T2 v1 v2
  | false, true => multiply_u_s R T1 T2 v1 v2
  | true, false => multiply_u_s R T2 T1 v2 v1
  end.

(** ** divide.h *)

(** algebra/elementary/divide.h:71-76 *)
Definition divide_within_domain (T2 : ity) (v2 : Z) : bool :=
  negb (tv_eq (T2, v2) (T2, 0)).

(** detail/divide.h:237-257; the assertion and MIN / -1 in the promoted type make it
    undefined *)
Definition divide (T1 T2 : ity) (v1 v2 : Z) : option Z :=
  let R := result_int T1 T2 in
  if v2 =? 0 then None
  else option_map (fun q : tv => conv R (snd q)) (tv_div (R, conv R v1) (R, conv R v2)).

(** detail/divide.h:36-157 *)
Definition divide_within_range (v1 v2 r : Z) : bool := true.

(** ** absolute.h; the result has the type of the argument *)

(** absolute.h:122-164; [std::abs] of a type smaller than [int] is that of [int] *)
Definition absolute (T : ity) (v : Z) : option Z :=
  if signed T then option_map (conv T) (arith wrapv (promote T) (Z.abs v)) else Some v.

(** absolute.h:33-89 *)
Definition absolute_within_range (T : ity) (v : Z) : bool :=
  if signed T then negb (tv_eq (T, v) (T, imin T)) else true.
End Algorithms.

(** ** Comparisons: elementary/detail/{less,less_equal,greater,greater_equal,equal}.h:21-38;
    [equal] only compiles for arguments of one type (core/math.h:5-13). *)
Definition less (T1 T2 : ity) (v1 v2 : Z) : bool := tv_lt (T1, v1) (T2, v2).
Definition less_equal (T1 T2 : ity) (v1 v2 : Z) : bool := tv_le (T1, v1) (T2, v2).
Definition greater (T1 T2 : ity) (v1 v2 : Z) : bool := tv_gt (T1, v1) (T2, v2).
Definition greater_equal (T1 T2 : ity) (v1 v2 : Z) : bool := tv_ge (T1, v1) (T2, v2).
Definition equal (T : ity) (v1 v2 : Z) : bool := tv_eq (T, v1) (T, v2).

(** ** Boolean operations: algebra/boole/detail/*.h:19-36 (xor.h, xnor.h:38-55 for
    Booleans).  [truth] is the conversion of an arithmetic value to [bool]; it is a
    parameter, so the definitions cover floating point types as well. *)
Section Boole.
Context {A B : Type} (truth1 : A -> bool) (truth2 : B -> bool).
Definition b_and (x : A) (y : B) : bool := truth1 x && truth2 y.
Definition b_or (x : A) (y : B) : bool := truth1 x || truth2 y.
Definition b_nor (x : A) (y : B) : bool := negb (truth1 x || truth2 y).
Definition b_xor (x : A) (y : B) : bool :=
  negb (Bool.eqb (negb (truth1 x)) (negb (truth2 y))).
Definition b_xnor (x : A) (y : B) : bool := Bool.eqb (negb (truth1 x)) (negb (truth2 y)).
Definition b_not (x : A) : bool := negb (truth1 x).
End Boole.

(** Conversion of an integer to [bool]. *)
Definition truth_int (z : Z) : bool := negb (z =? 0).
