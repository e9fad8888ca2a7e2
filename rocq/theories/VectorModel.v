(** * Slope, laplacian and lax

    Models [algorithm/space/focal/detail/slope.h], [algorithm/algebra/vector/detail/laplacian.h]
    and [algorithm/algebra/vector/detail/lax.h]: algorithms that consist of calls of other
    algorithms, the results of which are kept in temporaries.

    Simplifications.  Arithmetic is a parameter that need not obey any law.  Temporaries and
    scalar arguments are buffers that exist already: what they hold is stated by
    [slope_scalars] and the like, and by [fresh].  The assertions that the sizes of the argument
    and the result are the same are left out: there is one size.  The out-of-range policy that
    is passed to slope and laplacian is not used by them.  Booleans are the numbers 0 and 1. *)

From Coq Require Import ZArith List Bool.
From Verif Require Import LangModel ConcModel IndexModel LoopModel PolicyModel LocalModel
  ConvolveModel.
Import ListNotations.
Open Scope Z_scope.
Open Scope prog_scope.

(** Floating point arithmetic.  [finite] is what the range policies of divide.h, multiply.h,
    subtract.h, add.h and pow.h in algorithm/algebra/elementary/ test of a floating point
    result; [is_zero] is what the domain policy of divide.h tests of the denominator. *)
Record floats (V : Type) := {
  lit : Z -> V;
  fadd : V -> V -> V; fsub : V -> V -> V; fmul : V -> V -> V; fdiv : V -> V -> V;
  fpow : V -> V -> V; fsqrt : V -> V;
  finite : V -> bool; is_zero : V -> bool
}.
Arguments lit {V}. Arguments fadd {V}. Arguments fsub {V}. Arguments fmul {V}.
Arguments fdiv {V}. Arguments fpow {V}. Arguments fsqrt {V}. Arguments finite {V}.
Arguments is_zero {V}.

(** A call of an algorithm: what is executed by the sequential execution policy, and what the
    parallel one submits to the thread pool, given the number of threads. *)
Record call (V : Type) := {
  sequentially : prog V unit;
  in_parallel : Z -> option (list (prog V unit))
}.
Arguments sequentially {V}. Arguments in_parallel {V}.

Section Calls.
Context {V : Type}.

(** The calls one after the other. *)
Fixpoint in_order (calls : list (call V)) : prog V unit :=
  match calls with
  | [] => skip
  | c :: calls' => sequentially c ;;; in_order calls'
  end.

(** For each of the calls its tasks; after the last of them nothing else is done. *)
Fixpoint submitted (n : Z) (calls : list (call V))
  : option (list (list (prog V unit) * prog V unit)) :=
  match calls with
  | [] => Some []
  | c :: calls' =>
      match in_parallel c n, submitted n calls' with
      | Some tasks, Some l => Some ((tasks, skip) :: l)
      | _, _ => None
      end
  end.

(** Whether [ArgumentTraits] of the type of a collection has policies that mark and detect
    no-data in a mask (algorithm/core/argument_traits/masked_raster.h), or that do
    neither (e.g. example/algorithm/raster_argument_traits.h). *)
Inductive storage := Unmasked | HasMask.

(** algorithm/core/argument_traits.h:97-103.  [b] is the temporary. *)
Definition temporary_out (op : outpol V) (st : storage) (b : buf) : outpol V :=
  match op with
  | DontMarkNoData => DontMarkNoData
  | _ => match st with Unmasked => DontMarkNoData | HasMask => MarkByMask b true end
  end.

(** algorithm/core/argument_traits.h:124-130.  The type that is compared to [SkipNoData] is the
    tuple of policies that is passed in, [InputNoDataPolicies<...>], so it never is that type. *)
Definition temporary_in (st : storage) (b : buf) : inpol V :=
  match st with Unmasked => SkipNoData | HasMask => DetectByMask b true end.
End Calls.

Section Vector.
Context {V SV SW : Type}.
Variable fl : floats V.
Variables (rows cols : Z).

(** A local operation that is called for blocks. *)
Definition local_call (opf : block2 -> prog V unit) : call V :=
  {| sequentially := opf (whole2 rows cols);
     in_parallel := fun n => par2 n rows cols opf |}.

(** A convolution that keeps no-data focus elements; its out-of-range policy is part of [ar]. *)
Definition convolution_call (ar : arith V V SV SW) (ip : inpol V) (op : outpol V) (src dst : buf)
    (k : kernel V) (alt : alternative) (oi : out_of_image) : call V :=
  {| sequentially := convolve_sequential ar ip op src dst rows cols k alt oi true;
     in_parallel := convolve_parallel ar ip op src dst rows cols k alt oi true |}.

(** [Square<Float, 1>]; convolution/neighborhood/square.h:22-53 *)
Definition square (l : list Z) : kernel V :=
  {| radius := 1; weights := fun i => lit fl (nth (Z.to_nat i) l 0); weigh_values := true |}.

(** algebra/elementary/{divide,pow,add,subtract,multiply,sqrt}.h, with the policies with which
    they are called here *)
Definition divide_by ip op a c rb : call V :=
  local_call (binary_2d_0d (fdiv fl) (fun _ y => negb (is_zero fl y)) (fun _ _ r => finite fl r)
    ip SkipNoData op a c rb cols).
Definition power ip op a c rb : call V :=
  local_call (binary_2d_0d (fpow fl) (fun _ _ => true) (fun _ _ r => finite fl r)
    ip SkipNoData op a c rb cols).
Definition add_call ip1 ip2 op a1 a2 rb : call V :=
  local_call (binary_2d_2d (fadd fl) (fun _ _ => true) (fun _ _ r => finite fl r)
    ip1 ip2 op a1 a2 rb cols).
Definition subtract_call ip1 ip2 op a1 a2 rb : call V :=
  local_call (binary_2d_2d (fsub fl) (fun _ _ => true) (fun _ _ r => finite fl r)
    ip1 ip2 op a1 a2 rb cols).
Definition multiply_call ip1 ip2 op a1 a2 rb : call V :=
  local_call (binary_2d_2d (fmul fl) (fun _ _ => true) (fun _ _ r => finite fl r)
    ip1 ip2 op a1 a2 rb cols).
Definition scale ip op c a rb : call V :=
  local_call (binary_0d_2d (fmul fl) (fun _ _ => true) (fun _ _ r => finite fl r)
    SkipNoData ip op c a rb cols).
Definition root ip op a rb : call V :=
  local_call (unary_2d (fsqrt fl) (fun _ => true) (fun _ _ => true) ip op a rb cols).

Section Slope.
(** [DontDivideByWeights], [convolve::OutOfRangePolicy] *)
Variable ar : arith V V SV SW.
(** The storage of the argument (and of its clones) and of the result. *)
Variables (st_value st_result : storage).
Variables (ip : inpol V) (op : outpol V).
(** The argument, the result, the temporaries, and the scalars. *)
Variables (value result dz_dx dz_dy : buf).
Variables (eight_x eight_y two : buf).

(** slope.h:81-85 and 88-92 *)
Definition dz_dx_kernel : kernel V := square [1; 0; -1;  2; 0; -2;  1; 0; -1].
Definition dz_dy_kernel : kernel V := square [-1; -2; -1;  0; 0; 0;  1; 2; 1].

(** slope.h:124-125, 158-159, 170, 181 *)
Definition slope_scalars (cell_size : Z -> V) (m : mem V) : Prop :=
  mval m eight_x 0 = Some (fmul fl (lit fl 8) (cell_size 0)) /\
  mval m eight_y 0 = Some (fmul fl (lit fl 8) (cell_size 1)) /\
  mval m two 0 = Some (lit fl 2).

(** slope.h:94-207 *)
Definition slope_calls : list (call V) :=
  let op_x := temporary_out op st_value dz_dx in
  let op_y := temporary_out op st_value dz_dy in
  let ip_x := temporary_in st_value dz_dx in
  let ip_y := temporary_in st_value dz_dy in
  [ convolution_call ar ip op_x value dz_dx dz_dx_kernel NoDataByFocalAverage OutOfImageByFocalAverage;
    divide_by ip_x op_x dz_dx eight_x dz_dx;
    convolution_call ar ip op_y value dz_dy dz_dy_kernel NoDataByFocalAverage OutOfImageByFocalAverage;
    divide_by ip_y op_y dz_dy eight_y dz_dy;
    power ip_x op_x dz_dx two dz_dx;
    power ip_y op_y dz_dy two dz_dy;
    add_call ip_x ip_y op dz_dx dz_dy result;
    root (temporary_in st_result result) op result result ].
End Slope.

(** laplacian.h:88-92, lax.h:72-76 *)
Definition vector_kernel : kernel V := square [2; 3; 2;  3; 0; 3;  2; 3; 2].

Section Laplacian.
(** [DontDivideByWeights]; [convolve::OutOfRangePolicy] and [unary::DiscardRangeErrors] *)
Variables (ar : arith V V SV SW).
Definition discard_range_errors : arith V V SV SW :=
  {| zero_v := zero_v ar; zero_w := zero_w ar; add := add ar; add_scaled := add_scaled ar;
     add_weight := add_weight ar; add_one := add_one ar; nonzero := nonzero ar;
     average := average ar; in_range := fun _ => true; normalize := normalize ar |}.
(** The storage of the result and of its clone. *)
Variables (st_result : storage) (ip : inpol V) (op : outpol V).
Variables (value result defined defined_as_floats sum_of_weights multiplied : buf).
Variables (zero area : buf).

(** algebra/boole/detail/defined.h:35-57; laplacian.h:196 *)
Definition laplacian_scalars (cell_area : V) (m : mem V) : Prop :=
  mval m zero 0 = Some (lit fl 0) /\ mval m area 0 = Some cell_area.

(** laplacian.h:94-197.  Left out: the assertion of lines 131-137 about the maximum of the
    sums of weights. *)
Definition laplacian_calls : list (call V) :=
  [ convolution_call ar ip op value result vector_kernel SkipNoDataCells SkipOutOfImage;
    local_call (fill_2d SkipNoData DontMarkNoData zero defined cols);
    local_call (nullary_2d (fun _ => lit fl 1) ip DontMarkNoData defined cols);
    local_call (unary_2d (fun v => v) (fun _ => true) (fun _ _ => true)
      SkipNoData DontMarkNoData defined defined_as_floats cols);
    convolution_call discard_range_errors ip op defined_as_floats sum_of_weights vector_kernel
      SkipNoDataCells SkipOutOfImage;
    multiply_call SkipNoData ip (temporary_out op st_result multiplied) sum_of_weights value multiplied;
    subtract_call (temporary_in st_result result) (temporary_in st_result multiplied) op
      result multiplied result;
    divide_by (temporary_in st_result result) op result area result ].
End Laplacian.

Section Lax.
(** [DivideByWeights], [convolve::OutOfRangePolicy] *)
Variables (ar : arith V V SV SW) (ip : inpol V) (op : outpol V).
Variables (value result multiplied : buf).
Variables (fraction rest : buf).

(** lax.h:111, 128 *)
Definition lax_scalars (f : V) (m : mem V) : Prop :=
  mval m fraction 0 = Some f /\ mval m rest 0 = Some (fsub fl (lit fl 1) f).

(** lax.h:80-147 *)
Definition lax_calls : list (call V) :=
  [ convolution_call ar ip op value result vector_kernel SkipNoDataCells SkipOutOfImage;
    scale ip op fraction result result;
    scale ip op rest value multiplied;
    add_call SkipNoData ip op multiplied result result ].
End Lax.
End Vector.
