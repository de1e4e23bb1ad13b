(** * The arithmetic the code is written in

    libanimation computes with C++ [double], [float] and [long double].  The
    code is transcribed once, over an abstract record of operations; this file
    gives that record and its instances:

    - [Num_R]   exact real arithmetic (for the geometric laws);
    - [Num_f64] IEEE-754 binary64, the C++ [double];
    - [Num_f32] IEEE-754 binary32, the C++ [float];
    - [Num_f80] x87 extended precision (64-bit significand), the C++
      [long double] on x86.

    The IEEE instances round to nearest, ties to even, one operation at a time,
    with a single NaN (Flocq's [BinarySingleNaN]): the code never inspects NaN
    payloads. *)

From Coq Require Import ZArith Reals Bool.
From Flocq Require Import Core IEEE754.BinarySingleNaN.

(** The operations used by the code. Comparisons are the C++ ones: they are
    false when an operand is NaN ([std::fabs]: wobbly_internal.h:91, 100;
    [::sqrt]: geometry_traits.h:342, 360; [std::round]: wobbly.cpp:1178;
    [numeric_limits]: wobbly.cpp:318-319, 1213-1214; truncation:
    magiclamp.cpp:149-150). *)
Class Num (T : Type) : Type := {
  nof    : Z -> T;               (* conversion of an integer (literal) *)
  nadd   : T -> T -> T;
  nsub   : T -> T -> T;
  nmul   : T -> T -> T;
  ndiv   : T -> T -> T;
  nopp   : T -> T;
  nabs   : T -> T;               (* std::fabs *)
  nsqrt  : T -> T;               (* ::sqrt *)
  nround : T -> T;               (* std::round: nearest integer, ties away *)
  nltb   : T -> T -> bool;
  nleb   : T -> T -> bool;
  neqb   : T -> T -> bool;
  nmax   : T;                    (* std::numeric_limits::max () *)
  ntrunc : T -> option Z         (* value truncated to an integer; None: NaN or infinite *)
}.

(** C++ [1], [0], and decimal literals [n/d]; with [n] and [d] exactly
    representable the quotient is the correctly rounded literal (for example
    wobbly.cpp:518-523, bounce.cpp:96-106). *)
Definition nzero {T} `{Num T} : T := nof 0.
Definition none_ {T} `{Num T} : T := nof 1.
Definition nlit {T} `{Num T} (n d : Z) : T := ndiv (nof n) (nof d).

(** [std::min (a, b)] is [(b < a) ? b : a], [std::max (a, b)] is [(a < b) ? b :
    a] (ISO C++ [alg.min.max]) (wobbly.cpp:1061, 1232, 1237;
    magiclamp.cpp:121-125). *)
Definition nmin2 {T} `{Num T} (a b : T) : T := if nltb b a then b else a.
Definition nmax2 {T} `{Num T} (a b : T) : T := if nltb a b then b else a.

(** [std::isnan x]: a value is NaN iff it is not equal to itself (only to
    describe [fmin] and [fmax] of math.h:30). *)
Definition nisnan {T} `{Num T} (a : T) : bool := negb (neqb a a).

(** C99 [fmin]/[fmax]: a NaN operand is ignored in favour of the other one
    (animation/math.h:30). *)
Definition nfmin {T} `{Num T} (a b : T) : T :=
  if nisnan a then b else if nisnan b then a else if nltb b a then b else a.
Definition nfmax {T} `{Num T} (a b : T) : T :=
  if nisnan a then b else if nisnan b then a else if nltb a b then b else a.

(** ** Real numbers *)

(** Decidable comparisons of reals, for the operators [<], [<=], [==] of
    wobbly_internal.h:84-104, wobbly.cpp:1061 and others. *)
Definition Rltb (x y : R) : bool := if Rlt_dec x y then true else false.
Definition Rleb (x y : R) : bool := if Rle_dec x y then true else false.
Definition Reqb (x y : R) : bool := if Req_EM_T x y then true else false.

(** The largest finite [double], as a real number ([std::numeric_limits
    <double>::max ()], wobbly.cpp:318-319, 1213-1214). *)
Definition Rmaxv : R := IZR (2 ^ 1024 - 2 ^ 971).

(** Exact arithmetic in the place of the [double] of geometry.h:260.
    Simplification: no rounding, no infinity, no NaN. *)
Global Instance Num_R : Num R := {
  nof    := IZR;
  nadd   := Rplus;
  nsub   := Rminus;
  nmul   := Rmult;
  ndiv   := Rdiv;
  nopp   := Ropp;
  nabs   := Rabs;
  nsqrt  := sqrt;
  nround := fun x => IZR (ZnearestA x);
  nltb   := Rltb;
  nleb   := Rleb;
  neqb   := Reqb;
  nmax   := Rmaxv;
  ntrunc := fun x => Some (Ztrunc x)
}.

(** ** IEEE formats *)

(** [static_cast <size_t>] before the range check (magiclamp.cpp:149-150). *)
Definition ieee_trunc {prec emax} (x : binary_float prec emax) : option Z :=
  match x with
  | B754_zero _ => Some 0%Z
  | B754_finite _ _ _ _ => Some (Btrunc x)
  | B754_infinity _ | B754_nan => None
  end.

(** The operations as the compiled code performs them on [float] (stepper.h:33),
    [double] (geometry.h:260) and [long double] (wobbly_internal.h:1299-1307).
    *)
Definition Num_IEEE (prec emax : Z) (Hp : Prec_gt_0 prec) (He : Prec_lt_emax prec emax)
  : Num (binary_float prec emax) := {|
  nof    := fun z => binary_normalize prec emax Hp He mode_NE z 0 false;
  nadd   := Bplus mode_NE;
  nsub   := Bminus mode_NE;
  nmul   := Bmult mode_NE;
  ndiv   := Bdiv mode_NE;
  nopp   := Bopp;
  nabs   := Babs;
  nsqrt  := Bsqrt mode_NE;
  nround := Bnearbyint mode_NA;
  nltb   := Bltb;
  nleb   := Bleb;
  neqb   := Beqb;
  nmax   := Bmax_float;
  ntrunc := ieee_trunc
|}.

Notation f32 := (binary_float 24 128).
Notation f64 := (binary_float 53 1024).
Notation f80 := (binary_float 64 16384).

(** The widths of [float] (stepper.h:33), [double] (geometry.h:260) and [long
    double] (wobbly_internal.h:1299-1307). *)
Global Instance Hprec32 : Prec_gt_0 24 := eq_refl.
Global Instance Hemax32 : Prec_lt_emax 24 128 := eq_refl.
Global Instance Hprec64 : Prec_gt_0 53 := eq_refl.
Global Instance Hemax64 : Prec_lt_emax 53 1024 := eq_refl.
Global Instance Hprec80 : Prec_gt_0 64 := eq_refl.
Global Instance Hemax80 : Prec_lt_emax 64 16384 := eq_refl.

Global Instance Num_f32 : Num f32 | 10 := Num_IEEE 24 128 Hprec32 Hemax32.
Global Instance Num_f64 : Num f64 | 10 := Num_IEEE 53 1024 Hprec64 Hemax64.
Global Instance Num_f80 : Num f80 | 10 := Num_IEEE 64 16384 Hprec80 Hemax80.

(** Conversion between formats ([static_cast] and the usual arithmetic
    conversions between [float], [double] and [long double])
    (magiclamp.cpp:89-130, transform_calculation.h:35,
    wobbly_internal.h:1299-1307). *)
Definition bconv {p1 e1} (p2 e2 : Z) (Hp : Prec_gt_0 p2) (He : Prec_lt_emax p2 e2)
    (x : binary_float p1 e1) : binary_float p2 e2 :=
  match x with
  | B754_zero s => B754_zero s
  | B754_infinity s => B754_infinity s
  | B754_nan => B754_nan
  | B754_finite s m e _ =>
      binary_normalize p2 e2 Hp He mode_NE (cond_Zopp s (Zpos m)) e s
  end.

(** Two number types used together, with the conversions between them
    (magiclamp.cpp:89-130, transform_calculation.h:35,
    wobbly_internal.h:1299-1307). *)
Class Conv (A B : Type) : Type := {
  widen  : A -> B;
  narrow : B -> A
}.

Global Instance Conv_R : Conv R R := {| widen := fun x => x; narrow := fun x => x |}.
Global Instance Conv_f32_f64 : Conv f32 f64 :=
  {| widen := bconv 53 1024 Hprec64 Hemax64; narrow := bconv 24 128 Hprec32 Hemax32 |}.
Global Instance Conv_f64_f80 : Conv f64 f80 :=
  {| widen := bconv 64 16384 Hprec80 Hemax80; narrow := bconv 53 1024 Hprec64 Hemax64 |}.
