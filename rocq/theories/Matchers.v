(** * The matchers for tests

    Models [matchers/mathematical_model_matcher.h]: the three models of functions
    with the matcher that compares a function with one, and the matcher for
    geometrical equality.

    Simplifications: the numbers of a model are [double] (the template argument
    of every use in the repository); the function that is matched is pure, so the
    order in which it is called does not matter; the streams are left out.
    [matchers/within_geometry_matcher.h] calls [contains] ([Geometry.box_contains])
    and nothing else. *)

From Coq Require Import ZArith Bool List.
From Flocq Require Import Core IEEE754.BinarySingleNaN.
From Verif Require Import Num Geometry Outcome.
Import ListNotations.

Section Models.
(** [std::log], [std::pow] and [M_E]. *)
Context {T : Type} `{Num T} (log : T -> T) (pow : T -> T -> T) (e : T).

(** [DataModel::Factory] (mathematical_model_matcher.h:82-83): from the function
    and the upper bound to the prediction. *)
Definition factory : Type := (Z -> T) -> Z -> T -> T.

(** [linear::Model] (mathematical_model_matcher.h:219-265). *)
Definition linear_model : factory := fun f upper =>
  let constant := f 0%Z in
  let gradient := nsub (f 1%Z) constant in
  fun t => nadd (nmul t gradient) constant.

(** [parabolic::Model] (mathematical_model_matcher.h:270-376). *)
Definition parabolic_model : factory := fun f upper =>
  let zero := f 0%Z in
  let one := f 1%Z in
  let top := f upper in
  let constant := zero in
  let coefficient := nsub one constant in
  let log_upper := log (nof upper) in
  let log_f := log (ndiv (nsub top constant) coefficient) in
  let exponent := ndiv log_f log_upper in
  fun t => nadd (nmul coefficient (pow t exponent)) constant.

(** [exponential::SolveForECoeff] and [SolveForXCoeff]
    (mathematical_model_matcher.h:118-145).  Their assertions on [x] hold for the
    only caller. *)
Definition solve_e_coeff (y constant : T) : T := nsub y constant.
Definition solve_x_coeff (y coefficient constant : T) : T :=
  let log_e := log (nmul coefficient e) in
  let log_yc := log (nsub y constant) in
  ndiv (nof 1) (nmul (nof (-1)) (ndiv log_e log_yc)).

(** [exponential::DecayModel] (mathematical_model_matcher.h:148-214). *)
Definition decay_model (constant : T) : factory := fun f upper =>
  let zero := f 0%Z in
  let one := f 1%Z in
  let coefficient := solve_e_coeff zero constant in
  let rate := solve_x_coeff one coefficient constant in
  fun t => nadd (nmul coefficient (pow e (nmul (nmul (nof (-1)) rate) t))) constant.

(** [close_at_tolerance] (mathematical_model_matcher.h:430-434). *)
Definition close_at_tolerance (lhs rhs epsilon : T) : bool := nltb (nabs (nsub rhs lhs)) epsilon.

(** [CollectForPowerRange] (mathematical_model_matcher.h:55-69): the places at
    which the function is sampled. *)
Definition powers (n : nat) : list Z := map (fun i => 2 ^ Z.of_nat i)%Z (seq 0 n).

(** [MathematicalModelMatcher::MatchAndExplain]
    (mathematical_model_matcher.h:723-779). *)
Definition satisfies_model (create : factory) (n : nat) (tolerance : T) (f : Z -> T) : bool :=
  let collection := map f (powers n) in
  let prediction := create f (2 ^ Z.of_nat n)%Z in
  fold_left (fun ok i =>
      let predicted := prediction (nof (2 ^ Z.of_nat i)%Z) in
      let actual := nth i collection nzero in
      if close_at_tolerance predicted actual tolerance then ok else false)
    (seq 0 (length collection)) true.

(** [AlmostEqMatcher] (mathematical_model_matcher.h:462-492) for numbers. *)
Definition almost_eq (value tolerance x : T) : bool := close_at_tolerance x value tolerance.

(** [GeometricallyEqualMatcher] (mathematical_model_matcher.h:501-581); [smallest]
    is [std::numeric_limits::min ()], used by [is_small]
    (mathematical_model_matcher.h:436-440). *)
Definition is_small (smallest value epsilon : T) : bool := close_at_tolerance value smallest epsilon.
Definition coordinate_eq (smallest epsilon lhs rhs : T) : bool :=
  if neqb rhs nzero then is_small smallest lhs epsilon else close_at_tolerance lhs rhs epsilon.
Definition geometrically_equal (smallest epsilon : T) (lhs rhs : vec T) : bool :=
  coordinate_eq smallest epsilon (vx lhs) (vx rhs) && coordinate_eq smallest epsilon (vy lhs) (vy rhs).
End Models.

(** The numbers for [double]: the least normal number, and [10e-7] as a [float]
    (mathematical_model_matcher.h:533). *)
Definition smallest64 : f64 := binary_normalize 53 1024 Hprec64 Hemax64 mode_NE 1 (-1022) false.
Definition epsilon64 : f64 := widen (narrow (nlit 10 10000000 : f64) : f32).
Definition geometrically_equal64 : vec f64 -> vec f64 -> bool := geometrically_equal smallest64 epsilon64.

(** The same matcher for points with [int] coordinates, where
    [std::numeric_limits <int>::min ()] is the most negative number. The
    difference is converted to [double] by [std::fabs]; below the tolerance it
    is 0. [None]: the subtraction overflows, which is undefined
    (mathematical_model_matcher.h:430-440, 528-553). *)
Definition int_min : Z := - 2 ^ 31.
Definition int_max : Z := 2 ^ 31 - 1.
Definition int_close (lhs rhs : Z) : option bool :=
  let d := (rhs - lhs)%Z in
  if ((int_min <=? d) && (d <=? int_max))%Z%bool then Some (d =? 0)%Z else None.
Definition int_coordinate_eq (lhs rhs : Z) : option bool :=
  if (rhs =? 0)%Z then int_close lhs int_min else int_close lhs rhs.
