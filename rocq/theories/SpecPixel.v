(** * Vocabulary for statements about drawn points in [float] and [double] *)

From Coq Require Import ZArith Reals List.
From Flocq Require Import Core IEEE754.BinarySingleNaN.
From Verif Require Import Num Geometry Transforms MagicLamp SpecAnim SpecDouble.
Local Open Scope R_scope.

(** The box of the plane that four finite [double]s stand for. *)
Definition real_box (b : box f64) : box R := mkB (real_point (b_tl b)) (real_point (b_br b)).

(** The point is drawn at most [e] from [(x, y)] on each axis, in the plane of the
    screen and without perspective. *)
Definition drawn_near (e : R) (q : vec4 f64) (x y : R) : Prop :=
  is_finite (v4x q) = true /\ is_finite (v4y q) = true /\ is_finite (v4z q) = true /\ is_finite (v4w q) = true /\
  Rabs (B2R (v4x q) - x) <= e /\ Rabs (B2R (v4y q) - y) <= e /\ B2R (v4z q) = 0 /\ B2R (v4w q) = 1.

(** At least one pixel wide and high. *)
Definition of_some_size (b : box R) : Prop := 1 <= vx (b_br b) - vx (b_tl b) /\ 1 <= vy (b_br b) - vy (b_tl b).

(** The point [p] of a surface lies in proportion [u], [v] of the box. *)
Definition lies_at (p : vec f64) (b : box R) (u v : R) : Prop :=
  finite_point p /\ 0 <= u <= 1 /\ 0 <= v <= 1 /\ real_point p = on_surface b u v.

(** The mean of the four corners of a cell, at the place [s], [t] in it. *)
Definition bilinear (s t : R) (tl tr bl br : vec R) : vec R :=
  let f x1 x2 x3 x4 := (1 - s) * (1 - t) * x1 + s * (1 - t) * x2 + (1 - s) * t * x3 + s * t * x4 in
  mkV (f (vx tl) (vx tr) (vx bl) (vx br)) (f (vy tl) (vy tr) (vy bl) (vy br)).

(** The coordinates of vertices next to each other in a row differ by at most
    [dh], those of vertices below each other by at most [dv]. *)
Definition apart (d : R) (v v' : vec f64) : Prop :=
  Rabs (B2R (vx v) - B2R (vx v')) <= d /\ Rabs (B2R (vy v) - B2R (vy v')) <= d.
Definition spaced (dh dv : R) (r : resolution) (g : list (vec f64)) : Prop :=
  forall i j i' j' v v',
    (0 <= i < rw r)%Z -> (0 <= i' < rw r)%Z -> (0 <= j < rh r)%Z -> (0 <= j' < rh r)%Z ->
    vertex r g i j = Some v -> vertex r g i' j' = Some v' ->
    ((Z.abs (i' - i) <= 1)%Z -> j = j' -> apart dh v v') /\ (i = i' -> (Z.abs (j' - j) <= 1)%Z -> apart dv v v').

(** What the last frame of the magic lamp needs of its parameters: boxes with
    coordinates up to 2^k and tops at least a pixel apart; the factors in their
    ranges, the stretch factor below 1. *)
Definition lamp_fit (k : Z) (q : lamp_params f32 f64) : Prop :=
  let top b := B2R (vy (b_tl b)) in
  point_within k (b_tl (lp_source q)) /\ point_within k (b_br (lp_source q)) /\
  point_within k (b_tl (lp_target q)) /\ point_within k (b_br (lp_target q)) /\
  1 <= Rabs (top (lp_source q) - top (lp_target q)) /\
  is_finite (lp_bend q) = true /\ 1 <= B2R (lp_bend q) <= 512 /\
  is_finite (lp_offset q) = true /\ 0 < B2R (lp_offset q) <= 1 /\
  is_finite (lp_stretch q) = true /\ 0 <= B2R (lp_stretch q) < 1 /\
  is_finite (lp_speed q) = true.

(** A rough exponential function: no more is asked of libm. *)
Definition rough_exp (L : Libm f64) : Prop :=
  forall y : f64, is_finite y = true -> Rabs (B2R y) <= 512 ->
    is_finite (texp y) = true /\ 0 <= B2R (texp y) <= bpow radix2 1000 /\
    (0 <= B2R y -> 1 <= B2R (texp y)) /\ (1 / 2 <= B2R y -> 3 / 2 <= B2R (texp y)) /\
    (B2R y <= 0 -> B2R (texp y) <= 1) /\ (B2R y <= - (1 / 2) -> B2R (texp y) <= 2 / 3).
