(** * Vocabulary for statements about [double] arithmetic *)

From Coq Require Import ZArith Reals List.
From Flocq Require Import Core IEEE754.BinarySingleNaN.
From Verif Require Import Num Geometry Wobbly Spec.
Import ListNotations.
Local Open Scope R_scope.

Definition finite_point (p : vec f64) : Prop := is_finite (vx p) = true /\ is_finite (vy p) = true.

(** The same number: both finite and equal as reals ([-0.0] equals [0.0]). *)
Definition same_value (x y : f64) : Prop := is_finite x = true /\ is_finite y = true /\ B2R x = B2R y.
Definition same_point_value (p q : vec f64) : Prop := same_value (vx p) (vx q) /\ same_value (vy p) (vy q).

(** The point of the plane that a pair of finite [double]s stands for. *)
Definition real_point (p : vec f64) : vec R := mkV (B2R (vx p)) (B2R (vy p)).

(** Not farther than another distance, up to rounding. *)
Definition about_le (d e : R) : Prop := d <= (1 + bpow radix2 (-48)) * e + bpow radix2 (-526).

(** Finite and at most [2^k] in size. *)
Definition within (k : Z) (x : f64) : Prop := is_finite x = true /\ Rabs (B2R x) <= bpow radix2 k.
Definition point_within (k : Z) (p : vec f64) : Prop := within k (vx p) /\ within k (vy p).

(** The exact offset of two points from a rest vector, on each axis. *)
Definition offset_x (pa pb len : vec f64) : R := B2R (vx pb) - B2R (vx pa) - B2R (vx len).
Definition offset_y (pa pb len : vec f64) : R := B2R (vy pb) - B2R (vy pa) - B2R (vy len).

(** The distances a call compares are far from overflow; sizes are positive. *)
Definition in_double_range (m : model f64) (o : op f64) : Prop :=
  match o with
  | OpGrab q => point_within 500 q /\ forall r, In r (mpos m) -> point_within 500 r
  | OpInsert q => point_within 500 q /\ forall l r, place m l = Some r -> point_within 500 r
  | OpResize w h => (is_finite w = true /\ 0 < B2R w) /\ (is_finite h = true /\ 0 < B2R h)
  | _ => True
  end.

(** The mesh and the anchors are where they were. *)
Definition same_places (m m' : model f64) : Prop :=
  Forall2 same_point_value (mpos m) (mpos m') /\
  (forall b, place m' (LBlk b) = place m (LBlk b)) /\
  mtargets m' = mtargets m /\ msprings m' = msprings m /\ mw m' = mw m /\ mh m' = mh m /\ mhandles m' = mhandles m.

(** All coordinates that enter the computation of forces are finite and at most
    [2^1000] in size. *)
Definition not_huge (m : model f64) : Prop :=
  (forall q, In q (mpos m) -> point_within 1000 q) /\
  (forall s, In s (msprings m) ->
     point_within 1000 (s_len s) /\
     forall l q, l = s_pa s \/ l = s_pb s -> place m l = Some q -> point_within 1000 q).

Definition is_zero (x : f64) : Prop := is_finite x = true /\ B2R x = 0.

(** The force on one axis of a spring of stiffness [k] that is [e] longer than
    its rest vector: none below half a unit, half the extension times [k], up to
    [err], from two units on. *)
Definition rounded_pull (err k e f : R) : Prop :=
  (Rabs e <= 1 / 2 -> f = 0) /\ (2 <= Rabs e -> Rabs (f - k * (e / 2)) <= err).

(** A finite point at most [err] from an exact one, on each axis. *)
Definition near_point (err : R) (p : vec f64) (q : vec R) : Prop :=
  finite_point p /\ Rabs (B2R (vx p) - vx q) <= err /\ Rabs (B2R (vy p) - vy q) <= err.
