(** * Specification vocabulary for displacement in machine arithmetic *)

From Coq Require Import ZArith Reals Bool List.
From Flocq Require Import Core IEEE754.BinarySingleNaN.
From Verif Require Import Num Geometry Outcome Wobbly Spec.
Import ListNotations.

(** [m'] is [m] after [d] has been added, in the arithmetic at hand, to every
    mesh point, every rest position and every held anchor; nothing else has
    changed. *)
Definition shifted {T} `{Num T} (d : vec T) (m m' : model T) : Prop :=
  mpos m' = map (fun q => vadd q d) (mpos m) /\
  mtargets m' = map (fun q => vadd q d) (mtargets m) /\
  (forall n, anchor_point m' n = option_map (fun q => vadd q d) (anchor_point m n)) /\
  mvel m' = mvel m /\ msprings m' = msprings m /\ mpending m' = mpending m /\
  mw m' = mw m /\ mh m' = mh m /\ mset m' = mset m /\
  mhandles m' = mhandles m /\ mtracked m' = mtracked m /\ mcount m' = mcount m /\
  munequal m' = munequal m /\ malive m' = malive m.

(** The real number [x] stands for; [moderate]: finite, and below 2^1000. *)
Definition moderate (x : f64) : Prop := is_finite x = true /\ (Rabs (B2R x) <= bpow radix2 1000)%R.
Definition moderate_pt (p : vec f64) : Prop := moderate (vx p) /\ moderate (vy p).

(** A whole number of pixels below 2^52. *)
Definition pixel (x : f64) : Prop := is_finite x = true /\ exists n : Z, B2R x = IZR n /\ (Z.abs n < 2 ^ 52)%Z.
Definition pixel_pt (p : vec f64) : Prop := pixel (vx p) /\ pixel (vy p).

(** [x] is the sum [a + b] up to a relative error of 2^-53, or exactly. *)
Definition near_sum (x a b : f64) : Prop :=
  is_finite x = true /\ (Rabs (B2R x - (B2R a + B2R b)) <= bpow radix2 (-53) * Rabs (B2R a + B2R b))%R.
Definition exact_sum (x a b : f64) : Prop := is_finite x = true /\ B2R x = (B2R a + B2R b)%R.
