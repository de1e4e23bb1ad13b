(** * Vocabulary for statements about the last frame *)

From Coq Require Import ZArith Reals List.
From Flocq Require Import Core IEEE754.BinarySingleNaN.
From Verif Require Import Num Geometry Transforms SpecDouble.
Local Open Scope R_scope.

(** A [double] coordinate as [float] holds it. *)
Definition as_float (x : f64) : f64 := widen (narrow x : f32).

(** The point [p] of the surface is drawn at its own coordinates, as [float]
    holds them, without perspective. *)
Definition drawn_in_place (q : vec4 f64) (p : vec f64) : Prop :=
  same_value (v4x q) (as_float (vx p)) /\ same_value (v4y q) (as_float (vy p)) /\ same_value (v4w q) (nof 1).

(** A [float] that is finite and at most [2^k] in size. *)
Definition float_within (k : Z) (x : f32) : Prop := is_finite x = true /\ Rabs (B2R x) <= bpow radix2 k.
Definition box_within (k : Z) (b : box f64) : Prop := point_within k (b_tl b) /\ point_within k (b_br b).

(** What the proofs ask of libm: pi is a moderate number, the sine of a finite
    number is finite and at most 1 in size; the cosine of zero is one and the sine
    of zero is zero (C11 F.10.1). *)
Definition sound_sine (L : Libm f64) : Prop :=
  within 2 tpi /\ forall x : f64, is_finite x = true -> within 0 (tsin x).
Definition sound_at_zero (L : Libm f32) : Prop :=
  forall g : f32, is_finite g = true -> B2R g = 0 ->
    is_finite (tcos g) = true /\ B2R (tcos g) = 1 /\ is_finite (tsin g) = true /\ B2R (tsin g) = 0.

(** The sixteen entries of a matrix, column by column. *)
Definition entries {F} (m : mat4 F) : list F :=
  flat_map (fun c => v4x c :: v4y c :: v4z c :: v4w c :: nil) (c0 m :: c1 m :: c2 m :: c3 m :: nil).

(** All entries are finite and are those of the identity. *)
Definition is_identity (m : mat4 f32) : Prop :=
  (forall x, In x (entries m) -> is_finite x = true) /\
  map B2R (entries m) = (1 :: 0 :: 0 :: 0 :: 0 :: 1 :: 0 :: 0 :: 0 :: 0 :: 1 :: 0 :: 0 :: 0 :: 0 :: 1 :: nil)%R.
