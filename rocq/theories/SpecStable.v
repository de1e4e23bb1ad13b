(** Vocabulary for the strength of a motion. *)

From Coq Require Import Reals List.
From Verif Require Import Num Geometry Outcome Wobbly Spec SpecStall.
Import ListNotations.
Local Open Scope R_scope.

(** On each axis no point is faster than [r] and no two neighbouring points are
    more than [r] out of place with respect to each other. *)
Definition tame (r : R) (m : model R) : Prop :=
  forall i, (i < 16)%nat ->
    Rabs (vx (nth i (mvel m) vzero)) <= r /\ Rabs (vy (nth i (mvel m) vzero)) <= r /\
    forall n, In n (neighbours (mw m) (mh m) i) ->
      let e := extension (nth i (mpos m) vzero) (nth (fst n) (mpos m) vzero) (snd n) in
      Rabs (vx e) <= r /\ Rabs (vy e) <= r.

(** Spring constants and frictions for which one round of integration damps
    every frequency of the mesh. *)
Definition damped (k friction : R) : Prop :=
  0 < k /\ 0 < friction /\ (2 + sqrt 2) / 4 * k + friction < 30.

(** Those for which the highest frequency of the mesh is amplified. *)
Definition amplified (k friction : R) : Prop :=
  0 < k /\ 30 < (2 + sqrt 2) / 4 * k + friction.
