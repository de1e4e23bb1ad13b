(** Vocabulary for a mesh that does not move: the pulls between neighbouring
    points of the grid. *)

From Coq Require Import ZArith Reals Bool List.
From Verif Require Import Num Geometry Outcome Wobbly Spec.
Import ListNotations.
Local Open Scope R_scope.

(** The points next to point [i] of the 4 by 4 mesh (row by row), each with the
    displacement from [i] that puts it at rest in a mesh of size [w] by [h]:
    right, left, below, above. *)
Definition neighbours (w h : R) (i : nat) : list (nat * vec R) :=
  (if Nat.ltb (i mod 4) 3 then [((i + 1)%nat, mkV (w / 3) 0)] else []) ++
  (if Nat.ltb 0 (i mod 4) then [((i - 1)%nat, mkV (- (w / 3)) 0)] else []) ++
  (if Nat.ltb (i / 4) 3 then [((i + 4)%nat, mkV 0 (h / 3))] else []) ++
  (if Nat.ltb 0 (i / 4) then [((i - 4)%nat, mkV 0 (- (h / 3)))] else []).

(** What the neighbours of point [i] pull on it together, for a spring constant
    [k] and points at [pos]. *)
Definition grid_pull (k w h : R) (pos : list (vec R)) (i : nat) : vec R :=
  fold_right (fun n f => vadd (pull k (nth i pos vzero) (nth (fst n) pos vzero) (snd n)) f) vzero (neighbours w h i).

(** Some point is a unit or more out of place with respect to a neighbour, on
    one axis. *)
Definition taut (w h : R) (pos : list (vec R)) : Prop :=
  exists i n, (i < 16)%nat /\ In n (neighbours w h i) /\ ~ slack (nth i pos vzero) (nth (fst n) pos vzero) (snd n).

(** No pull is enough to set a resting point of mass 15 in motion: the velocity
    it would gain, a fifteenth of it, is below a tenth on both axes. *)
Definition too_weak (k w h : R) (pos : list (vec R)) : Prop :=
  forall i, (i < 16)%nat ->
    Rabs (vx (grid_pull k w h pos i)) / 15 < 1 / 10 /\ Rabs (vy (grid_pull k w h pos i)) / 15 < 1 / 10.

(** All velocities are zero. *)
Definition motionless (m : model R) : Prop := mvel m = repeat vzero 16.
