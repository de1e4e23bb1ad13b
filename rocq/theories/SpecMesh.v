(** * Specification vocabulary for texture mapping and bounding boxes *)

From Coq Require Import ZArith Reals Bool List.
From Verif Require Import Num Geometry.
Import ListNotations.
Local Open Scope R_scope.

(** ** Bezier surfaces *)

(** The cubic Bernstein polynomials. *)
Definition bernstein (k : nat) (t : R) : R :=
  match k with
  | 0%nat => (1 - t) ^ 3
  | 1%nat => 3 * t * (1 - t) ^ 2
  | 2%nat => 3 * t ^ 2 * (1 - t)
  | _ => t ^ 3
  end.

Fixpoint sum (l : list R) : R := match l with [] => 0 | x :: t => x + sum t end.

(** The combination of points with the given weights. *)
Definition combination (ws : list R) (pts : list (vec R)) : vec R :=
  mkV (sum (map (fun wp => fst wp * vx (snd wp)) (combine ws pts)))
      (sum (map (fun wp => fst wp * vy (snd wp)) (combine ws pts))).

Definition convex_weights (ws : list R) : Prop := (forall w, In w ws -> 0 <= w) /\ sum ws = 1.

(** The weights of the 16 mesh points (row-major) at texture coordinate [(u, v)]:
    the first component selects the row. *)
Definition bezier_weights (u v : R) : list R :=
  map (fun i => bernstein (i / 4) u * bernstein (i mod 4) v) (seq 0 16).

(** An affine map of the plane. *)
Definition affine (a b c d e f : R) (p : vec R) : vec R :=
  mkV (a * vx p + b * vy p + e) (c * vx p + d * vy p + f).

(** ** Bounding boxes *)

(** [x] is the least (greatest) element of [l]. *)
Definition least (l : list R) (x : R) : Prop := In x l /\ forall y, In y l -> x <= y.
Definition greatest (l : list R) (x : R) : Prop := In x l /\ forall y, In y l -> y <= x.

(** [n] is the integer nearest to [x]; halves are rounded away from zero. *)
Definition rounds_to (x : R) (n : Z) : Prop :=
  Rabs (x - IZR n) < 1 / 2 \/ (Rabs (x - IZR n) = 1 / 2 /\ Rabs x < Rabs (IZR n)).
