(** * Specification vocabulary: a held point in [double] arithmetic *)

From Coq Require Import ZArith Reals List.
From Flocq Require Import Core IEEE754.BinarySingleNaN.
From Verif Require Import Num Geometry Wobbly SpecDouble.
Import ListNotations.
Local Open Scope R_scope.

(** The sum of two points in [double]. *)
Definition rounded_sum (x d : vec f64) : vec f64 := mkV (nadd (vx x) (vx d)) (nadd (vy x) (vy d)).

(** The displacements anchor [n] is given by a history: its own and those of the
    whole model. *)
Fixpoint displacements (n : nat) (ops : list (op f64)) : list (vec f64) :=
  match ops with
  | [] => []
  | OpMoveAnchor k d :: t => if Nat.eqb k n then d :: displacements n t else displacements n t
  | OpMoveBy d :: t => d :: displacements n t
  | _ :: t => displacements n t
  end.

(** Calls that only move anchors or the whole model, let time pass, or choose
    settings with a positive range. *)
Definition moves_only64 (o : op f64) : Prop :=
  match o with
  | OpMoveAnchor _ _ | OpStep _ | OpMoveBy _ => True
  | OpSettings st => nltb nzero (st_range st) = true
  | _ => False
  end.

(** The grid of a [w] x [h] model with its top-left corner at [q], computed in
    [double]. *)
Definition rounded_grid (q : vec f64) (w h : f64) : list (vec f64) :=
  map (fun i => mkV (nadd (vx q) (nmul (nof (Z.of_nat (i mod 4))) (ndiv w (nof 3))))
                    (nadd (vy q) (nmul (nof (Z.of_nat (i / 4))) (ndiv h (nof 3))))) (seq 0 16).

(** No velocity anywhere. *)
Definition at_rest64 (velocities : list (vec f64)) : Prop := Forall (fun v => is_zero (vx v) /\ is_zero (vy v)) velocities.

(** The exact sum of some displacements. *)
Definition exact_total (ds : list (vec f64)) : vec R :=
  mkV (fold_right Rplus 0 (map (fun d => B2R (vx d)) ds)) (fold_right Rplus 0 (map (fun d => B2R (vy d)) ds)).

(** All the points reached from [x] by adding some displacements one by one. *)
Fixpoint stations (x : vec f64) (ds : list (vec f64)) : list (vec f64) :=
  x :: match ds with [] => [] | d :: t => stations (rounded_sum x d) t end.

(** A whole multiple of [2^u]. *)
Definition multiple (u : Z) (x : f64) : Prop := is_finite x = true /\ exists k : Z, B2R x = IZR k * bpow radix2 u.
Definition point_multiple (u : Z) (p : vec f64) : Prop := multiple u (vx p) /\ multiple u (vy p).
