(** * Properties C26-C29: texture mapping and bounding boxes *)

From Coq Require Import ZArith Reals Bool List Lra.
From Flocq Require Import Core IEEE754.BinarySingleNaN.
From Verif Require Import Num Geometry Outcome Wobbly Spec SpecMesh Cases LemBezier.
Import ListNotations.
Local Open Scope R_scope.

(** ** C26 *)

(** In exact arithmetic, for every reachable model. *)
Theorem C26_corners :
  forall (p : vec R) (w h : R) (st : settings R) (ops : list (op R)) (m : model R),
    reached p w h st ops m ->
    nth_error (mpos m) 0 = Some (deform_texcoords (L:=R) m (mkV 0 0)) /\
    nth_error (mpos m) 3 = Some (deform_texcoords (L:=R) m (mkV 0 1)) /\
    nth_error (mpos m) 12 = Some (deform_texcoords (L:=R) m (mkV 1 0)) /\
    nth_error (mpos m) 15 = Some (deform_texcoords (L:=R) m (mkV 1 1)).
Proof. exact corners_reached. Qed.
Print Assumptions C26_corners.

(** In [double] arithmetic with [long double] accumulation, for every reachable
    model whose mesh is finite: the corners are hit without rounding error. *)
Theorem C26_corners_in_double :
  forall (p : vec f64) (w h : f64) (st : settings f64) (ops : list (op f64)) (m : model f64)
         (p0 p3 p12 p15 : vec f64),
    reached p w h st ops m ->
    (forall q, In q (mpos m) -> is_finite (vx q) = true /\ is_finite (vy q) = true) ->
    nth_error (mpos m) 0 = Some p0 -> nth_error (mpos m) 3 = Some p3 ->
    nth_error (mpos m) 12 = Some p12 -> nth_error (mpos m) 15 = Some p15 ->
    vequals (deform_texcoords (L:=f80) m (mkV (nof 0) (nof 0))) p0 = true /\
    vequals (deform_texcoords (L:=f80) m (mkV (nof 0) (nof 1))) p3 = true /\
    vequals (deform_texcoords (L:=f80) m (mkV (nof 1) (nof 0))) p12 = true /\
    vequals (deform_texcoords (L:=f80) m (mkV (nof 1) (nof 1))) p15 = true.
Proof. exact corners_reached_f64. Qed.
Print Assumptions C26_corners_in_double.

(** A deformed mesh with finite coordinates. *)
Example C26_case :
  exists m : model f64,
    reached (pt 0 0) (nof 90) (nof 90) usual
      [OpGrab (pt 0 0); OpMoveAnchor 0 (pt 7 5); OpStep 16] m /\
    (forall q, In q (mpos m) -> is_finite (vx q) = true /\ is_finite (vy q) = true) /\
    nth_error (mpos m) 15 <> None.
Proof.
  destruct (verdict_reached usual [OpGrab (pt 0 0); OpMoveAnchor 0 (pt 7 5); OpStep 16]
    (fun m _ => forallb (fun q => is_finite (vx q) && is_finite (vy q)) (mpos m) &&
                match nth_error (mpos m) 15 with Some _ => true | None => false end)%bool) as (m & Hr & us & C);
    [vm_compute; reflexivity|].
  apply andb_prop in C. destruct C as (C1 & C2). exists m. split; [exact Hr|]. split.
  - intros q Hq. rewrite forallb_forall in C1. apply andb_prop. apply C1. exact Hq.
  - destruct (nth_error (mpos m) 15); discriminate.
Qed.

(** ** C27 *)

(** The weights are non-negative, sum to 1 and do not depend on the mesh. *)
Theorem C27_convex_combination :
  forall (p : vec R) (w h : R) (st : settings R) (ops : list (op R)) (m : model R) (u v : R),
    reached p w h st ops m -> 0 <= u <= 1 -> 0 <= v <= 1 ->
    convex_weights (bezier_weights u v) /\ length (bezier_weights u v) = length (mpos m) /\
    deform_texcoords (L:=R) m (mkV u v) = combination (bezier_weights u v) (mpos m).
Proof. exact (fun p w h st ops m u v Hr => convex_reached p w h st ops m Hr u v). Qed.
Print Assumptions C27_convex_combination.

(** Every half-plane that contains the mesh contains the deformed point; with
    [(a, b)] one of (1,0), (-1,0), (0,1), (0,-1) these are the sides of boxes. *)
Theorem C27_inside_every_half_plane :
  forall (p : vec R) (w h : R) (st : settings R) (ops : list (op R)) (m : model R) (u v a b c : R),
    reached p w h st ops m -> 0 <= u <= 1 -> 0 <= v <= 1 ->
    (forall q, In q (mpos m) -> a * vx q + b * vy q <= c) ->
    a * vx (deform_texcoords (L:=R) m (mkV u v)) + b * vy (deform_texcoords (L:=R) m (mkV u v)) <= c.
Proof. exact (fun p w h st ops m u v a b c Hr => hull_reached p w h st ops m Hr u v a b c). Qed.
Print Assumptions C27_inside_every_half_plane.

Example C27_case :
  reached (mkV 0 0) 90 60 (mkSettings 8 3 500) [] (model_init (mkV 0 0) 90 60 (mkSettings 8 3 500) 0) /\
  0 <= 1 / 3 <= 1.
Proof. split; [apply fresh_reached|lra]. Qed.

(** ** C28 *)

Theorem C28_commutes_with_affine_maps :
  forall (p : vec R) (w h : R) (st : settings R) (ops : list (op R)) (m : model R) (a b c d e f : R) (uv : vec R),
    reached p w h st ops m ->
    deform_texcoords (L:=R) (set_pos m (map (affine a b c d e f) (mpos m))) uv =
    affine a b c d e f (deform_texcoords (L:=R) m uv).
Proof. exact (fun p w h st ops m a b c d e f uv Hr => affine_reached p w h st ops m Hr a b c d e f uv). Qed.
Print Assumptions C28_commutes_with_affine_maps.

(** On a new model the first texture component runs down and the second across. *)
Theorem C28_linear_on_a_resting_mesh :
  forall (p : vec R) (w h : R) (st : settings R) (next : Z) (u v : R),
    deform_texcoords (L:=R) (model_init p w h st next) (mkV u v) = mkV (vx p + v * w) (vy p + u * h).
Proof. exact (fun p w h st next u v => deform_grid p w h u v). Qed.
Print Assumptions C28_linear_on_a_resting_mesh.

(** ** C29 *)

Theorem C29_rounded_bounding_box :
  forall (p : vec R) (w h : R) (st : settings R) (ops : list (op R)) (m : model R),
    reached p w h st ops m ->
    (forall q, In q (mpos m) -> Rabs (vx q) <= Rmaxv /\ Rabs (vy q) <= Rmaxv) ->
    exists x0 x1 y0 y1 (a b c d : Z),
      least (map vx (mpos m)) x0 /\ greatest (map vx (mpos m)) x1 /\
      least (map vy (mpos m)) y0 /\ greatest (map vy (mpos m)) y1 /\
      rounds_to x0 a /\ rounds_to x1 b /\ rounds_to y0 c /\ rounds_to y1 d /\
      extremes m = (mkV (IZR a) (IZR c), mkV (IZR b) (IZR c), mkV (IZR a) (IZR d), mkV (IZR b) (IZR d)).
Proof. exact extremes_reached. Qed.
Print Assumptions C29_rounded_bounding_box.

(** No mesh point is missed by more than half a unit. *)
Theorem C29_misses_by_at_most_half :
  forall (m : model R) (q : vec R),
    (forall q, In q (mpos m) -> Rabs (vx q) <= Rmaxv /\ Rabs (vy q) <= Rmaxv) -> In q (mpos m) ->
    let '(tl, tr, bl, br) := extremes m in
    vx tl - 1 / 2 <= vx q <= vx br + 1 / 2 /\ vy tl - 1 / 2 <= vy q <= vy br + 1 / 2.
Proof. exact (fun m q => extremes_near (mpos m) q). Qed.
Print Assumptions C29_misses_by_at_most_half.

(** Every rounded mesh point is inside. *)
Theorem C29_contains_rounded_points :
  forall (m : model R) (q : vec R) (i j : Z),
    (forall q, In q (mpos m) -> Rabs (vx q) <= Rmaxv /\ Rabs (vy q) <= Rmaxv) -> In q (mpos m) ->
    rounds_to (vx q) i -> rounds_to (vy q) j ->
    let '(tl, tr, bl, br) := extremes m in vx tl <= IZR i <= vx br /\ vy tl <= IZR j <= vy br.
Proof. exact (fun m q => extremes_rounded (mpos m) q). Qed.
Print Assumptions C29_contains_rounded_points.

(** But not every mesh point: a new model at (1/2, 0). *)
Theorem C29_contains_all_points_refuted :
  let m := model_init (mkV (1 / 2) 0) 90 60 (mkSettings 8 3 500) 0 in
  exists q, In q (mpos m) /\ (let '(tl, tr, bl, br) := extremes m in vx q < vx tl).
Proof. exact half_box. Qed.
Print Assumptions C29_contains_all_points_refuted.
