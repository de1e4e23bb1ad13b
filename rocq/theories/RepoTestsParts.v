(** * The unit tests of the repository for parts of the library, run on the model

    See [RepoTests].  Here: texture mapping, constrainment, springs, anchor
    counts, zoom and the GObject interface of the wobbly model. *)

From Coq Require Import ZArith Bool List.
From Flocq Require Import Core IEEE754.BinarySingleNaN.
From Verif Require Import Num Geometry Outcome Wobbly Steppers Transforms Matchers GlibWobbly Cases RepoTests.
Import ListNotations.
Local Open Scope Z_scope.

(** *** tests/wobbly/mesh_interpolation_test.cpp *)

Definition texture_mesh : list (vec f64) := position_array (pt 0 0) (tile_size (nof 50) (nof 100)).
Definition unit_deformation (coord : vec f64 -> f64) (mesh : list (vec f64)) (i : Z) : f64 :=
  let u := ndiv (nof i) (nof 1024) in coord (deform_points (L := f80) mesh (mkV u u)).
Definition linear_in (coord : vec f64 -> f64) (mesh : list (vec f64)) : bool :=
  satisfies_model linear_model 10 (nlit 10 100000) (unit_deformation coord mesh).

(** LinearHorizontalDeformationForUniformScale,
    LinearVerticalDeformationForUniformScale
    (mesh_interpolation_test.cpp:140-186). *)
Example test_uniform_scale_is_linear :
  let mesh := map (fun p => vscale p (nof 2)) texture_mesh in
  linear_in vx mesh && linear_in vy mesh = true.
Proof. vm_compute. reflexivity. Qed.

(** NonLinearHorizontalDeformationForNonUniformScale
    (mesh_interpolation_test.cpp:188-216). *)
Example test_non_uniform_scale_is_not_linear :
  let mesh := map (fun i => vpscale (nth i texture_mesh vzero)
                                    (pt (Z.of_nat (i mod 4)) (Z.of_nat (i / 4)))) (seq 0 16) in
  linear_in vx mesh = false.
Proof. vm_compute. reflexivity. Qed.

(** ExtremesAreTextureEdges (mesh_interpolation_test.cpp:218-230). *)
Example test_extremes_are_edges :
  eqps [pt 0 0; pt 50 0; pt 0 100; pt 50 100] (extremes_of texture_mesh) = true.
Proof. vm_compute. reflexivity. Qed.

(** LinearDefinitionForNoTransformation (mesh_interpolation_test.cpp:241-303); the
    prediction of the test swaps the two unit coordinates. *)
Example test_unit_corners :
  forallb (fun uv =>
    let p := deform_points (L := f80) texture_mesh (zpt uv) in
    ceil_is (vx p) (snd uv * 50) && ceil_is (vy p) (fst uv * 100))
    [(0, 0); (0, 1); (1, 0); (1, 1)] = true.
Proof. vm_compute. reflexivity. Qed.

(** *** tests/wobbly/constrainment_test.cpp *)

Definition ten : f64 := nof 10.
Definition constrained (targets pos : list (vec f64)) : list (vec f64) * bool :=
  constrain_points ten targets pos.
Definition displaced (i : nat) (d : vec f64) : list (vec f64) :=
  list_set i (vadd (nth i texture_mesh vzero) d) texture_mesh.
Definition all_eqp (l l' : list (vec f64)) : bool :=
  Nat.eqb (length l) (length l') && forallb (fun x => eqp (fst x) (snd x)) (combine l l').

(** PointsNotAffectedWhereNoAnchorGrabbed, ReturnsTrueWhereConstrainmentTookPlace,
    ReturnsFalseWhereNoConstrainmentTookPlace, ConstrainedToPointsOnTargetMesh
    (constrainment_test.cpp:113-186); the first, here, even with a displaced point. *)
Example test_constrainment_inactive :
  all_eqp (fst (constrainment texture (displaced 1 (pt 20 20)))) (displaced 1 (pt 20 20)) = true.
Proof. vm_compute. reflexivity. Qed.
Example test_constrainment_true : snd (constrained texture_mesh (displaced 1 (pt 20 20))) = true.
Proof. vm_compute. reflexivity. Qed.
Example test_constrainment_false : snd (constrained texture_mesh (displaced 1 (pt 5 0))) = false.
Proof. vm_compute. reflexivity. Qed.
Example test_constrained_to_target :
  all_eqp (fst (constrained (map (fun p => vadd p (pt 20 0)) texture_mesh) texture_mesh))
          (map (fun p => vadd p (pt 10 0)) texture_mesh) = true.
Proof. vm_compute. reflexivity. Qed.

(** ConstrainmentStepPositions (constrainment_test.cpp:188-328) with its
    parameters: the index and the ratio of the two components. *)
Definition constrainment_params : list (nat * Z) := [(0%nat, -1); (3%nat, 1); (12%nat, 0); (15%nat, 0)].
Definition for_each_ratio (t : nat -> Z -> Z -> bool) : bool :=
  forallb (fun x => let '(i, r) := x in t i r ((1 - Z.abs r) * Z.sgn r)) constrainment_params.
Definition point_of (i : nat) (r : list (vec f64) * bool) : vec f64 := nth i (fst r) vzero.
Example test_within_range_unaffected :
  for_each_ratio (fun i x y =>
    eqp (point_of i (constrained texture_mesh (displaced i (pt (5 * x) (5 * y)))))
        (vadd (nth i texture_mesh vzero) (pt (5 * x) (5 * y)))) = true.
Proof. vm_compute. reflexivity. Qed.
Example test_outside_range_clamped :
  for_each_ratio (fun i x y =>
    eqp (point_of i (constrained texture_mesh (displaced i (pt (100 * x) (100 * y)))))
        (vadd (nth i texture_mesh vzero) (pt (10 * x) (10 * y)))) = true.
Proof. vm_compute. reflexivity. Qed.
Example test_even_resize_unaffected :
  let big := map (rescale (nth 0 texture_mesh vzero) (pt 40 40)) texture_mesh in
  for_each_ratio (fun i _ _ => eqp (point_of i (constrained big big)) (nth i big vzero)) = true.
Proof. vm_compute. reflexivity. Qed.
Example test_uneven_resize_affected :
  let big := map (rescale (pt 2 2) (pt 40 40)) texture_mesh in
  for_each_ratio (fun i _ _ => negb (eqp (point_of i (constrained texture_mesh big)) (nth i big vzero))) = true.
Proof. vm_compute. reflexivity. Qed.

(** *** tests/wobbly/spring_test.cpp

    Two objects at (50, 50) and (100, 100), joined by one spring at rest
    (spring_test.cpp:108-158). *)
Definition spring_between (len : vec f64) : spring f64 := mkSpring (LMesh 0) (LMesh 1) (LMesh 0) (LMesh 1) len 1.
Definition objects (a b : vec f64) : mem f64 := mkMem [a; b] [vzero; vzero] [].
Fixpoint apply_times (n : nat) (k : f64) (s : spring f64) (m : mem f64) : res (mem f64) :=
  match n with
  | O => Ok m
  | S n' => r <- apply_forces k s m ;; apply_times n' k s (fst r)
  end.
Definition forces_are (n : nat) (len a b fa fb : vec f64) : bool :=
  passes (m <- apply_times n halfk (spring_between len) (objects a b) ;;
          Ok (eqp (nth 0 (m_force m) vzero) fa && eqp (nth 1 (m_force m) vzero) fb)).
Definition force_remains (k : f64) (s : spring f64) (a b : vec f64) : bool :=
  passes (r <- apply_forces k s (objects a b) ;; Ok (snd r)).

(** NoForceAppliedWhenNoDeltaFromDesired, ForceAppliedToFirstObject…,
    ForceAppliedToSecondObject…, ForceAccumulatesWithApplications
    (spring_test.cpp:160-233): the force is half the spring constant times the
    difference. *)
Example test_no_force_at_rest : forces_are 1 (pt 50 50) (pt 50 50) (pt 100 100) (pt 0 0) (pt 0 0) = true.
Proof. vm_compute. reflexivity. Qed.
Example test_force_proportional :
  let f := mkV (nlit 5 2) (nlit 5 2) in
  forces_are 1 (pt 50 50) (pt 40 40) (pt 100 100) f (vscale f (nof (-1))) = true.
Proof. vm_compute. reflexivity. Qed.
Example test_force_accumulates :
  let f := mkV (nlit 15 2) (nlit 15 2) in
  forces_are 3 (pt 50 50) (pt 40 40) (pt 100 100) f (vscale f (nof (-1))) = true.
Proof. vm_compute. reflexivity. Qed.

(** ForceRelationshipIsLinearlyRelatedToDistance, ForceClippedWithVerySmallDelta
    (spring_test.cpp:235-270). *)
Definition force_by_distance (d : Z) : f64 :=
  match apply_forces halfk (spring_between (pt 50 50)) (objects (pt (50 - d) 50) (pt (100 + d) 100)) with
  | Ok (m, _) => vx (nth 0 (m_force m) vzero)
  | Err _ => nzero
  end.
Example test_force_linear : satisfies_model linear_model 10 (nlit 10 10000000) force_by_distance = true.
Proof. vm_compute. reflexivity. Qed.
Example test_force_clipped :
  forces_are 1 (pt 50 50) (mkV (nsub (nof 50) (nmul clip_threshold (nlit 11 10))) (nof 50)) (pt 100 100) (pt 0 0) (pt 0 0)
  = true.
Proof. vm_compute. reflexivity. Qed.

(** ApplyForcesReturnsTrueIfForceRemaining, …FalseIfNoForceRemaining,
    ForceExistsAfterLengthScaled, NoForceAfterLengthScaledAndObjectsMoved
    (spring_test.cpp:272-311). *)
Example test_force_remaining :
  force_remains halfk (spring_between (pt 50 50)) (pt 40 50) (pt 100 100) = true.
Proof. vm_compute. reflexivity. Qed.
Example test_no_force_remaining :
  force_remains nzero (spring_between (pt 50 50)) (pt 50 50) (pt 100 100) = false.
Proof. vm_compute. reflexivity. Qed.
Example test_scaled_length :
  let s := scale_length (pt 2 2) (spring_between (pt 50 50)) in
  force_remains halfk s (pt 50 50) (pt 100 100) = true /\
  force_remains halfk s (pt 50 50) (pt 150 150) = false.
Proof. vm_compute. split; reflexivity. Qed.

(** *** tests/wobbly/anchor_test.cpp *)

Definition first_grabbed (l : list lock_op) : res (option nat) :=
  t <- lock_run (tracked_init 3) l ;; Ok (t_first t).
Example test_tracked_anchors :
  first_grabbed [] = Ok None /\
  first_grabbed [Lock 1] = Ok (Some 1%nat) /\
  first_grabbed [Lock 1; Lock 2] = Ok (Some 1%nat) /\
  first_grabbed [Lock 0; Lock 1; Lock 1; Lock 2; Lock 2; Lock 2; Unlock 0] = Ok (Some 2%nat) /\
  first_grabbed [Lock 0; Lock 1; Lock 2; Unlock 0; Unlock 1; Unlock 2] = Ok None.
Proof. vm_compute. repeat split. Qed.

(** *** tests/zoom/zoom_animation_test.cpp *)

Definition zbox (a b c d : Z) : box f64 := mkB (pt a b) (pt c d).
Definition lin200 : linear f32 := linear_new (nof 200).
Definition lands (call : linear f32 -> Z -> f32 * linear f32) (from : box f64) (ms : list Z)
    (lo hi : Z) : bool :=
  let a := fold_left (fun a t => zoom_do call a (ZmStep t)) ms
             (zoom_new call from (zbox 200 200 300 300) lin200) in
  let shown p := let q := zoom_extreme a p in mkV (nadd (v4x q) (nof 200)) (nadd (v4y q) (nof 200)) in
  vequals (shown (pt 0 0)) (pt lo lo) && vequals (shown (pt 100 100)) (pt hi hi).

(** AnimationIncompleteBeforeLengthTimesteps, AnimationCompleteAfterLengthTimesteps
    (zoom_animation_test.cpp:54-75). *)
Example test_zoom_completes :
  snd (zoom_step linear_call 199 (zoom_new linear_call (zbox 0 0 100 100) (zbox 100 100 200 200) lin200)) = true /\
  snd (zoom_step linear_call 200 (zoom_new linear_call (zbox 0 0 100 100) (zbox 100 100 200 200) lin200)) = false.
Proof. vm_compute. split; reflexivity. Qed.

(** AnimatesToCorrectPositionAfterLengthTimesteps,
    AnimatesToCorrectReversePositionAfterLengthTimesteps,
    StartsAtCorrectPositionAtZeroTimesteps, AtCorrectPositionAfterHalfwayPoint
    (zoom_animation_test.cpp:77-166). *)
Example test_zoom_positions :
  lands linear_call (zbox 100 100 200 200) [200] 200 300 = true /\
  lands (reverse_call linear_call) (zbox 100 100 150 150) [200] 100 150 = true /\
  lands linear_call (zbox 100 100 200 200) [] 100 200 = true /\
  lands linear_call (zbox 100 100 200 200) [100] 150 250 = true.
Proof. vm_compute. repeat split. Qed.

(** *** tests/wobbly/glib_api_test.cpp *)

Definition glib_model : res (gworld f64) :=
  gw_new (Some (pt 0 0)) (Some (pt 100 100)) (Some (nof 8)) (Some (nof 5)) (Some (nof 500)) 0.
Definition glib (ops : list (gop f64)) : res (gworld f64) :=
  g <- glib_model ;; r <- gw_run 300 g ops ;; Ok (fst r).
Fixpoint glib_settle (n : nat) (g : gworld f64) : res (gworld f64) :=
  match n with
  | O => Err NoFuel
  | S n' =>
      r <- gw_do 300 g (GStep 1) ;;
      match snd (snd r) with
      | [OMore true] => glib_settle n' (fst r)
      | _ => Ok (fst r)
      end
  end.
Definition glib_extremes (g : gworld f64) (l : list (vec f64)) : res bool :=
  e <- gw_extremes g ;; Ok (eqps l e).

(** MoveModelChangesExtremes, ResizeModelChangesExtremes, GrabCorrectIndex
    (glib_api_test.cpp:155-245). *)
Example test_glib_move :
  passes (g <- glib [GMoveTo (pt 1 1)] ;; glib_extremes g [pt 1 1; pt 101 1; pt 1 101; pt 101 101]) = true.
Proof. vm_compute. reflexivity. Qed.
Example test_glib_resize :
  passes (g <- glib [GResize (pt 200 200)] ;; glib_extremes g [pt 0 0; pt 200 0; pt 0 200; pt 200 200]) = true.
Proof. vm_compute. reflexivity. Qed.
Example test_glib_grab :
  passes (g <- glib [GGrab (pt 100 0); GAnchorMove 0 (pt 10 10)] ;;
          e <- gw_extremes g ;; let '(_, tr, _, _) := e in Ok (eqp tr (pt 110 0))) = true.
Proof. vm_compute. reflexivity. Qed.

(** ModelSettlesAfterMovingAnchor, ReleaseAnchorOnModel
    (glib_api_test.cpp:247-287, 344-388). *)
Example test_glib_settles :
  passes (g <- glib [GGrab (pt 100 0); GAnchorMove 0 (pt 10 10)] ;; g' <- glib_settle 500 g ;;
          glib_extremes g' [pt 10 10; pt 110 10; pt 10 110; pt 110 110]) = true.
Proof. vm_compute. reflexivity. Qed.
Definition long_glib_release : bool :=
  passes (g <- glib [GGrab (pt 100 0); GGrab (pt 0 0); GAnchorMove 0 (pt 10 10); GAnchorFinalize 1] ;;
          g' <- glib_settle 500 g ;; e <- gw_extremes g' ;;
          let '(a, b, c, d) := e in
          Ok (within_d 6 (10, 10) a && within_d 6 (110, 10) b && within_d 6 (10, 110) c && within_d 6 (110, 110) d)).

(** DeformedWithGrabbedAnchor, DeformedWithInsertAnchor, NoDeformationNoAnchorMove
    (glib_api_test.cpp:289-342). *)
Definition glib_center (g : gworld f64) : res (vec f64) := gw_deform (L := f80) g half.
Example test_glib_deform :
  passes (g <- glib [GGrab (pt 100 0); GAnchorMove 0 (pt 10 10)] ;; p <- glib_center g ;; Ok (negb (eqp p (pt 50 50)))) &&
  passes (g <- glib [GInsert (pt 70 0); GAnchorMove 0 (pt 10 10); GStep 1] ;; p <- glib_center g ;;
          Ok (negb (eqp p (pt 50 50)))) &&
  passes (g <- glib [GGrab (pt 100 0)] ;; p <- glib_center g ;; Ok (eqp p (pt 50 50))) = true.
Proof. vm_compute. reflexivity. Qed.
