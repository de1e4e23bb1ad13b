(** * The unit tests of the repository, run on the model

    The tests under [/repo/tests] state what the authors of the library expect.
    Running them on the model in [double] (and [float]) arithmetic checks the
    model against the code: these are tests, not proofs, and nothing else in this
    development rests on them.  Each is computed by the kernel.

    Those named [long_...] take minutes each, since the surface has to settle over
    and over; they are only defined here.  They were evaluated once outside the
    build.

    Left out: tests that call internal classes with arguments the library itself
    never passes (other masses and time steps), tests with mock objects, and tests
    whose answer depends on [sin] or [exp]. *)

From Coq Require Import ZArith Bool List.
From Flocq Require Import Core IEEE754.BinarySingleNaN.
From Verif Require Import Num Geometry Outcome Wobbly Steppers Transforms Matchers Cases.
Import ListNotations.
Local Open Scope Z_scope.

(** [Eq] and [WithinGeometry] of the tests. *)
Definition eqp : vec f64 -> vec f64 -> bool := geometrically_equal64.
Definition within (lo hi : Z * Z) (p : vec f64) : bool :=
  box_contains (mkB (pt (fst lo) (snd lo)) (pt (fst hi) (snd hi))) p.
Definition within_d (d : Z) (q : Z * Z) (p : vec f64) : bool :=
  box_contains (mkB (mkV (nsub (nof (fst q)) (ndiv (nof d) (nof 2))) (nsub (nof (snd q)) (ndiv (nof d) (nof 2))))
                    (mkV (nadd (nof (fst q)) (ndiv (nof d) (nof 2))) (nadd (nof (snd q)) (ndiv (nof d) (nof 2))))) p.

Definition eqps (l : list (vec f64)) (e : vec f64 * vec f64 * vec f64 * vec f64) : bool :=
  let '(a, b, c, d) := e in
  forallb (fun x => eqp (fst x) (snd x)) (combine [a; b; c; d] l) && Nat.eqb (length l) 4.
Definition corner (n : nat) (m : model f64) : vec f64 :=
  let '(a, b, c, d) := extremes m in nth n [a; b; c; d] vzero.

(** A test passes: no error, and the check is true. *)
Definition passes (r : res bool) : bool := match r with Ok b => b | Err _ => false end.

(** A sequence of calls with the result of the last. *)
Definition act (ops : list (op f64)) (m : model f64) : res (model f64) :=
  r <- run 300 m ops ;; Ok (fst r).
Definition more (t : Z) (m : model f64) : res bool :=
  r <- model_step t m ;; Ok (snd r).
(** [while (model.Step (1));] *)
Fixpoint settle (n : nat) (m : model f64) : res (model f64) :=
  match n with
  | O => Err NoFuel
  | S n' => r <- model_step 1 m ;; if snd r then settle n' (fst r) else Ok (fst r)
  end.

(** The fixture [SpringBezierModel] (model_test.cpp:665-685). *)
Definition texture : model f64 := model_init (pt 0 0) (nof 50) (nof 100) usual 0.
Definition texture_with (st : settings f64) : model f64 := model_init (pt 0 0) (nof 50) (nof 100) st 0.
(** [GetTruncatedDeformedCenter] (model_test.cpp:702-711): the point is rounded
    up.  [ceil x] is [- floor (- x)]; here it is compared through the interval
    that it names. *)
Definition half : vec f64 := mkV (nlit 1 2) (nlit 1 2).
Definition center (m : model f64) : vec f64 := deform_texcoords (L := f80) m half.
Definition ceil_is (x : f64) (n : Z) : bool := nltb (nof (n - 1)) x && nleb x (nof n).
Definition center_is (m : model f64) (x y : Z) : bool :=
  ceil_is (vx (center m)) x && ceil_is (vy (center m)) y.

(** *** tests/wobbly/model_test.cpp *)

(** ClosestIndexToPosition (model_test.cpp:160-247): every mesh point, and the
    mesh points scaled about the centre by 1.1 and by 1/1.1, are nearest to their
    own index. *)
Definition even_mesh : list (vec f64) := position_array (pt 0 0) (tile_size (nof 100) (nof 100)).
Definition about_center (s : f64) (p : vec f64) : vec f64 :=
  vadd (vscale (vsub p (pt 50 50)) s) (pt 50 50).
Definition finds_all (t : vec f64 -> vec f64) : bool :=
  forallb (fun i => match closest_index even_mesh (t (nth i even_mesh vzero)) with
                    | Some j => Nat.eqb i j | None => false end) (seq 0 16).
Example test_closest_index :
  finds_all (fun p => p) && finds_all (about_center (nlit 11 10)) &&
  finds_all (about_center (ndiv (nof 1) (nlit 11 10))) = true.
Proof. vm_compute. reflexivity. Qed.

(** The tests of SpringMesh (model_test.cpp:249-662): forces after inserted
    anchors were moved point along the springs.  The model of size 100 x 100 is at
    rest, so the preferred positions are those of the springs, as in the tests. *)
Definition even_model : model f64 := model_init (pt 0 0) (nof 100) (nof 100) usual 0.
Definition tile3 : f64 := ndiv (nof 100) (nof 3).
Definition halfk : f64 := nlit 1 2.
Definition force_on (i : nat) (m : model f64) : res (vec f64) :=
  r <- calculate_forces halfk (msprings m) (mpos m) (mheap m) ;;
  of_option OutOfBounds (nth_error (m_force (fst r)) i).
(** PointsInSameDirection (model_test.cpp:289-349). *)
Definition same_direction (origin candidate v : vec f64) : bool :=
  let d := vsub candidate origin in
  close_at_tolerance (ndiv (vy v) (vx v)) (ndiv (vy d) (vx d)) (nlit 10 10000000).
Definition direction_test (ops : list (op f64)) (i : nat) (target : vec f64) : bool :=
  passes (m <- act ops even_model ;; f <- force_on i m ;;
          Ok (same_direction (nth i even_mesh vzero) target f)).
Definition beside (x y : Z) (d : f64) : vec f64 := mkV (nadd (nof x) d) (nof y).

(** ForceOnPointsTowardsTemporaryAnchor. *)
Example test_force_towards_anchor :
  let ops := [OpInsert (pt 50 0); OpMoveAnchor 0 (pt 25 (-50))] in
  direction_test ops 1 (beside 75 (-50) (nopp (ndiv tile3 (nof 2)))) &&
  direction_test ops 2 (beside 75 (-50) (ndiv tile3 (nof 2))) = true.
Proof. vm_compute. reflexivity. Qed.

(** InsertTemporaryAnchorOnTemporarySpring. *)
Definition two_inserted : list (op f64) :=
  [OpInsert (pt 50 0); OpInsert (mkV (nadd (nof 50) (ndiv tile3 (nof 4))) nzero);
   OpMoveAnchor 0 (pt (-25) (-50)); OpMoveAnchor 1 (pt 25 (-50))].
Example test_anchor_on_temporary_spring :
  direction_test two_inserted 1 (beside 25 (-50) (nopp (ndiv tile3 (nof 2)))) &&
  direction_test two_inserted 2
    (beside 75 (-50) (nadd (ndiv tile3 (nof 4)) (ndiv tile3 (nof 4)))) = true.
Proof. vm_compute. reflexivity. Qed.

(** OnDestructionOfTemporarySpringForceRevertsToFirstAnchor. *)
Example test_force_reverts :
  let ops := two_inserted ++ [OpRelease 1] in
  direction_test ops 1 (beside 25 (-50) (nopp (ndiv tile3 (nof 2)))) &&
  direction_test ops 2 (beside 25 (-50) (ndiv tile3 (nof 2))) = true.
Proof. vm_compute. reflexivity. Qed.

(** HandlesCanExpireInNonReverseOrder and
    ForceBackToNeutralWhenHandlesExpireInNonReverseOrder: the first anchor is
    released before the second.  Between the two releases a spring points into
    freed storage (C08); the tests pass because no force is calculated in
    between, and so does the model. *)
Example test_non_reverse_order :
  passes (m <- act (two_inserted ++ [OpRelease 0; OpRelease 1]) even_model ;;
          f1 <- force_on 1 m ;; f2 <- force_on 2 m ;;
          Ok (eqp f1 (pt 0 0) && eqp f2 (pt 0 0))) = true.
Proof. vm_compute. reflexivity. Qed.
Example test_non_reverse_order_same_place :
  passes (m <- act [OpInsert (pt 50 0); OpInsert (pt 50 0); OpRelease 0; OpRelease 1] even_model ;; Ok true) = true.
Proof. vm_compute. reflexivity. Qed.

(** NoDeformationOnMovementWithNoAnchor, …WithAnchorUngrabbed and
    MovingEntireModelCausesNoDeformationWithAnchor (model_test.cpp:713-762). *)
Definition small_move : list (op f64) := [OpMoveTo (pt 1 1); OpStep 1].
Example test_no_deformation_no_anchor :
  passes (m <- act small_move texture ;; Ok (center_is m 26 51)) = true.
Proof. vm_compute. reflexivity. Qed.
Example test_no_deformation_released_anchor :
  passes (m <- act ([OpGrab (pt 25 0); OpRelease 0] ++ small_move) texture ;; Ok (center_is m 26 51)) = true.
Proof. vm_compute. reflexivity. Qed.
Example test_no_deformation_with_anchor :
  passes (m <- act (OpGrab (pt 25 0) :: small_move) texture ;; Ok (center_is m 26 51)) = true.
Proof. vm_compute. reflexivity. Qed.

(** MovingEntireModelChangesExtremesPositionsExactly (model_test.cpp:764-783). *)
Example test_extremes_move :
  passes (m <- act [OpMoveTo (pt 1 1)] texture ;;
          Ok (eqps [pt 1 1; pt 51 1; pt 1 101; pt 51 101] (extremes m))) = true.
Proof. vm_compute. reflexivity. Qed.

(** MovingAnchorCausesDeformation and MovingAnchorWithSecondGrabCausesDeformation
    (model_test.cpp:785-810). *)
Example test_anchor_deforms :
  passes (m <- act [OpGrab (pt 25 0); OpMoveAnchor 0 (pt 1 1)] texture ;; Ok (negb (center_is m 25 50))) = true.
Proof. vm_compute. reflexivity. Qed.
Example test_anchor_deforms_with_second :
  passes (m <- act [OpGrab (pt 25 0); OpGrab (pt 50 0); OpMoveAnchor 0 (pt 1 1); OpRelease 1] texture ;;
          Ok (negb (center_is m 25 50))) = true.
Proof. vm_compute. reflexivity. Qed.

(** The parameters of SpringBezierModelGrabPositions (model_test.cpp:903-921):
    where to grab, the opposite corner, a movement outwards, the extreme. *)
Definition grab_params : list ((Z * Z) * (Z * Z) * (Z * Z) * nat) :=
  [((0, 0), (50, 100), (-1, -1), 0%nat);
   ((50, 0), (0, 100), (1, -1), 1%nat);
   ((0, 100), (50, 0), (-1, 1), 2%nat);
   ((50, 100), (0, 0), (1, 1), 3%nat)].
Definition zpt (p : Z * Z) : vec f64 := pt (fst p) (snd p).
Definition for_each_grab (t : Z * Z -> Z * Z -> Z * Z -> nat -> bool) : bool :=
  forallb (fun x => let '(g, o, v, i) := x in t g o v i) grab_params.

(** GrabsCorrectIndex (model_test.cpp:841-852). *)
Example test_grabs_correct_index :
  for_each_grab (fun g _ v i =>
    passes (m <- act [OpGrab (zpt g); OpMoveAnchor 0 (zpt v)] texture ;;
            Ok (eqp (corner i m) (vadd (zpt g) (zpt v))))) = true.
Proof. vm_compute. reflexivity. Qed.

(** SettlesAtCurrentlyAnchoredPosition (model_test.cpp:854-872). *)
Definition long_settles_at_anchor : bool :=
  for_each_grab (fun g _ _ _ =>
    passes (m <- act [OpGrab (zpt g); OpMoveAnchor 0 (pt 100 100)] texture ;;
            m' <- settle 500 m ;; Ok (eqp (corner 0 m') (pt 100 100)))).

(** SettlesAfterReleasingSecond (model_test.cpp:874-901). *)
Definition long_settles_after_second : bool :=
  for_each_grab (fun g o _ _ =>
    passes (m <- act [OpGrab (zpt g); OpGrab (zpt o); OpMoveAnchor 0 (pt 100 100); OpRelease 1] texture ;;
            m' <- settle 500 m ;; Ok (within (97, 97) (103, 103) (corner 0 m')))).

(** PositionsScaledAfterResize and PositionsScaledRelativeToModelOrigin
    (model_test.cpp:933-992). *)
Definition scaled (o : vec f64) (p : vec f64) : vec f64 := vadd (vpscale (vsub p o) (pt 2 3)) o.
Definition four (e : vec f64 * vec f64 * vec f64 * vec f64) : list (vec f64) :=
  let '(a, b, c, d) := e in [a; b; c; d].
Example test_resize_scales :
  passes (m <- act [OpResize (nof 100) (nof 300)] texture ;;
          Ok (eqps (map (scaled (pt 0 0)) (four (extremes texture))) (extremes m))) = true.
Proof. vm_compute. reflexivity. Qed.
Example test_resize_about_origin :
  passes (m <- act [OpMoveTo (pt 10 10)] texture ;;
          m' <- act [OpResize (nof 100) (nof 300)] m ;;
          Ok (eqps (map (scaled (pt 10 10)) (four (extremes m))) (extremes m'))) = true.
Proof. vm_compute. reflexivity. Qed.

(** NetForceIsZeroAfterResizingSettledModel, …GrabbedSettledModel,
    NetForceIsZeroAfterMovingGrabbedSettledModel, PositionIsTopLeftCornerAtSettled
    (model_test.cpp:994-1041). *)
Example test_no_force_after_resize :
  passes (m <- act [OpResize (nof 100) (nof 300)] texture ;; b <- more 1 m ;; Ok (negb b)) = true.
Proof. vm_compute. reflexivity. Qed.
Example test_no_force_after_resize_grabbed :
  passes (m <- act [OpGrab (pt 0 0); OpResize (nof 10000) (nof 30000)] texture ;; b <- more 1 m ;; Ok (negb b)) = true.
Proof. vm_compute. reflexivity. Qed.
Example test_no_force_after_move_grabbed :
  passes (m <- act [OpGrab (pt 0 0); OpMoveBy (pt 1000 1000)] texture ;; b <- more 1 m ;; Ok (negb b)) = true.
Proof. vm_compute. reflexivity. Qed.
Example test_position_is_top_left :
  passes (m <- act [OpMoveBy (pt 100 100)] texture ;; Ok (eqp (corner 0 m) (pt 100 100))) = true.
Proof. vm_compute. reflexivity. Qed.

(** The typed tests run with [GrabAnchor] and with [InsertAnchor]
    (model_test.cpp:1043-1077). *)
Definition both (t : (vec f64 -> op f64) -> bool) : bool := t OpGrab && t OpInsert.

(** AnchorMovedAfterMeshResize, AnchorMovedAfterMeshMove (model_test.cpp:1082-1106). *)
Example test_anchor_moves_with_mesh :
  both (fun anchor =>
    passes (m <- act [anchor (pt 50 100); OpResize (nof 100) (nof 300)] texture ;; b <- more 1 m ;; Ok (negb b)) &&
    passes (m <- act [anchor (pt 50 100); OpMoveBy (pt 100 100)] texture ;; b <- more 1 m ;; Ok (negb b))) = true.
Proof. vm_compute. reflexivity. Qed.

(** EntireModelMovesWhileGrabbed (model_test.cpp:1108-1166).  Both models of the
    test go through the same calls, so the reference settles at once and no
    further step is taken. *)
Fixpoint drag (n : nat) (m : model f64) : res (model f64) :=
  match n with
  | O => Ok m
  | S n' =>
      m1 <- act [OpMoveAnchor 0 (pt 1 1); OpMoveBy (pt (-1) (-1))] m ;;
      m2 <- settle 500 m1 ;;
      drag n' m2
  end.
Definition long_model_moves_while_grabbed : bool :=
  both (fun anchor =>
    passes (m <- act [anchor (pt 25 50)] texture ;; m' <- drag 100 m ;;
            b <- more 1 m' ;; Ok (negb b && within (-2, -2) (2, 2) (corner 0 m')))).

(** TargetWithinRangeGrabbed, ConsistentMovementManyGrabs,
    AnchorsChangesDontAffectTarget, TargetRemainsAfterRelease
    (model_test.cpp:1168-1276). *)
Definition near_origin (m : model f64) : bool := within_d 3 (0, 0) (corner 0 m).
Definition long_target_within_range : bool :=
  both (fun anchor =>
    passes (m <- act [anchor (pt 0 0); OpMoveAnchor 0 (pt 100 100); OpMoveTo (pt 0 0)] texture ;;
            m' <- settle 500 m ;; Ok (near_origin m'))).
Fixpoint many_grabs (anchor : vec f64 -> op f64) (n : nat) (k : nat) (m : model f64) : res (model f64) :=
  match n with
  | O => Ok m
  | S n' =>
      m1 <- act [OpMoveTo (pt 0 0); anchor (pt 0 0); OpMoveAnchor k (pt 100 100); OpMoveTo (pt 0 0)] m ;;
      m2 <- settle 500 m1 ;;
      m3 <- act [OpRelease k] m2 ;;
      many_grabs anchor n' (S k) m3
  end.
Definition long_many_grabs : bool :=
  both (fun anchor => passes (m <- many_grabs anchor 5 0 texture ;; Ok (near_origin m))).
Definition long_anchor_changes : bool :=
  both (fun anchor =>
    passes (m <- act [anchor (pt 0 0); OpRelease 0; anchor (pt 50 0); OpMoveAnchor 1 (pt 100 100);
                      OpMoveTo (pt 0 0)] texture ;;
            m' <- settle 500 m ;; Ok (near_origin m'))).
Definition long_target_after_release : bool :=
  both (fun anchor =>
    passes (m <- act [anchor (pt 0 0); OpMoveAnchor 0 (pt 100 100); OpStep 2; OpRelease 0;
                      OpMoveTo (pt 0 0)] texture ;;
            m' <- settle 500 m ;; Ok (near_origin m'))).

(** MoreAnchoredModelNeverSettles (model_test.cpp:1278-1318). *)
Fixpoint race (n : nat) (a b : model f64) : res (bool * bool) :=
  match n with
  | O => Err NoFuel
  | S n' =>
      ra <- model_step 1 a ;; rb <- model_step 1 b ;;
      if snd ra && snd rb then race n' (fst ra) (fst rb) else Ok (snd ra, snd rb)
  end.
Definition long_two_anchors_never_settle : bool :=
  both (fun anchor =>
    passes (a <- act [anchor (pt 0 0); OpMoveAnchor 0 (pt (-100) 0)] texture ;;
            b <- act [anchor (pt 0 0); anchor (pt 50 0); OpMoveAnchor 0 (pt (-100) 0)] texture ;;
            r <- race 500 a b ;; Ok (negb (fst r) && snd r))).

(** ForcesExistAfterMovingAnchor, ForcesExistAfterReleaseAnchor
    (model_test.cpp:1320-1351). *)
Example test_forces_exist :
  both (fun anchor =>
    passes (m <- act [anchor (pt 0 0); OpMoveAnchor 0 (pt 100 100)] texture ;; more 0 m) &&
    passes (m <- act [anchor (pt 0 0); OpMoveAnchor 0 (pt 100 100); OpStep 1; OpRelease 0] texture ;; more 0 m)) = true.
Proof. vm_compute. reflexivity. Qed.

(** ModelWithHigherSpringTakesFasterFirstStep,
    ModelWithLowerFrictionTakesFasterFirstStep (model_test.cpp:1353-1425). *)
Definition pulled (st : settings f64) : res f64 :=
  m <- act ([OpGrab (pt 50 100); OpMoveAnchor 0 (pt 100 100)] ++ repeat (OpStep 16) 20 ++ [OpRelease 0])
           (texture_with st) ;;
  Ok (vx (corner 0 m)).
Example test_higher_spring_constant :
  passes (l <- pulled (mkSettings (nof 6) (nof 3) (nof 500)) ;; h <- pulled usual ;; Ok (nltb l h)) = true.
Proof. vm_compute. reflexivity. Qed.
Example test_lower_friction :
  passes (l <- pulled (mkSettings (nof 8) (nof 1) (nof 500)) ;; h <- pulled usual ;; Ok (nltb h l)) = true.
Proof. vm_compute. reflexivity. Qed.
