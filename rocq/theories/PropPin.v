(** * Properties C21-C25: a single anchor *)

From Coq Require Import ZArith Reals Bool List Lra Lia.
From Flocq Require Import Core IEEE754.BinarySingleNaN.
From Verif Require Import Num Geometry Outcome Wobbly Spec SpecMotion Cases LemHistory LemPin LemNan.
Import ListNotations.
Local Open Scope R_scope.

(** ** C21 *)

(** No anchor is live and the mesh is an undeformed grid at rest.  A point is
    grabbed; afterwards, under any sequence of moves of the anchor or the model,
    steps and changes of settings (all return), it is exactly where it was plus
    the sum of the movements. *)
Theorem C21_single_grab :
  forall (p : vec R) (w h : R) (st : settings R) (ops : list (op R)) (m0 m1 : model R) (g q : vec R) (n fuel fuel' : nat)
         (ops' : list (op R)),
    reached p w h st ops m0 -> live_anchors ops = [] -> mpos m0 = grid q (mw m0) (mh m0) -> at_rest (mvel m0) ->
    0 < st_range (mset m0) -> lifo_history ops -> careful_history (ops ++ OpGrab g :: ops') ->
    step_op fuel m0 (OpGrab g) = Ok (m1, OHandle n) ->
    Forall moves_only ops' ->
    exists m2 us x, run fuel' m1 ops' = Ok (m2, us) /\
      anchor_point m1 n = Some x /\ anchor_point m2 n = Some (vadd x (movement n ops')).
Proof. exact single_grab_total. Qed.
Print Assumptions C21_single_grab.

(** Also under [MoveModelTo] and [ResizeModel] the grabbed point stays at its
    rest position. *)
Theorem C21_single_grab_home :
  forall (p : vec R) (w h : R) (st : settings R) (ops : list (op R)) (m0 m1 m2 : model R) (g q : vec R) (n fuel fuel' : nat)
         (ops' : list (op R)) (us : list out),
    reached p w h st ops m0 -> live_anchors ops = [] -> mpos m0 = grid q (mw m0) (mh m0) -> at_rest (mvel m0) ->
    0 < st_range (mset m0) ->
    step_op fuel m0 (OpGrab g) = Ok (m1, OHandle n) ->
    Forall keeps_anchors ops' -> run fuel' m1 ops' = Ok (m2, us) ->
    exists i x, lookup_handle (mhandles m2) n = Some (HGrab i) /\
      nth_error (mpos m2) i = Some x /\ nth_error (mtargets m2) i = Some x.
Proof. exact single_grab_home. Qed.
Print Assumptions C21_single_grab_home.

Example C21_case :
  exists m0 m1 : model R,
    reached (mkV 0 0) 90 60 (mkSettings 8 3 500) [] m0 /\ mpos m0 = grid (mkV 0 0) (mw m0) (mh m0) /\ at_rest (mvel m0) /\
    st_range (mset m0) = 500 /\ step_op 1 m0 (OpGrab (mkV 0 0)) = Ok (m1, OHandle 0) /\
    let ops' := [OpMoveAnchor 0 (mkV 7 5); OpStep 16; OpMoveBy (mkV 1 2); OpMoveAnchor 0 (mkV (-3) 1); OpStep 40] in
    careful_history (OpGrab (mkV 0 0) :: ops') /\ Forall moves_only ops' /\ movement 0 ops' = mkV 5 8.
Proof.
  destruct single_grab_case as (m0 & m1 & A & B & C & D & E). exists m0, m1. do 5 (split; [assumption|]). cbv zeta.
  split; [cbv; tauto|]. split; [repeat constructor|]. cbn [movement Nat.eqb]. unfold vadd. cbn [vx vy nadd Num_R]. f_equal; lra.
Qed.

(** ** C22 *)

(** On a mesh that has not settled: corner 0 was pulled by half a unit and
    released; then the interior point (30, 30) is grabbed.  Nobody moves that
    anchor, and yet the next step leaves its point elsewhere. *)
Definition unsettled : list (op f64) :=
  [OpGrab (pt 0 0); OpGrab (pt 0 0); OpMoveAnchor 0 (mkV (nlit 1 2) (nof 0)); OpRelease 0; OpRelease 1; OpGrab (pt 30 30)].

Lemma unsettled_checks :
  verdict usual unsettled (fun m _ =>
    anchor_at m 2 (pt 30 30) &&
    match step_op 60 m (OpStep 16) with
    | Ok (m', OMore false) => anchor_at m' 2 (mkV (nlit 61 2) (nof 30))
    | _ => false
    end) = true.
Proof. vm_compute. reflexivity. Qed.

Theorem C22_grabbed_point_immobile_refuted :
  exists (m m' : model f64),
    reached (pt 0 0) (nof 90) (nof 90) usual unsettled m /\ careful_history unsettled /\
    live_anchors unsettled = [(2%nat, KGrab)] /\
    step_op 60 m (OpStep 16) = Ok (m', OMore false) /\
    anchor_at m 2 (pt 30 30) = true /\ anchor_at m' 2 (mkV (nlit 61 2) (nof 30)) = true.
Proof.
  destruct (verdict_reached _ _ _ unsettled_checks) as (m & Hr & us & C). apply andb_true_iff in C. destruct C as [C1 C2].
  destruct (step_op 60 m (OpStep 16)) as [[m' u]|] eqn:E; [|discriminate C2]. destruct u as [| |[|]]; try discriminate C2.
  exists m, m'. split; [exact Hr|]. split; [cbv; tauto|]. split; [reflexivity|]. split; [exact E|]. auto.
Qed.
Print Assumptions C22_grabbed_point_immobile_refuted.

(** What does hold for a single grab, on any mesh: a step that reports more
    work leaves the grabbed point, without velocity, where it was unless it was
    farther than the range from its rest position, and a step that reports none
    puts it at its rest position. *)
Theorem C22_grabbed_point :
  forall (p : vec R) (w h : R) (st : settings R) (ops : list (op R)) (m m' : model R) (b : bool) (t : Z) (n i : nat) (y : vec R) (fuel : nat),
    reached p w h st ops m -> live_anchors ops = [(n, KGrab)] -> 0 < st_range (mset m) -> (0 < t)%Z ->
    lookup_handle (mhandles m) n = Some (HGrab i) -> nth_error (mpos m) i = Some y ->
    step_op fuel m (OpStep t) = Ok (m', OMore b) ->
    exists z y', nth_error (mtargets m) i = Some z /\ nth_error (mpos m') i = Some y' /\ nth_error (mvel m') i = Some (mkV 0 0) /\
      (b = true -> confined (st_range (mset m)) z y y') /\ (b = false -> y' = z).
Proof. exact held_step. Qed.
Print Assumptions C22_grabbed_point.

Example C22_case :
  exists m m' : model R, exists b,
    reached (mkV 0 0) 90 60 (mkSettings 8 3 500) far_pull m /\ live_anchors far_pull = [(0%nat, KGrab)] /\
    lookup_handle (mhandles m) 0 = Some (HGrab 0) /\ st_range (mset m) = 500 /\
    nth_error (mpos m) 0 = Some (mkV 600 0) /\ step_op 0 m (OpStep 16) = Ok (m', OMore b).
Proof.
  destruct far_pull_reached as (m & m' & b & A & B & C & D & _ & _ & _ & E). exists m, m', b.
  split; [exact A|]. split; [reflexivity|]. auto.
Qed.

(** ** C23 *)

(** One live anchor, one integration: every point is first confined to the
    range around its rest position, then moved by half its new velocity (or
    snapped to its rest position when the step reports that nothing is left). *)
Theorem C23_constrainment :
  forall (p : vec R) (w h : R) (st : settings R) (ops : list (op R)) (m m' : model R) (b : bool) (t : Z) (i : nat) (y : vec R) (fuel : nat),
    reached p w h st ops m -> (Z.of_nat (length ops) < two32)%Z -> length (live_anchors ops) = 1%nat ->
    0 < st_range (mset m) -> (0 < t <= 16)%Z -> step_op fuel m (OpStep t) = Ok (m', OMore b) ->
    nth_error (mpos m) i = Some y ->
    exists z z' v' q, nth_error (mtargets m) i = Some z /\ nth_error (mtargets m') i = Some z /\
      nth_error (mpos m') i = Some z' /\ nth_error (mvel m') i = Some v' /\
      confined (st_range (mset m)) z y q /\
      (b = true -> z' = mkV (vx q + vx v' / 2) (vy q + vy v' / 2)) /\ (b = false -> z' = z) /\
      euclid z z' <= st_range (mset m) + magnitude v' / 2.
Proof. exact constrained_step_op. Qed.
Print Assumptions C23_constrainment.

Example C23_case :
  exists m m' : model R, exists b,
    reached (mkV 0 0) 90 60 (mkSettings 8 3 500) far_pull m /\ length (live_anchors far_pull) = 1%nat /\
    st_range (mset m) = 500 /\ step_op 0 m (OpStep 16) = Ok (m', OMore b) /\
    nth_error (mpos m) 1 = Some (mkV 30 0) /\ nth_error (mtargets m) 1 = Some (mkV 630 0) /\
    euclid (mkV 630 0) (mkV 30 0) = 600.
Proof.
  destruct far_pull_reached as (m & m' & b & A & _ & C & _ & _ & D & F & E). exists m, m', b.
  split; [exact A|]. split; [reflexivity|]. do 4 (split; [assumption|]).
  unfold euclid. cbn [vx vy]. replace ((630 - 30) ^ 2 + (0 - 0) ^ 2) with (600 ^ 2) by ring. apply sqrt_pow2. lra.
Qed.

(** ** C24 *)

Definition no_range : settings f64 := mkSettings (nof 8) (nof 3) (B754_zero false).

(** Range 0 with one live grab, every point finite and at its rest position: the
    next step turns every point into NaN, reports that more steps are needed,
    and no later sequence of calls gives a point that is a number. *)
Theorem C24_zero_range :
  forall (p : vec f64) (w h : f64) (st : settings f64) (ops : list (op f64)) (m m1 : model f64) (n : nat) (t : Z) (u : out) (fuel : nat),
    reached p w h st ops m -> no_insert ops -> live_anchors ops = [(n, KGrab)] ->
    st_range (mset m) = B754_zero false -> all_home m = true -> (0 < t)%Z ->
    step_op fuel m (OpStep t) = Ok (m1, u) ->
    u = OMore true /\ nan_mesh m1 /\
    forall fuel' more m2 us, proper_times more -> run fuel' m1 more = Ok (m2, us) -> nan_mesh m2.
Proof. exact zero_range. Qed.
Print Assumptions C24_zero_range.

Lemma no_range_checks :
  verdict no_range [OpGrab (pt 0 0)] (fun m _ => all_home m && match st_range (mset m) with B754_zero false => true | _ => false end &&
    match step_op 60 m (OpStep 16) with Ok _ => true | _ => false end) = true.
Proof. vm_compute. reflexivity. Qed.

(** So the expectation fails: a model built with range 0, grabbed and stepped. *)
Theorem C24_zero_range_harmless_refuted :
  exists m m1 : model f64,
    reached (pt 0 0) (nof 90) (nof 90) no_range [OpGrab (pt 0 0)] m /\ all_home m = true /\
    step_op 60 m (OpStep 16) = Ok (m1, OMore true) /\ nan_mesh m1 /\
    forall fuel' more m2 us, proper_times more -> run fuel' m1 more = Ok (m2, us) -> nan_mesh m2.
Proof.
  destruct (verdict_reached _ _ _ no_range_checks) as (m & Hr & us & C). apply andb_true_iff in C. destruct C as [C C3].
  apply andb_true_iff in C. destruct C as [C1 C2]. destruct (step_op 60 m (OpStep 16)) as [[m1 u]|] eqn:E; [|discriminate C3].
  assert (Rz : st_range (mset m) = B754_zero false) by (destruct (st_range (mset m)) as [[|]| | |]; try discriminate C2; reflexivity).
  destruct (C24_zero_range _ _ _ _ _ m m1 0%nat 16 u 60%nat Hr) as (-> & N & Q); auto; [repeat constructor|lia|].
  exists m, m1. auto.
Qed.
Print Assumptions C24_zero_range_harmless_refuted.

(** ** C25 *)

(** In any arithmetic: with one live anchor, after a step that reports that
    nothing is left, moving the anchor and calling [Step (0)] reports again that
    nothing is left, and moves the whole mesh by the displacement at once. *)
Theorem C25_moved_anchor_not_reported :
  forall (T : Type) (N : Num T) (p : vec T) (w h : T) (st : settings T) (ops : list (op T)) (m m1 m2 : model T)
         (t : Z) (n : nat) (d : vec T) (u : out) (fuel : nat),
    reached p w h st ops m -> length (live_anchors ops) = 1%nat ->
    step_op fuel m (OpStep t) = Ok (m1, OMore false) ->
    step_op fuel m1 (OpMoveAnchor n d) = Ok (m2, u) ->
    exists m3, step_op fuel m2 (OpStep 0) = Ok (m3, OMore false) /\ mpos m3 = map (fun q => vadd q d) (mpos m1).
Proof. exact @move_settled. Qed.
Print Assumptions C25_moved_anchor_not_reported.

Lemma moved_checks :
  verdict usual [OpGrab (pt 0 0)] (fun m _ =>
    match step_op 60 m (OpStep 16) with
    | Ok (m1, OMore false) => mesh_at m1 5 (pt 30 30) && match step_op 60 m1 (OpMoveAnchor 0 (pt 7 5)) with Ok _ => true | _ => false end
    | _ => false
    end) = true.
Proof. vm_compute. reflexivity. Qed.

Theorem C25_step_zero_reports_moves_refuted :
  exists m m1 m2 m3 : model f64, exists u,
    reached (pt 0 0) (nof 90) (nof 90) usual [OpGrab (pt 0 0)] m /\
    step_op 60 m (OpStep 16) = Ok (m1, OMore false) /\ mesh_at m1 5 (pt 30 30) = true /\
    step_op 60 m1 (OpMoveAnchor 0 (pt 7 5)) = Ok (m2, u) /\
    step_op 60 m2 (OpStep 0) = Ok (m3, OMore false) /\ mpos m3 = map (fun q => vadd q (pt 7 5)) (mpos m1).
Proof.
  destruct (verdict_reached _ _ _ moved_checks) as (m & Hr & us & C).
  destruct (step_op 60 m (OpStep 16)) as [[m1 u1]|] eqn:E1; [|discriminate C]. destruct u1 as [| |[|]]; try discriminate C.
  apply andb_true_iff in C. destruct C as [C1 C2]. destruct (step_op 60 m1 (OpMoveAnchor 0 (pt 7 5))) as [[m2 u2]|] eqn:E2; [|discriminate C2].
  destruct (C25_moved_anchor_not_reported f64 _ _ _ _ _ _ m m1 m2 16 0%nat (pt 7 5) u2 60%nat Hr eq_refl E1 E2) as (m3 & E3 & P).
  exists m, m1, m2, m3, u2. auto 8.
Qed.
Print Assumptions C25_step_zero_reports_moves_refuted.
