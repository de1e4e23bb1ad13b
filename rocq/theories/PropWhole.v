(** * Properties C09-C13: moving the whole model *)

From Coq Require Import ZArith Reals Bool List Lra Lia.
From Verif Require Import Num Geometry Outcome Wobbly Spec SpecMotion LemReal LemHistory LemNetworkFacts LemWhole.
Import ListNotations.
Local Open Scope R_scope.

(** ** C09 *)

(** Both runs take the same course: same results, or the same failure. *)
Theorem C09_translation :
  forall (fuel : nat) (p d : vec R) (w h : R) (st : settings R) (next : Z) (ops : list (op R)),
    match run fuel (model_init p w h st next) ops,
          run fuel (model_init (vadd p d) w h st next) (map (displace_op d) ops) with
    | Ok (m, us), Ok (m', us') => us' = us /\ displaced d m m'
    | Err e, Err e' => e' = e
    | _, _ => False
    end.
Proof. exact translated_run. Qed.
Print Assumptions C09_translation.

(** The visible deformation is displaced as well. *)
Theorem C09_deformation :
  forall (p : vec R) (w h : R) (st : settings R) (ops : list (op R)) (d : vec R) (m m' : model R) (uv : vec R),
    reached p w h st ops m -> displaced d m m' ->
    deform_texcoords (L:=R) m' uv = vadd (deform_texcoords (L:=R) m uv) d.
Proof. intros. apply displaced_deform; auto. eapply mesh_size; eauto. Qed.
Print Assumptions C09_deformation.

(** A history that returns: grab the corner twice and move it. *)
Example C09_case :
  exists (m m' : model R) us,
    run 1 (model_init (mkV 0 0) 90 60 (mkSettings 8 3 500) 0) nudge = Ok (m, us) /\
    run 1 (model_init (vadd (mkV 0 0) (mkV 7 5)) 90 60 (mkSettings 8 3 500) 0) (map (displace_op (mkV 7 5)) nudge) = Ok (m', us) /\
    nth_error (mpos m) 0 = Some (mkV (1 / 2) 0) /\ nth_error (mpos m') 0 = Some (mkV (1 / 2 + 7) (0 + 5)).
Proof.
  destruct (nudge_reached (mkSettings 8 3 500) 0) as (m & E & P & _).
  pose proof (C09_translation 1 (mkV 0 0) (mkV 7 5) 90 60 (mkSettings 8 3 500) 0 nudge) as T.
  rewrite E in T. destruct (run _ _ (map _ nudge)) as [[m' us']|]; [|contradiction].
  destruct T as (-> & (D & _)). exists m, m'. eexists. split; [exact E|]. split; [reflexivity|].
  rewrite D, P. split; reflexivity.
Qed.

(** ** C10 *)

(** [MoveModelBy] always returns and displaces the whole model. *)
Theorem C10_rigid :
  forall (p : vec R) (w h : R) (st : settings R) (ops : list (op R)) (m : model R) (d : vec R) (fuel : nat),
    reached p w h st ops m -> malive m = true ->
    exists m', step_op fuel m (OpMoveBy d) = Ok (m', ONone) /\ displaced d m m'.
Proof. intros p w h st ops m d fuel. apply move_by_whole. Qed.
Print Assumptions C10_rigid.

Theorem C10_additive :
  forall (p : vec R) (w h : R) (st : settings R) (ops : list (op R)) (m : model R) (d e : vec R) (fuel : nat),
    reached p w h st ops m -> malive m = true ->
    exists m', run fuel m [OpMoveBy d; OpMoveBy e] = Ok (m', [ONone; ONone]) /\
               run fuel m [OpMoveBy (vadd d e)] = Ok (m', [ONone]).
Proof. intros p w h st ops m d e fuel. apply move_by_twice. Qed.
Print Assumptions C10_additive.

(** It wakes nothing up and stops nothing: the next [Step] reports what it would
    have reported, and the mesh takes the same course. *)
Theorem C10_does_not_wake :
  forall (p : vec R) (w h : R) (st : settings R) (ops : list (op R)) (m m1 m2 : model R) (d : vec R) (t : Z) (b : bool) (fuel : nat),
    reached p w h st ops m -> step_op fuel m (OpMoveBy d) = Ok (m1, ONone) ->
    step_op fuel m (OpStep t) = Ok (m2, OMore b) ->
    exists m3, step_op fuel m1 (OpStep t) = Ok (m3, OMore b) /\ displaced d m2 m3.
Proof. intros p w h st ops m m1 m2 d t b fuel. apply move_by_step. Qed.
Print Assumptions C10_does_not_wake.

(** A deformed model with two anchors held, moved and stepped. *)
Example C10_case :
  exists m m1 m2 : model R,
    reached (mkV 0 0) 90 60 (mkSettings 8 3 500) nudge m /\ malive m = true /\
    step_op 1 m (OpMoveBy (mkV 7 5)) = Ok (m1, ONone) /\ step_op 1 m (OpStep 16) = Ok (m2, OMore false) /\
    nth_error (mpos m) 0 = Some (mkV (1 / 2) 0) /\ nth_error (mpos m1) 0 = Some (mkV (1 / 2 + 7) (0 + 5)).
Proof.
  destruct settle_case as (m & m' & Hr & _ & _ & Al & P & E).
  destruct (C10_rigid _ _ _ _ _ m (mkV 7 5) 1 Hr Al) as (m1 & E1 & (D & _)).
  exists m, m1, m'. split; [auto|]. split; [auto|]. split; [auto|]. split.
  - unfold step_op. cbn [needs_model]. rewrite Al, E. reflexivity.
  - split; [auto|]. rewrite D, nth_error_map, P. reflexivity.
Qed.

(** ** C11 *)

(** Afterwards the predicted rest position of the top-left corner is the
    requested point. *)
Theorem C11_target :
  forall (p : vec R) (w h : R) (st : settings R) (ops : list (op R)) (m m' : model R) (q : vec R) (u : out) (fuel : nat),
    reached p w h st ops m -> step_op fuel m (OpMoveTo q) = Ok (m', u) ->
    exists m'', target_position fuel m' = Ok (q, m'').
Proof. intros p w h st ops m m' q u fuel Hr. apply move_to_target. eapply hinv_reached; eauto. Qed.
Print Assumptions C11_target.

(** The whole model was displaced rigidly; asking for another point [q'] then
    displaces it by the difference, so asking again for [q] moves nothing. *)
Theorem C11_again :
  forall (p : vec R) (w h : R) (st : settings R) (ops : list (op R)) (m m' : model R) (q q' : vec R) (u : out) (fuel : nat),
    reached p w h st ops m -> step_op fuel m (OpMoveTo q) = Ok (m', u) ->
    (exists d, displaced d m m') /\
    exists m'', step_op fuel m' (OpMoveTo q') = Ok (m'', ONone) /\ displaced (vsub q' q) m' m''.
Proof. intros p w h st ops m m' q q' u fuel Hr. apply move_to_again. eapply hinv_reached; eauto. Qed.
Print Assumptions C11_again.

Theorem C11_idempotent :
  forall (p : vec R) (w h : R) (st : settings R) (ops : list (op R)) (m m' : model R) (q : vec R) (u : out) (fuel : nat),
    reached p w h st ops m -> step_op fuel m (OpMoveTo q) = Ok (m', u) ->
    exists m'', step_op fuel m' (OpMoveTo q) = Ok (m'', ONone) /\ same_geometry m' m''.
Proof.
  intros p w h st ops m m' q u fuel Hr E. apply (move_to_same fuel q m m' u); auto. eapply hinv_reached; eauto.
Qed.
Print Assumptions C11_idempotent.

Example C11_case :
  exists m m' : model R,
    reached (mkV 0 0) 90 60 (mkSettings 8 3 500) nudge m /\
    nth_error (mpos m) 0 = Some (mkV (1 / 2) 0) /\ step_op 1 m (OpMoveTo (mkV 7 5)) = Ok (m', ONone).
Proof. destruct (nudge_move (mkV 7 5)) as (m & m' & H1 & _ & H2 & _ & H3). eauto. Qed.

(** ** C12 *)

(** Unless exactly one anchor is held, stepping to rest terminates and leaves
    the corner where it was asked to be. *)
Theorem C12_comes_to_rest :
  forall (p : vec R) (w h : R) (st : settings R) (ops : list (op R)) (m m1 : model R) (q : vec R) (u : out) (fuel : nat),
    0 < w -> 0 < h -> reached p w h st ops m -> calm_history ops -> live_inserted ops = [] ->
    length (live_anchors ops) <> 1%nat ->
    step_op fuel m (OpMoveTo q) = Ok (m1, u) ->
    exists n m2,
      run fuel m1 (repeat (OpStep 16) (S n)) = Ok (m2, repeat (OMore true) n ++ [OMore false]) /\
      nth_error (mpos m2) 0 = Some q.
Proof. exact comes_to_rest. Qed.
Print Assumptions C12_comes_to_rest.

Theorem C12_at_rest :
  forall (p : vec R) (w h : R) (st : settings R) (ops : list (op R)) (m m1 m2 : model R) (q : vec R) (u : out) (fuel n : nat),
    0 < w -> 0 < h -> reached p w h st ops m -> calm_history ops -> live_inserted ops = [] ->
    length (live_anchors ops) <> 1%nat ->
    step_op fuel m (OpMoveTo q) = Ok (m1, u) ->
    run fuel m1 (repeat (OpStep 16) (S n)) = Ok (m2, repeat (OMore true) n ++ [OMore false]) ->
    nth_error (mpos m2) 0 = Some q.
Proof. exact comes_to_rest_all. Qed.
Print Assumptions C12_at_rest.

Example C12_case :
  exists m m1 : model R,
    reached (mkV 0 0) 90 60 (mkSettings 8 3 500) nudge m /\ calm_history nudge /\ live_inserted nudge = [] /\
    length (live_anchors nudge) <> 1%nat /\ step_op 1 m (OpMoveTo (mkV 7 5)) = Ok (m1, ONone).
Proof.
  destruct (nudge_move (mkV 7 5)) as (m & m' & H1 & _ & _ & _ & H3). exists m, m'. split; [auto|].
  split; [unfold calm_history, nudge; simpl; repeat split; discriminate|]. split; [reflexivity|]. split; [discriminate|auto].
Qed.

(** ** C13 *)

(** The expectation fails: a careful client grabs two neighbouring points and
    pulls them apart; no number of prediction rounds is then enough. *)
Theorem C13_move_to_returns_refuted :
  exists m : model R, reached (mkV 0 0) 90 60 (mkSettings 8 3 500) pull_apart m /\ careful_history pull_apart /\
    forall fuel q, step_op fuel m (OpMoveTo q) = Err NoFuel.
Proof. exact pull_apart_stuck. Qed.
Print Assumptions C13_move_to_returns_refuted.

(** In general: while two neighbouring points [a] and [b] are grabbed so far
    from their rest vector that the spring between them is not slack, neither
    [MoveModelTo] nor [ResizeModel] to another size returns. *)
Theorem C13_hang :
  forall (p : vec R) (w h : R) (st : settings R) (ops : list (op R)) (m : model R) (a b : nat) (len pa pb : vec R),
    reached p w h st ops m -> (Z.of_nat (length ops) < two32)%Z -> malive m = true ->
    grabbed m a -> grabbed m b ->
    ((b = a + 1)%nat /\ (a mod 4 <> 3)%nat /\ len = mkV (mw m / 3) 0) \/ ((b = a + 4)%nat /\ len = mkV 0 (mh m / 3)) ->
    nth_error (mpos m) a = Some pa -> nth_error (mpos m) b = Some pb -> ~ slack pa pb len ->
    forall fuel,
      (forall q, step_op fuel m (OpMoveTo q) = Err NoFuel) /\
      (forall w' h', 0 < w' -> 0 < h' -> w' / mw m <> 1 \/ h' / mh m <> 1 -> step_op fuel m (OpResize w' h') = Err NoFuel).
Proof. exact hang. Qed.
Print Assumptions C13_hang.

Example C13_case :
  exists m : model R, reached (mkV 0 0) 90 60 (mkSettings 8 3 500) pull_apart m /\
    grabbed m 0 /\ grabbed m 1 /\ nth_error (mpos m) 0 = Some (mkV 0 0) /\ nth_error (mpos m) 1 = Some (mkV 130 0) /\
    malive m = true /\ mw m = 90 /\ mh m = 60.
Proof. exact (pull_apart_hangs _). Qed.
