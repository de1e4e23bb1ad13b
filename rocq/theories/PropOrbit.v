(** Wobbling that never ends although the mesh moves at every step (C84). *)

From Coq Require Import ZArith Bool List Lia.
From Flocq Require Import Core IEEE754.BinarySingleNaN.
From Verif Require Import Num Geometry Outcome Wobbly Spec LemBasic Cases LemStall64 LemOrbit.
Import ListNotations.

(** ** C84, next to the default settings, in [double] *)

(** The defaults are a spring constant of 8, friction 3 and range 500.  Take
    them, but for a spring constant of 1479075000 / 185546321, which is 7.97...,
    and a 90 by 90 model; grab the point of the mesh at (60, 30), pull it one
    unit to the right and let go.  Nothing is held, but the model never comes to
    rest: every later step, however many there are, answers that it is still
    moving; unlike a stalled mesh it does move, at each single step; and moving
    the model to a point, resizing it, grabbing it and inserting an anchor never
    return. *)
Theorem C84_moves_for_ever_in_double_refuted :
  let st := mkSettings (ndiv (nof 1479075000) (nof 185546321)) (nof 3) (nof 500) in
  let pulled := [OpGrab (pt 60 30); OpMoveAnchor 0 (pt 1 0); OpRelease 0] in
  exists m : model f64,
    reached (pt 0 0) (nof 90) (nof 90) st pulled m /\
    careful_history pulled /\ live_anchors pulled = [] /\ malive m = true /\
    forall fuel ts, (forall t, In t ts -> (0 <= t)%Z) ->
      exists m', run fuel m (map (fun t => OpStep t) ts) = Ok (m', map (fun _ => OMore true) ts) /\
        (forall t, (0 < t <= 16)%Z -> exists m2, step_op fuel m' (OpStep t) = Ok (m2, OMore true) /\ mpos m2 <> mpos m') /\
        (forall q, step_op fuel m' (OpMoveTo q) = Err NoFuel) /\
        (forall w h, nltb (nof 0) w = true -> nltb (nof 0) h = true ->
           neqb (ndiv w (mw m')) (nof 1) = false \/ neqb (ndiv h (mh m')) (nof 1) = false ->
           step_op fuel m' (OpResize w h) = Err NoFuel) /\
        (forall q r, step_op fuel m' (OpGrab q) <> Ok r) /\
        (forall q, step_op fuel m' (OpInsert q) = Err NoFuel).
Proof.
  cbv zeta. match goal with |- context [reached _ _ _ ?st ?ops _] => destruct (verdict_reached st ops (fun m _ => wobblesb 132 12 m)) as (m & Hr & us & C) end;
    [vm_compute; reflexivity|].
  apply wobblesb_ok in C. exists m. split; [exact Hr|]. split; [unfold careful_history; cbn; auto 10|]. split; [reflexivity|].
  split; [apply C|]. intros fuel ts P. destruct (wobbling_run moved64 fuel ts m C P) as (m' & E & W). exists m'. split; [exact E|].
  split; [|exact (wobbling_hangs moved64 fuel m' W)].
  intros t Ht. destruct (wobbling_step moved64 t m' W) as (m2 & E2 & _ & M); [lia|]. exists m2. split; [|apply moved64_ne; auto].
  unfold step_op. cbn [needs_model]. destruct W as (-> & _). cbn [negb andb]. rewrite E2. reflexivity.
Qed.
Print Assumptions C84_moves_for_ever_in_double_refuted.
