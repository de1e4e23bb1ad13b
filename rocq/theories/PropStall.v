(** Does wobbling end?  (C84) *)

From Coq Require Import ZArith Reals Bool List Lia Lra.
From Verif Require Import Num Geometry Outcome Wobbly Spec SpecStall LemBasic LemHistory LemAnchors LemNetworkFacts LemSafe LemWhole LemStall Cases LemStall64.
Import ListNotations.
Local Open Scope R_scope.

(** ** C84, what goes wrong *)

(** The history: grab the first corner of a 90 by 60 model, pull it one unit to
    the left, let go.  For every spring constant below 3/2 (0.1 is the least the
    GObject property accepts) and all the other settings: nothing is held, but
    every later step, however many there are and whatever their times, answers
    that the model is still moving, and no point ever moves again; and moving
    the model to a point, resizing it, grabbing it and inserting an anchor never
    return. *)
Theorem C84_wobbling_ends_refuted :
  forall k friction range, 0 < k < 3 / 2 ->
  let pulled := [OpGrab (mkV 0 0); OpMoveAnchor 0 (mkV (-1) 0); OpRelease 0] in
  exists m : model R,
    reached (mkV 0 0) 90 60 (mkSettings k friction range) pulled m /\
    careful_history pulled /\ live_anchors pulled = [] /\ malive m = true /\
    forall fuel,
      (forall ts, (forall t, In t ts -> (0 < t)%Z) ->
         exists m', run fuel m (map (fun t => OpStep t) ts) = Ok (m', map (fun _ => OMore true) ts) /\ mpos m' = mpos m) /\
      (forall q, step_op fuel m (OpMoveTo q) = Err NoFuel) /\
      (forall w h, 0 < w -> 0 < h -> w <> 90 \/ h <> 60 -> step_op fuel m (OpResize w h) = Err NoFuel) /\
      (forall q r, step_op fuel m (OpGrab q) <> Ok r) /\
      (forall q, step_op fuel m (OpInsert q) = Err NoFuel).
Proof.
  intros k friction range K. cbv zeta. change [OpGrab (mkV 0 0); OpMoveAnchor 0 (mkV (-1) 0); OpRelease 0] with tug.
  destruct (tug_reached (mkSettings k friction range)) as (m & Hr & P & V & Al & W & H & St).
  assert (F : free_mesh m) by (apply (free_reached (mkV 0 0) 90 60 (mkSettings k friction range) tug); auto; try lra; unfold calm_history, tug; cbn; intuition discriminate).
  assert (S1 : stalled m).
  { split; [auto|]. split; [exact V|]. rewrite P, W, H, St. split; [apply tug_weak; auto|apply tug_taut]. }
  exists m. split; [auto|]. split; [unfold careful_history, tug; cbn; auto 10|]. split; [reflexivity|]. split; [auto|].
  intros fuel. destruct (stalled_hangs fuel m S1 Al) as (H1 & H2 & H3 & H4). rewrite W, H in H2. split; [|split; [auto|split; [|auto]]].
  - intros ts Hts. destruct (stalled_run fuel ts m S1 Al Hts) as (m' & E & E2 & _). eauto.
  - intros w' h' W' H' NE. apply H2; auto. destruct NE as [NE|NE]; [left|right]; intros E; apply NE; apply (f_equal (fun x => x * 90)) in E || apply (f_equal (fun x => x * 60)) in E; lra.
Qed.
Print Assumptions C84_wobbling_ends_refuted.

(** ** C84, exactly when it goes wrong *)

(** Take any model reached without resizing while an anchor is inserted, that
    holds no anchor and whose velocities are all zero.  One step of up to 16 ms
    answers "still moving" without moving anything exactly when two neighbours
    are a unit or more out of place and the pull on every point is too weak to
    set it in motion. *)
Theorem C84_stalls_exactly_when :
  forall p w h st ops (m : model R) fuel t,
    0 < w -> 0 < h -> reached p w h st ops m -> calm_history ops -> live_anchors ops = [] ->
    (Z.of_nat (length ops) < two32)%Z -> malive m = true -> motionless m -> (0 < t <= 16)%Z ->
    (exists m', step_op fuel m (OpStep t) = Ok (m', OMore true) /\ mpos m' = mpos m) <->
    too_weak (st_k (mset m)) (mw m) (mh m) (mpos m) /\ taut (mw m) (mh m) (mpos m).
Proof. exact stall_exact. Qed.
Print Assumptions C84_stalls_exactly_when.

(** And then it lasts for ever: every later step answers the same, nothing
    moves, and the calls that wait for the model to come to rest never return. *)
Theorem C84_stall_lasts :
  forall p w h st ops (m : model R) fuel,
    0 < w -> 0 < h -> reached p w h st ops m -> calm_history ops -> live_anchors ops = [] ->
    malive m = true -> motionless m ->
    too_weak (st_k (mset m)) (mw m) (mh m) (mpos m) -> taut (mw m) (mh m) (mpos m) ->
    (forall ts, (forall t, In t ts -> (0 < t)%Z) ->
       exists m', run fuel m (map (fun t => OpStep t) ts) = Ok (m', map (fun _ => OMore true) ts) /\
                  mpos m' = mpos m /\ motionless m') /\
    (forall q, step_op fuel m (OpMoveTo q) = Err NoFuel) /\
    (forall w' h', 0 < w' -> 0 < h' -> w' / mw m <> 1 \/ h' / mh m <> 1 -> step_op fuel m (OpResize w' h') = Err NoFuel) /\
    (forall q r, step_op fuel m (OpGrab q) <> Ok r) /\
    (forall q, step_op fuel m (OpInsert q) = Err NoFuel).
Proof.
  intros p w h st ops m fuel W Hh Hr Ca L Al V Wk Ta.
  assert (S1 : stalled m) by (split; [exact (free_reached _ _ _ _ _ _ W Hh Hr Ca L)|split; [exact V|auto]]).
  split; [|apply stalled_hangs; auto].
  intros ts Hts. destruct (stalled_run fuel ts m S1 Al Hts) as (m' & E & E2 & E3 & _).
  exists m'. split; [auto|]. split; [auto|]. unfold motionless in *. congruence.
Qed.
Print Assumptions C84_stall_lasts.

(** ** C84, what does hold *)

(** With a spring constant of 3 or more (the default is 8) this does not happen:
    a motionless model that holds no anchor and has two neighbours a unit or more
    out of place moves at the next step. *)
Theorem C84_strong_springs_move :
  forall p w h st ops (m : model R) fuel t,
    0 < w -> 0 < h -> reached p w h st ops m -> calm_history ops -> live_anchors ops = [] ->
    (Z.of_nat (length ops) < two32)%Z -> malive m = true -> motionless m -> 3 <= st_k (mset m) ->
    taut (mw m) (mh m) (mpos m) -> (0 < t <= 16)%Z ->
    exists m', step_op fuel m (OpStep t) = Ok (m', OMore true) /\ mpos m' <> mpos m.
Proof. exact strong_moves. Qed.
Print Assumptions C84_strong_springs_move.

(** So it never answers "still moving" twice in a row without moving a point. *)
Theorem C84_moving_means_moving :
  forall p w h st ops (m m1 m2 : model R) fuel t b t',
    0 < w -> 0 < h -> reached p w h st ops m -> calm_history ops -> live_anchors ops = [] ->
    (Z.of_nat (S (length ops)) < two32)%Z -> 3 <= st_k (mset m) ->
    (0 < t <= 16)%Z -> (0 < t' <= 16)%Z ->
    step_op fuel m (OpStep t) = Ok (m1, OMore b) -> mpos m1 = mpos m ->
    step_op fuel m1 (OpStep t') = Ok (m2, OMore true) -> mpos m2 <> mpos m1.
Proof.
  intros p w h st ops m m1 m2 fuel t b t' W Hh Hr Ca L Bd K Ht Ht' E1 P1 E2.
  pose proof (unmoved_still _ _ _ _ _ _ _ _ _ _ W Hh Hr Ca L Ht E1 P1) as V.
  pose proof (reached_fuel _ _ _ _ _ _ _ _ _ _ Hr E1) as Hr1.
  assert (Ca1 : calm_history (ops ++ [OpStep t])) by (apply calm_snoc; auto).
  assert (L1 : live_anchors (ops ++ [OpStep t]) = []) by (rewrite live_snoc_same by reflexivity; auto).
  assert (Al : malive m1 = true).
  { unfold step_op in E2. cbn [needs_model] in E2. destruct (malive m1); auto. discriminate E2. }
  assert (B1 : (Z.of_nat (length (ops ++ [OpStep t])) < two32)%Z) by (rewrite app_length; cbn [length]; lia).
  assert (St : mset m1 = mset m).
  { rewrite (settings_reached _ _ _ _ _ _ Hr), (settings_reached _ _ _ _ _ _ Hr1). unfold last_settings. rewrite fold_left_app. reflexivity. }
  intros P2. assert (X : exists m', step_op fuel m1 (OpStep t') = Ok (m', OMore true) /\ mpos m' = mpos m1) by eauto.
  apply (stall_exact _ _ _ _ _ _ _ _ W Hh Hr1 Ca1 L1 B1 Al V Ht') in X. destruct X as (_ & Ta).
  destruct (strong_moves _ _ _ _ _ _ fuel t' W Hh Hr1 Ca1 L1 B1 Al V) as (m' & E' & NE); auto; [rewrite St; auto|].
  rewrite E2 in E'. injection E' as <-. auto.
Qed.
Print Assumptions C84_moving_means_moving.

(** The same pull with the default settings: the model moves. *)
Example C84_case :
  exists m : model R, reached (mkV 0 0) 90 60 (mkSettings 8 3 500) tug m /\ calm_history tug /\ live_anchors tug = [] /\
    malive m = true /\ motionless m /\ taut (mw m) (mh m) (mpos m) /\
    exists m', step_op 0 m (OpStep 16) = Ok (m', OMore true) /\ mpos m' <> mpos m.
Proof.
  destruct (tug_reached (mkSettings 8 3 500)) as (m & Hr & P & V & Al & W & H & St).
  assert (Ca : calm_history tug) by (unfold calm_history, tug; cbn; intuition discriminate).
  assert (Ta : taut (mw m) (mh m) (mpos m)) by (rewrite P, W, H; apply tug_taut).
  exists m. split; [auto|]. split; [auto|]. split; [reflexivity|]. split; [auto|]. split; [auto|]. split; [auto|].
  apply (C84_strong_springs_move (mkV 0 0) 90 60 (mkSettings 8 3 500) tug); auto; try lra; try reflexivity; try lia.
  rewrite St. cbn [st_k]. lra.
Qed.

(** ** C84 in [double] *)

(** The same failure in the arithmetic the library computes in: on a 90 by 90
    model with spring constant 1, friction 3 and range 500, grab the first
    corner, pull it one unit to the left, let go. *)
Theorem C84_wobbling_ends_in_double_refuted :
  let st := mkSettings (nof 1) (nof 3) (nof 500) in
  let pulled := [OpGrab (pt 0 0); OpMoveAnchor 0 (pt (-1) 0); OpRelease 0] in
  exists m : model f64,
    reached (pt 0 0) (nof 90) (nof 90) st pulled m /\
    careful_history pulled /\ live_anchors pulled = [] /\ malive m = true /\
    forall fuel,
      (forall ts, (forall t, In t ts -> (0 < t)%Z) ->
         run fuel m (map (fun t => OpStep t) ts) = Ok (m, map (fun _ => OMore true) ts)) /\
      (forall q, step_op fuel m (OpMoveTo q) = Err NoFuel) /\
      (forall w h, nltb (nof 0) w = true -> nltb (nof 0) h = true ->
         neqb (ndiv w (mw m)) (nof 1) = false \/ neqb (ndiv h (mh m)) (nof 1) = false ->
         step_op fuel m (OpResize w h) = Err NoFuel) /\
      (forall q r, step_op fuel m (OpGrab q) <> Ok r) /\
      (forall q, step_op fuel m (OpInsert q) = Err NoFuel).
Proof.
  cbv zeta. match goal with |- context [reached _ _ _ ?st ?ops _] => destruct (verdict_reached st ops (fun m _ => fixedb m)) as (m & Hr & us & C) end;
    [vm_compute; reflexivity|].
  apply fixedb_ok in C. exists m. split; [exact Hr|]. split; [unfold careful_history; cbn; auto 10|]. split; [reflexivity|].
  split; [apply C|]. intros fuel. split; [intros ts P; apply fixed_run; auto|]. apply fixed_hangs. exact C.
Qed.
Print Assumptions C84_wobbling_ends_in_double_refuted.
