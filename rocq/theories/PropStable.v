(** How strong a motion can become, and when it dies down.  (C85) *)

From Coq Require Import ZArith Reals Bool List Lia Lra.
From Verif Require Import Num Geometry Outcome Wobbly Spec SpecStall SpecStable LemBasic LemReal LemHistory LemStall LemGrid LemStable.
Import ListNotations.
Local Open Scope R_scope.

(** ** C85 *)

(** Let the spring constant and the friction satisfy
    (2 + sqrt 2) / 4 * k + friction < 30.  There is a strength [r], which depends
    on these two numbers alone, such that whatever was done to a model before
    (short of resizing it while an anchor was inserted), once nothing holds it:
    the strength of its motion stays bounded for ever after, however many steps
    are taken and whatever their times; and after a number of steps of positive
    length it is [r] or less and stays there. *)
Theorem C85_motion_dies_down :
  forall k friction, damped k friction ->
  exists r, forall p w h st ops (m : model R),
    0 < w -> 0 < h -> reached p w h st ops m -> calm_history ops -> live_anchors ops = [] ->
    (Z.of_nat (length ops) < two32)%Z -> malive m = true ->
    st_k (mset m) = k -> st_friction (mset m) = friction ->
    (exists big, forall fuel ts,
       exists m' us, run fuel m (map (fun t => OpStep t) ts) = Ok (m', us) /\ tame big m') /\
    (exists n, forall fuel ts, (forall t, In t ts -> (0 < t)%Z) -> (n <= length ts)%nat ->
       exists m' us, run fuel m (map (fun t => OpStep t) ts) = Ok (m', us) /\ tame r m').
Proof.
  intros k friction D. destruct (calms_down k friction D) as (r & X). exists r.
  intros p w h st ops m W H Hr Ca L Bd Al Ek Ef. apply X. rewrite <- Ek, <- Ef. exact (kept_reached p w h st ops m W H Hr Ca L Bd Al).
Qed.
Print Assumptions C85_motion_dies_down.

(** The condition holds for all the values the properties of the GObject wrapper
    accept. *)
Theorem C85_documented_ranges_are_damped :
  forall k friction, 1 / 10 <= k <= 10 -> 1 / 10 <= friction <= 10 -> damped k friction.
Proof.
  intros k friction K F. destruct sqrt2 as (S1 & S2). split; [lra|]. split; [lra|].
  assert ((2 + sqrt 2) / 4 * k <= 1 * 10) by (apply Rmult_le_compat; lra). lra.
Qed.
Print Assumptions C85_documented_ranges_are_damped.

(** ** C85, what goes wrong outside these ranges *)

(** The setters of the C++ settings accept any value.  For any positive spring
    constant and any friction with (2 + sqrt 2) / 4 * k + friction > 30, pulling
    the corner of a 90 by 60 model far enough and letting go starts a motion
    whose strength exceeds every bound. *)
Theorem C85_motion_dies_down_refuted :
  forall k friction range, amplified k friction ->
  exists d (m : model R),
    let pulled := [OpGrab (mkV 0 0); OpMoveAnchor 0 (mkV d 0); OpRelease 0] in
    reached (mkV 0 0) 90 60 (mkSettings k friction range) pulled m /\
    live_anchors pulled = [] /\ malive m = true /\
    forall r, exists n, forall fuel ts, (forall t, In t ts -> (0 < t)%Z) -> (n <= length ts)%nat ->
      exists m' us, run fuel m (map (fun t => OpStep t) ts) = Ok (m', us) /\ ~ tame r m'.
Proof.
  intros k friction range A. destruct (amplified_tug k friction range A) as (d & m & Hr & Al & X). exists d, m. cbv zeta.
  split; [exact Hr|]. split; [reflexivity|]. split; [exact Al|exact X].
Qed.
Print Assumptions C85_motion_dies_down_refuted.

(** The cases: the default settings and a hard pull; a spring constant of 40, set directly. *)
Example C85_case :
  damped 8 3 /\ amplified 40 3 /\
  exists m : model R, reached (mkV 0 0) 90 60 (mkSettings 8 3 500) (tug_by (-1000)) m /\ calm_history (tug_by (-1000)) /\
    live_anchors (tug_by (-1000)) = [] /\ malive m = true /\ st_k (mset m) = 8 /\ st_friction (mset m) = 3 /\ ~ tame 100 m.
Proof.
  destruct sqrt2 as (S1 & S2).
  split; [apply C85_documented_ranges_are_damped; lra|]. split; [split; lra|].
  destruct (tug_reached_by (-1000) (mkSettings 8 3 500)) as (m & Hr & P & V & Al & W & H & St). exists m. split; [exact Hr|].
  split; [unfold calm_history, tug_by; cbn; intuition discriminate|]. split; [reflexivity|]. split; [exact Al|]. rewrite St. split; [reflexivity|]. split; [reflexivity|].
  intros Tm. destruct (tame_elim 100 m Tm) as (_ & Ed). specialize (Ed true (0%nat, 4%nat) ltac:(left; reflexivity)). cbn [fst snd] in Ed.
  rewrite W, H, P, !tug_place in Ed by lia. cbn [Nat.eqb] in Ed. lra.
Qed.
