(** * Properties C42-C46: the magic lamp *)

From Coq Require Import ZArith Reals Bool List Lra Lia.
From Flocq Require Import Core IEEE754.BinarySingleNaN.
From Verif Require Import Num Geometry Outcome Steppers Transforms MagicLamp Program SpecAnim LemReal LemBasic LemFloat LemSteppers LemTransforms LemLamp.
Import ListNotations.
Local Open Scope Z_scope.

(** A stepper that always returns its state. *)
Definition constant {F} (s : F) (ms : Z) : F * F := (s, s).

(** ** C42 *)

(** After any history that ends with a [Step] to progress 1, every texture
    coordinate is shown at the corresponding place of the target box (where the
    code divides by zero see below). *)
Theorem C42_ends_on_target :
  forall (St : Type) (call : St -> Z -> R * St) q r s ops ms (a : lamp R R St) (uv : vec R),
    sensible r -> same_resolution ops -> stepped_lamp call q r s ops ms a ->
    lamp_regular (ml_params a) -> ml_progress a = 1%R -> in_square uv ->
    lamp_deform a uv = Ok (in_box (lp_target (ml_params a)) (vx uv) (vy uv)).
Proof.
  intros St call q r s ops ms a uv S N A _ P U. destruct (stepped_full call q r s ops ms a (sensible_fits r S) N A) as [Er Eg].
  unfold lamp_deform. rewrite Er, Eg, P. apply lamp_at_end; auto.
Qed.
Print Assumptions C42_ends_on_target.

(** The same at progress 0 and the source box, if the source is below the
    target. *)
Theorem C42_starts_on_source :
  forall (St : Type) (call : St -> Z -> R * St) q r s ops ms (a : lamp R R St) (uv : vec R),
    sensible r -> same_resolution ops -> stepped_lamp call q r s ops ms a ->
    let q' := ml_params a in
    below (lp_source q') (lp_target q') -> (0 <= lp_stretch q' < 1)%R -> lp_bend q' <> 0%R -> (1 <= lp_speed q')%R ->
    ml_progress a = 0%R -> in_square uv ->
    lamp_deform a uv = Ok (in_box (lp_source q') (vx uv) (vy uv)).
Proof.
  intros St call q r s ops ms a uv S N A q' B S1 S2 S3 P U. destruct (stepped_full call q r s ops ms a (sensible_fits r S) N A) as [Er Eg].
  unfold lamp_deform. rewrite Er, Eg, P. apply lamp_at_start; auto.
Qed.
Print Assumptions C42_starts_on_source.

(** A new lamp whose stepper starts at 0 or 1 is in the same places. *)
Theorem C42_new_lamp :
  forall (St : Type) (call : St -> Z -> R * St) q r s (uv : vec R),
    sensible r -> in_square uv ->
    exists a, lamp_new call q r s = Ok a /\
      (fst (call s 0%Z) = 1%R -> lamp_regular q -> lamp_deform a uv = Ok (in_box (lp_target q) (vx uv) (vy uv))) /\
      (fst (call s 0%Z) = 0%R -> below (lp_source q) (lp_target q) -> (0 <= lp_stretch q < 1)%R -> lp_bend q <> 0%R -> (1 <= lp_speed q)%R ->
       lamp_deform a uv = Ok (in_box (lp_source q) (vx uv) (vy uv))).
Proof.
  intros St call q r s uv S U. rewrite lamp_new_full by (auto using sensible_fits). eexists. split; [reflexivity|]. unfold lamp_deform. cbn [ml_res ml_grid].
  split; intros P; rewrite P; intros; [apply lamp_at_end|apply lamp_at_start]; auto.
Qed.
Print Assumptions C42_new_lamp.

(** With the source above the target the bottom row does not start in the
    source. *)
Theorem C42_source_above_refuted :
  forall (St : Type) (call : St -> Z -> R * St) q r s ops ms (a : lamp R R St) (i : Z),
    sensible r -> same_resolution ops -> stepped_lamp call q r s ops ms a ->
    let q' := ml_params a in
    let u := (IZR i / IZR (rw r - 1))%R in
    (vy (b_tl (lp_source q')) < vy (b_tl (lp_target q')))%R -> (vy (b_tl (lp_source q')) < vy (b_br (lp_source q')))%R ->
    (0 <= lp_stretch q' < 1)%R -> lp_bend q' <> 0%R -> (1 <= lp_speed q')%R ->
    ml_progress a = 0%R -> 0 <= i < rw r ->
    vx (in_box (lp_source q') u 1) <> vx (in_box (lp_target q') u 1) ->
    lamp_deform a (mkV u 1%R) <> Ok (in_box (lp_source q') u 1).
Proof.
  intros St call q r s ops ms a i S N A q' u H1 H2 S1 S2 S3 P I Ne K. destruct (stepped_full call q r s ops ms a (sensible_fits r S) N A) as [Er Eg].
  unfold lamp_deform in K. rewrite Er, Eg, P in K. destruct (sensible_bounds r S) as [W Hh].
  destruct (lamp_above_start q' r i S I H1 H2 S1 S2 S3 Ne) as [p [V X]].
  destruct (interpolate_node r (full_grid q' r 0%R) i (rh r - 1) S (full_length q' r 0%R) I ltac:(lia)) as [p' [V' E]].
  rewrite V in V'. injection V' as <-. assert (N2 : IZR (rh r - 1) <> 0%R) by (apply not_0_IZR; lia).
  replace (IZR (rh r - 1) / IZR (rh r - 1))%R with 1%R in E by (field; auto). fold u in E. unfold q' in K, E. rewrite K in E. injection E as E. apply X. rewrite <- E. reflexivity.
Qed.
Print Assumptions C42_source_above_refuted.

(** In floating point the claims fail also where a denominator is zero: with one
    column every vertex has no x coordinate, with one row no y coordinate, and with
    source and target at the same height the top row has no x coordinate, whatever
    the progress. *)
Theorem C42_one_column_refuted :
  forall (L : Libm f64) (St : Type) (call : St -> Z -> f32 * St) (q : lamp_params f32 f64) h s,
    1 <= h < 2 ^ 64 ->
    exists a, lamp_new call q (mkRes 1 h) s = Ok a /\
      forall j, 0 <= j < h -> exists p, vertex (mkRes 1 h) (ml_grid a) 0 j = Some p /\ vx p = B754_nan.
Proof.
  intros L St call q h s B. rewrite lamp_new_full by (unfold fits; cbn [rw rh]; lia). eexists. split; [reflexivity|]. intros j J. cbn [ml_grid].
  eexists. split; [apply full_nth; [unfold fits; cbn [rw rh]; lia|cbn; lia|exact J]|apply lamp_one_column; reflexivity].
Qed.
Print Assumptions C42_one_column_refuted.

Theorem C42_one_row_refuted :
  forall (L : Libm f64) (St : Type) (call : St -> Z -> f32 * St) (q : lamp_params f32 f64) w s,
    1 <= w < 2 ^ 64 ->
    exists a, lamp_new call q (mkRes w 1) s = Ok a /\
      forall i, 0 <= i < w -> exists p, vertex (mkRes w 1) (ml_grid a) i 0 = Some p /\ vy p = B754_nan.
Proof.
  intros L St call q w s B. rewrite lamp_new_full by (unfold fits; cbn [rw rh]; lia). eexists. split; [reflexivity|]. intros i I. cbn [ml_grid].
  eexists. split; [apply full_nth; [unfold fits; cbn [rw rh]; lia|exact I|cbn; lia]|apply lamp_one_row; reflexivity].
Qed.
Print Assumptions C42_one_row_refuted.

(** A lamp whose source (100 x 50 at (0,0)) and target (10 x 10 at (200,0)) have
    the same top. *)
Definition level : lamp_params f32 f64 :=
  mkLamp (mkB (mkV (nof 0) (nof 0)) (mkV (nof 100) (nof 50))) (mkB (mkV (nof 200) (nof 0)) (mkV (nof 210) (nof 10)))
    (nof 10) (nof 0) (nof 0) (nof 1).

Theorem C42_same_height_refuted :
  forall (L : Libm f64), texp (B754_nan : f64) = B754_nan ->
    exists a p, lamp_new constant level (mkRes 2 2) (nof 1) = Ok a /\
      vertex (mkRes 2 2) (ml_grid a) 0 0 = Some p /\ vx p = B754_nan.
Proof.
  intros L Ln. rewrite lamp_new_full by (unfold fits; cbn [rw rh]; lia). do 2 eexists. split; [reflexivity|]. cbn [ml_grid].
  split; [apply full_nth; unfold fits; cbn [rw rh]; lia|]. unfold lamp_point. cbv zeta. cbn [vx].
  match goal with |- context [sigmoid (D := f64) ?x ?b ?o] =>
    lazymatch x with nmul _ _ => replace (sigmoid (D := f64) x b o) with (B754_nan : f32) end end.
  - rewrite nsub_nan_l32, ndiv_nan_l32. change (widen (B754_nan : f32)) with (B754_nan : f64). rewrite nmul_nan_r64, nadd_nan_r64. reflexivity.
  - symmetry. match goal with |- sigmoid ?x _ _ = _ => replace x with (B754_nan : f32) end; [apply sigmoid_nan; auto|]. vm_compute. reflexivity.
Qed.
Print Assumptions C42_same_height_refuted.

(** An instance: 3 x 4 vertices, linear steppers of 100 ms; the source is below the
    target. *)
Definition case_lamp : lamp_params R R :=
  (mkLamp (mkB (mkV 100 200) (mkV 200 300)) (mkB (mkV 0 0) (mkV 20 10)) 10 (1 / 2) (1 / 4) 2)%R.

Lemma case_below : below (lp_source case_lamp) (lp_target case_lamp).
Proof. unfold below, case_lamp. cbn. lra. Qed.

Lemma case_regular : lamp_regular case_lamp.
Proof. unfold lamp_regular, case_lamp. cbn. lra. Qed.

Example C42_case : exists a,
  sensible (mkRes 3 4) /\ same_resolution [MlStep (F := R) (D := R) (St := linear R) 30; MlSetParams case_lamp] /\
  stepped_lamp linear_call case_lamp (mkRes 3 4) (linear_new 100%R) [MlStep 30; MlSetParams case_lamp] 120 a /\
  ml_progress a = 1%R /\ ml_params a = case_lamp /\ in_square (mkV (1 / 3) (1 / 5))%R.
Proof.
  assert (S : sensible (mkRes 3 4)) by (unfold sensible; cbn [rw rh]; lia).
  assert (Sr : same_resolution [MlStep (F := R) (D := R) 30; MlSetParams (St := linear R) case_lamp]) by (repeat constructor).
  destruct (lamp_history linear_call case_lamp (mkRes 3 4) (linear_new 100%R) [MlStep 30; MlSetParams case_lamp] 120 (sensible_fits _ S) Sr) as [a0 [a [E [E' [R1 [G [b [Eb P]]]]]]]].
  exists a. split; auto. split; auto. split; [exists a0; auto|].
  rewrite lamp_run_app, Eb in E'. cbn [bind lamp_run lamp_do] in E'.
  rewrite lamp_new_full in E by (apply sensible_fits; auto). injection E as <-. cbn [lamp_run lamp_do] in Eb.
  rewrite lamp_step_full in Eb by (cbn [ml_res ml_grid]; auto using sensible_fits, full_length). cbn [bind fst] in Eb. injection Eb as <-.
  rewrite lamp_step_full in E' by (cbn [ml_res ml_grid]; auto using sensible_fits, full_length). cbn [bind fst] in E'. injection E' as <-.
  cbn [ml_progress ml_params ml_stepper linear_call linear_new fst snd lin_progress lin_length nadd ndiv nof nzero Num_R]. rewrite clamp_R.
  split; [|split; [reflexivity|unfold in_square; cbn; lra]]. unfold Rmin, Rmax. destruct (Rle_dec 0 _), (Rle_dec 1 _); lra.
Qed.

Example C42_case_params :
  lamp_regular case_lamp /\ below (lp_source case_lamp) (lp_target case_lamp) /\ (0 <= lp_stretch case_lamp < 1)%R /\ lp_bend case_lamp <> 0%R /\ (1 <= lp_speed case_lamp)%R.
Proof. split; [apply case_regular|]. split; [apply case_below|]. cbn. lra. Qed.

(** The exponential the theorems on equal heights and on no bend assume exists. *)
Example C42_case_exp : exists L : Libm f64,
  texp (B754_nan : f64) = B754_nan /\ texp (B754_zero false : f64) = nof 1 /\ texp (B754_zero true : f64) = nof 1.
Proof. exists {| tsin := fun x => x; tcos := fun x => x; texp := fun x => nadd (nof 1) x; tpi := nof 3 |}. repeat split. Qed.

(** A stretch factor of 1, which the property of the object accepts: in the last
    frame the bottom row is nowhere, whatever the boxes and the resolution. *)
Theorem C42_full_stretch_refuted :
  forall (L : Libm f64) (St : Type) (call : St -> Z -> f32 * St) (q : lamp_params f32 f64) w h s,
    1 <= w -> 2 <= h -> w * h < 2 ^ 64 -> lp_stretch q = nof 1 -> fst (call s 0) = nof 1 ->
    exists a, lamp_new call q (mkRes w h) s = Ok a /\
      forall i, 0 <= i < w -> exists p, vertex (mkRes w h) (ml_grid a) i (h - 1) = Some p /\ vy p = B754_nan.
Proof.
  intros L St call q w h s W Hh B S P. rewrite lamp_new_full by (unfold fits; cbn [rw rh]; lia). eexists. split; [reflexivity|]. intros i I. cbn [ml_grid].
  eexists. split; [apply full_nth; [unfold fits; cbn [rw rh]; lia|exact I|cbn [rh]; lia]|]. rewrite P. apply lamp_full_stretch; cbn [rh]; auto. nia.
Qed.
Print Assumptions C42_full_stretch_refuted.

Example C42_case_full_stretch :
  let q := mkLamp (mkB (mkV (nof 100) (nof 200)) (mkV (nof 200) (nof 300))) (mkB (mkV (nof 0) (nof 0)) (mkV (nof 30) (nof 30))) (nof 10) (nlit 1 2) (nof 1) (nof 2) : lamp_params f32 f64 in
  lp_stretch q = nof 1 /\ fst (constant (nof 1 : f32) 0) = nof 1 /\ 1 <= 10 /\ 2 <= 10 /\ 10 * 10 < 2 ^ 64.
Proof. cbn [lp_stretch constant fst]. repeat split; lia. Qed.

(** No bend: everything is nowhere in the last frame (the exponential of zero
    being 1). *)
Theorem C42_no_bend_refuted :
  forall (L : Libm f64), texp (B754_zero false : f64) = nof 1 -> texp (B754_zero true : f64) = nof 1 ->
    let q := mkLamp (mkB (mkV (nof 100) (nof 200)) (mkV (nof 200) (nof 300))) (mkB (mkV (nof 0) (nof 0)) (mkV (nof 30) (nof 30))) (nof 0) (nlit 1 2) (nof 0) (nof 1) : lamp_params f32 f64 in
    exists a p, lamp_new constant q (mkRes 2 2) (nof 1) = Ok a /\
      vertex (mkRes 2 2) (ml_grid a) 0 0 = Some p /\ vx p = B754_nan.
Proof.
  intros L Lp Lm q. rewrite lamp_new_full by (unfold fits; cbn [rw rh]; lia). do 2 eexists. split; [reflexivity|]. cbn [ml_grid].
  split; [apply full_nth; unfold fits; cbn [rw rh]; lia|]. unfold q. apply lamp_no_bend; auto.
Qed.
Print Assumptions C42_no_bend_refuted.

(** ** C43 *)

(** For every content of the vertices, every texture coordinate of the unit square
    is shown, at a point between the four vertices around it. *)
Theorem C43_interpolates :
  forall (St : Type) (a : lamp R R St) (uv : vec R),
    let r := ml_res a in
    sensible r -> length (ml_grid a) = Z.to_nat (rw r * rh r) -> in_square uv ->
    exists i j i' j' v1 v2 v3 v4 p,
      i = Zfloor (vx uv * IZR (rw r - 1)) /\ j = Zfloor (vy uv * IZR (rh r - 1)) /\
      i' = Z.min (i + 1) (rw r - 1) /\ j' = Z.min (j + 1) (rh r - 1) /\
      vertex r (ml_grid a) i j = Some v1 /\ vertex r (ml_grid a) i' j = Some v2 /\
      vertex r (ml_grid a) i j' = Some v3 /\ vertex r (ml_grid a) i' j' = Some v4 /\
      lamp_deform a uv = Ok p /\
      forall lo hi, within lo hi v1 -> within lo hi v2 -> within lo hi v3 -> within lo hi v4 -> within lo hi p.
Proof. intros. apply interpolate_within; auto. Qed.
Print Assumptions C43_interpolates.

(** Precisely: with [s] and [t] the position of the point in its cell, the mean of
    the four corners of the cell with weights (1 - s) (1 - t), s (1 - t),
    (1 - s) t and s t. *)
Theorem C43_bilinear :
  forall (St : Type) (a : lamp R R St) (uv : vec R),
    let r := ml_res a in
    sensible r -> length (ml_grid a) = Z.to_nat (rw r * rh r) -> in_square uv ->
    let i := Zfloor (vx uv * IZR (rw r - 1)) in let j := Zfloor (vy uv * IZR (rh r - 1)) in
    let i' := Z.min (i + 1) (rw r - 1) in let j' := Z.min (j + 1) (rh r - 1) in
    let s := (vx uv * IZR (rw r - 1) - IZR i)%R in let t := (vy uv * IZR (rh r - 1) - IZR j)%R in
    exists v1 v2 v3 v4,
      vertex r (ml_grid a) i j = Some v1 /\ vertex r (ml_grid a) i' j = Some v2 /\
      vertex r (ml_grid a) i j' = Some v3 /\ vertex r (ml_grid a) i' j' = Some v4 /\
      let mix f := ((1 - s) * (1 - t) * f v1 + s * (1 - t) * f v2 + (1 - s) * t * f v3 + s * t * f v4)%R in
      lamp_deform a uv = Ok (mkV (mix vx) (mix vy)).
Proof. intros. apply interpolate_bilinear; auto. Qed.
Print Assumptions C43_bilinear.

(** At a node of the grid it is the vertex itself. *)
Theorem C43_exact_at_nodes :
  forall (St : Type) (a : lamp R R St) (i j : Z),
    let r := ml_res a in
    sensible r -> length (ml_grid a) = Z.to_nat (rw r * rh r) -> 0 <= i < rw r -> 0 <= j < rh r ->
    exists p, vertex r (ml_grid a) i j = Some p /\
      lamp_deform a (mkV (IZR i / IZR (rw r - 1)) (IZR j / IZR (rh r - 1)))%R = Ok p.
Proof. intros. apply interpolate_node; auto. Qed.
Print Assumptions C43_exact_at_nodes.

(** In double precision too no vertex outside the grid is read. *)
Theorem C43_in_bounds_double :
  forall (St : Type) (a : lamp f32 f64 St) (uv : vec f64),
    let r := ml_res a in
    sensible r -> rw r <= 2 ^ 53 -> rh r <= 2 ^ 53 -> length (ml_grid a) = Z.to_nat (rw r * rh r) ->
    is_finite (vx uv) = true -> is_finite (vy uv) = true -> (0 <= B2R (vx uv) <= 1)%R -> (0 <= B2R (vy uv) <= 1)%R ->
    exists p, lamp_deform a uv = Ok p.
Proof. intros. apply interpolate_f64; auto. Qed.
Print Assumptions C43_in_bounds_double.

(** Lamps that were built and stepped meet the hypotheses (see also C45). *)
Example C43_case : exists a : lamp R R (linear R), exists a0,
  lamp_new linear_call case_lamp (mkRes 3 4) (linear_new 100%R) = Ok a0 /\ lamp_run linear_call a0 [MlStep 30; MlStep 60] = Ok a /\
  sensible (ml_res a) /\ length (ml_grid a) = Z.to_nat (rw (ml_res a) * rh (ml_res a)).
Proof.
  assert (S : sensible (mkRes 3 4)) by (unfold sensible; cbn [rw rh]; lia).
  destruct (lamp_history linear_call case_lamp (mkRes 3 4) (linear_new 100%R) [MlStep 30] 60 (sensible_fits _ S)) as [a0 [a [E [E' [R1 [G _]]]]]]; [repeat constructor|].
  exists a, a0. split; auto. split; [exact E'|]. rewrite R1. split; auto. rewrite G. apply full_length.
Qed.

Example C43_case_double : forall L : Libm f64, exists a : lamp f32 f64 (linear f32),
  lamp_new linear_call level (mkRes 3 4) (linear_new (nof 100)) = Ok a /\ sensible (ml_res a) /\
  length (ml_grid a) = Z.to_nat (rw (ml_res a) * rh (ml_res a)) /\ is_finite (nof 1 : f64) = true /\ (0 <= B2R (nof 1 : f64) <= 1)%R.
Proof.
  intros L. assert (S : sensible (mkRes 3 4)) by (unfold sensible; cbn [rw rh]; lia). rewrite lamp_new_full by (apply sensible_fits; auto).
  eexists. split; [reflexivity|]. cbn [ml_res ml_grid]. split; auto. split; [apply full_length|]. split; [reflexivity|].
  rewrite <- SF2R_B2SF. replace (B2SF (nof 1 : f64)) with (SpecFloat.S754_finite false 4503599627370496 (-52)) by (vm_compute; reflexivity).
  cbn. unfold F2R. cbn. lra.
Qed.

(** ** C44 *)

(** Coordinates outside the unit square are not clamped.  One row or more below
    the surface, vertices outside the grid are read. *)
Theorem C44_below_refuted :
  forall (St : Type) (a : lamp R R St) (uv : vec R),
    let r := ml_res a in
    sensible r -> rh r * rw r * 4 < 2 ^ 64 -> length (ml_grid a) = Z.to_nat (rw r * rh r) ->
    (0 <= vx uv <= 1)%R -> (IZR (rh r) <= vy uv * IZR (rh r - 1) < 2 * IZR (rh r))%R ->
    lamp_deform a uv = Err OutOfBounds.
Proof. intros. apply interpolate_below; auto. Qed.
Print Assumptions C44_below_refuted.

(** One column or more to the left of it, a negative number is converted to an
    unsigned one. *)
Theorem C44_left_refuted :
  forall (St : Type) (a : lamp R R St) (uv : vec R),
    sensible (ml_res a) -> (vx uv * IZR (rw (ml_res a) - 1) <= -1)%R ->
    lamp_deform a uv = Err BadCast.
Proof. intros. apply interpolate_negative; auto. Qed.
Print Assumptions C44_left_refuted.

(** One column to the right of the top right corner, the leftmost vertex of the
    second row is shown. *)
Theorem C44_right_refuted :
  forall (St : Type) (a : lamp R R St),
    let r := ml_res a in
    sensible r -> 3 <= rh r -> length (ml_grid a) = Z.to_nat (rw r * rh r) ->
    exists p, vertex r (ml_grid a) 0 1 = Some p /\ lamp_deform a (mkV (IZR (rw r) / IZR (rw r - 1)) 0)%R = Ok p.
Proof. intros. apply interpolate_wraps; auto. Qed.
Print Assumptions C44_right_refuted.

(** Less than one cell outside is tolerated. *)
Theorem C44_near :
  forall (St : Type) (a : lamp R R St) (uv : vec R),
    let r := ml_res a in
    sensible r -> length (ml_grid a) = Z.to_nat (rw r * rh r) ->
    (-1 < vx uv * IZR (rw r - 1) < IZR (rw r))%R -> (-1 < vy uv * IZR (rh r - 1) < IZR (rh r))%R ->
    exists p, lamp_deform a uv = Ok p.
Proof. intros. apply interpolate_near; auto. Qed.
Print Assumptions C44_near.

(** For the lamp of [C43_case]: uv = (1/2, 4/3), uv = (-1/2, 0), uv = (3/2, 0) and
    uv = (5/4, -1/4). *)
Example C44_case :
  (IZR 4 <= 4 / 3 * IZR (4 - 1) < 2 * IZR 4)%R /\ (- (1 / 2) * IZR (3 - 1) <= -1)%R /\ (IZR 3 / IZR (3 - 1) = 3 / 2)%R /\
  (-1 < 5 / 4 * IZR (3 - 1) < IZR 3)%R /\ (-1 < - (1 / 4) * IZR (4 - 1) < IZR 4)%R.
Proof. cbn. lra. Qed.

(** ** C45 *)

(** While the resolution is not changed, every history runs and the grid keeps one
    vertex for each column and row, in every arithmetic. *)
Theorem C45_same_resolution :
  forall (F D : Type) (NF : Num F) (ND : Num D) (C : Conv F D) (L : Libm D) (St : Type) (call : St -> Z -> F * St) q r s (ops : list (lamp_op F D St)),
    0 < rw r -> 0 < rh r -> rw r * rh r < 2 ^ 64 -> same_resolution ops ->
    exists a0 a, lamp_new call q r s = Ok a0 /\ lamp_run call a0 ops = Ok a /\
      ml_res a = r /\ length (ml_grid a) = Z.to_nat (rw r * rh r).
Proof.
  intros F D NF ND C L St call q r s ops W Hh B S. rewrite lamp_new_full by (unfold fits; auto). eexists.
  destruct (lamp_run_total call ops (mkLampAnim q (full_grid q r (fst (call s 0))) r (fst (call s 0)) (snd (call s 0))) S) as [a [E [R1 G]]];
    [unfold fits; auto|apply full_length|].
  exists a. split; [reflexivity|]. split; auto. cbn in R1. split; auto. rewrite R1 in G. exact G.
Qed.
Print Assumptions C45_same_resolution.

(** A resolution whose number of vertices does not fit in 64 bits: the storage is
    allocated for the wrapped product, and already the constructor writes outside
    it. *)
Theorem C45_uncountable_refuted :
  forall (F D : Type) (NF : Num F) (ND : Num D) (C : Conv F D) (L : Libm D) (St : Type) (call : St -> Z -> F * St) q r s,
    0 < rw r -> 0 < rh r -> 2 ^ 64 <= rw r * rh r ->
    lamp_new call q r s = Err OutOfBounds.
Proof.
  intros F D NF ND C L St call q r s W Hh B. unfold lamp_new. destruct (call s 0) as [p s1]. unfold move_grid.
  set (n := u64 (rw r * rh r)). assert (Bn : 0 <= n < 2 ^ 64) by (apply Z.mod_pos_bound; lia).
  assert (Ln : Z.of_nat (length (init_grid (D := D) r)) = n) by (unfold init_grid; rewrite repeat_length; apply Z2Nat.id; lia).
  assert (Bi : 0 <= n mod rw r < rw r) by (apply Z.mod_pos_bound; lia).
  assert (Bj : 0 <= n / rw r < rh r) by (split; [apply Z.div_pos; lia|apply Z.div_lt_upper_bound; lia]).
  assert (I : In (n, lamp_point q r p (n mod rw r) (n / rw r)) (lamp_writes q r p)).
  { unfold lamp_writes. apply in_flat_map. exists (Z.to_nat (n / rw r)). split; [apply in_seq; lia|].
    apply in_map_iff. exists (Z.to_nat (n mod rw r)). split; [|apply in_seq; lia]. cbv zeta. rewrite !Z2Nat.id by lia. f_equal.
    rewrite Z.mul_comm, <- Z_div_mod_eq_full. unfold u64. apply Z.mod_small. lia. }
  destruct (do_writes (lamp_writes q r p) (init_grid r)) as [g|e] eqn:E.
  - exfalso. assert (X : exists g', do_writes (lamp_writes q r p) (init_grid r) = Ok g' /\ length g' = length (init_grid (D := D) r))
      by (exists g; split; auto; eapply do_writes_length; eauto).
    apply do_writes_iff in X. rewrite Forall_forall in X. specialize (X _ I). cbn [fst] in X. lia.
  - cbn [bind]. f_equal. revert E. generalize (init_grid (D := D) r). generalize (lamp_writes q r p).
    clear. intros ws. induction ws as [|[k v] ws IH]; intros g E; cbn [do_writes] in E; [discriminate E|].
    destruct (k <? Z.of_nat (length g)); [eauto|congruence].
Qed.
Print Assumptions C45_uncountable_refuted.

(** For 2^32 by 2^32 vertices nothing is allocated. *)
Example C45_uncountable_case :
  0 < rw (mkRes (2 ^ 32) (2 ^ 32)) < 2 ^ 64 /\ 2 ^ 64 <= rw (mkRes (2 ^ 32) (2 ^ 32)) * rh (mkRes (2 ^ 32) (2 ^ 32)) /\
  length (init_grid (D := R) (mkRes (2 ^ 32) (2 ^ 32))) = 0%nat.
Proof. vm_compute. repeat split; intros E; discriminate E. Qed.

(** A larger resolution makes the next [Step] write outside the grid. *)
Theorem C45_enlarge_refuted :
  forall (F D : Type) (NF : Num F) (ND : Num D) (C : Conv F D) (L : Libm D) (St : Type) (call : St -> Z -> F * St) q r r' s (ops : list (lamp_op F D St)) ms,
    0 < rw r -> 0 < rh r -> same_resolution ops ->
    0 < rw r' -> 0 < rh r' -> rw r * rh r < rw r' * rh r' < 2 ^ 64 ->
    exists a0, lamp_new call q r s = Ok a0 /\ lamp_run call a0 (ops ++ [MlSetResolution r'; MlStep ms]) = Err OutOfBounds.
Proof.
  intros F D NF ND C L St call q r r' s ops ms W Hh S W' H' B.
  destruct (C45_same_resolution F D NF ND C L St call q r s ops W Hh ltac:(lia) S) as [a0 [a [E [E' [R1 G]]]]].
  exists a0. split; auto. rewrite lamp_run_app, E'. cbn [bind lamp_run lamp_do]. unfold lamp_step. cbn [ml_stepper ml_params ml_res ml_grid].
  destruct (call (ml_stepper a) ms) as [v s1]. rewrite move_overflow; [reflexivity|unfold fits; lia|rewrite G; apply vertices_lt; unfold fits; lia].
Qed.
Print Assumptions C45_enlarge_refuted.

(** Even before it, the bottom right corner is read outside the grid. *)
Theorem C45_enlarge_read_refuted :
  forall (St : Type) (call : St -> Z -> R * St) q r r' s (ops : list (lamp_op R R St)),
    sensible r -> same_resolution ops -> sensible r' -> rw r * rh r < rw r' * rh r' ->
    exists a0 a, lamp_new call q r s = Ok a0 /\ lamp_run call a0 (ops ++ [MlSetResolution r']) = Ok a /\
      lamp_deform a (mkV 1 1)%R = Err OutOfBounds.
Proof.
  intros St call q r r' s ops S N S' B. assert (S0 := S). destruct S0 as [S1 [S2 S3]].
  destruct (C45_same_resolution R R _ _ _ _ St call q r s ops ltac:(lia) ltac:(lia) S3 N) as [a0 [a [E [E' [R1 G]]]]].
  exists a0. eexists. split; [exact E|]. split; [rewrite lamp_run_app, E'; reflexivity|]. unfold lamp_deform. cbn [ml_res ml_grid].
  apply (interpolate_too_small r r'); auto.
Qed.
Print Assumptions C45_enlarge_read_refuted.

(** A resolution with no more vertices works: after the next [Step] the lamp shows
    everything where a lamp built with that resolution shows it. *)
Theorem C45_shrink :
  forall (F D : Type) (NF : Num F) (ND : Num D) (C : Conv F D) (L : Libm D) (St : Type) (call : St -> Z -> F * St) q r r' s (ops : list (lamp_op F D St)) ms,
    0 < rw r -> 0 < rh r -> rw r * rh r < 2 ^ 64 -> same_resolution ops ->
    0 < rw r' -> 0 < rh r' -> rw r' * rh r' <= rw r * rh r ->
    exists a0 a b, lamp_new call q r s = Ok a0 /\ lamp_run call a0 (ops ++ [MlSetResolution r'; MlStep ms]) = Ok a /\
      lamp_new constant (ml_params a) r' (ml_progress a) = Ok b /\
      forall uv p, lamp_deform b uv = Ok p -> lamp_deform a uv = Ok p.
Proof.
  intros F D NF ND C L St call q r r' s ops ms W Hh B S W' H' B'.
  destruct (C45_same_resolution F D NF ND C L St call q r s ops W Hh B S) as [a0 [a [E [E' [R1 G]]]]].
  exists a0. rewrite lamp_run_app, E'. cbn [bind lamp_run lamp_do]. unfold lamp_step. cbn [ml_stepper ml_params ml_res ml_grid].
  destruct (call (ml_stepper a) ms) as [v s1]. rewrite move_longer; [|unfold fits; lia|rewrite G; apply vertices_le; unfold fits; lia].
  cbn [bind fst lamp_run]. do 2 eexists. split; [exact E|]. split; [reflexivity|]. cbn [ml_params ml_progress].
  split; [apply lamp_new_full; unfold fits; lia|]. unfold lamp_deform. cbn [ml_res ml_grid constant fst]. intros uv p. apply interpolate_prefix.
Qed.
Print Assumptions C45_shrink.

Example C45_case :
  let r := mkRes 10 10 in let bigger := mkRes 20 10 in let smaller := mkRes 5 8 in
  sensible r /\ sensible bigger /\ rw r * rh r < rw bigger * rh bigger /\ rw smaller * rh smaller <= rw r * rh r /\
  same_resolution [MlStep (F := R) (D := R) (St := linear R) 16; MlSetParams case_lamp].
Proof. cbn. unfold sensible. cbn. repeat split; try lia. repeat constructor. Qed.

(** ** C46 *)

(** Every rectangle that contains the four extremes contains the whole surface. *)
Theorem C46_extremes_bound :
  forall (St : Type) (call : St -> Z -> R * St) q r s ops ms (a : lamp R R St),
    sensible r -> same_resolution ops -> stepped_lamp call q r s ops ms a ->
    let q' := ml_params a in
    below (lp_source q') (lp_target q') -> (0 <= lp_stretch q' < 1)%R -> lp_bend q' <> 0%R -> (0 <= lp_speed q')%R ->
    exists cs, lamp_extremes a = Ok cs /\ length cs = 4%nat /\
      forall lo hi, Forall (fun c => within lo hi (mkV (v4x c) (v4y c))) cs ->
      forall uv p, in_square uv -> lamp_deform a uv = Ok p -> within lo hi p.
Proof.
  intros St call q r s ops ms a S N A q' Bl S1 S2 S3. destruct (stepped_full call q r s ops ms a (sensible_fits r S) N A) as [Er Eg].
  assert (P : (0 <= ml_progress a <= 1)%R).
  { destruct A as [a0 [E0 E1]]. destruct (lamp_history call q r s ops ms (sensible_fits r S) N) as [b0 [b [F1 [F2 [_ [_ [b' [_ Pb]]]]]]]].
    rewrite E0 in F1. injection F1 as <-. rewrite E1 in F2. injection F2 as <-. rewrite Pb, clamp_R. unfold Rmin, Rmax. destruct (Rle_dec 0 _), (Rle_dec 1 _); lra. }
  destruct (lamp_corners a) as [c0 [c1 [c2 [c3 [V0 [V1 [V2 [V3 E]]]]]]]]; [rewrite Er; auto|rewrite Eg, Er; apply full_length|].
  eexists. split; [exact E|]. split; [reflexivity|]. intros lo hi Fa uv p U D.
  rewrite Er, Eg in V0, V1, V2, V3. inversion Fa as [|? ? W0 F1]; subst. inversion F1 as [|? ? W1 F2]; subst. inversion F2 as [|? ? W2 F3]; subst. inversion F3 as [|? ? W3 _]; subst.
  assert (All : forall i j x, 0 <= i < rw (ml_res a) -> 0 <= j < rh (ml_res a) -> vertex (ml_res a) (ml_grid a) i j = Some x -> within lo hi x).
  { intros i j x I J V. rewrite Eg in V. eapply (lamp_vertex_within (ml_params a) (ml_res a) (ml_progress a) c0 c1 c2 c3); eauto. }
  destruct (interpolate_within uv (ml_res a) (ml_grid a) S) as [i [j [i' [j' [w1 [w2 [w3 [w4 [p' [Ei [Ej [Ei' [Ej' [X1 [X2 [X3 [X4 [Ep Bd]]]]]]]]]]]]]]]]]];
    [rewrite Eg at 1; apply full_length|auto|].
  unfold lamp_deform in D. rewrite D in Ep. injection Ep as <-. destruct (sensible_bounds _ S) as [W Hh].
  assert (I : 0 <= i <= rw (ml_res a) - 1).
  { rewrite Ei. destruct U as [U _]. assert (0 < IZR (rw (ml_res a) - 1))%R by (apply IZR_lt; lia). split; [apply Zfloor_lub; nra|].
    apply le_IZR. apply Rle_trans with (vx uv * IZR (rw (ml_res a) - 1))%R; [apply Zfloor_lb|nra]. }
  assert (J : 0 <= j <= rh (ml_res a) - 1).
  { rewrite Ej. destruct U as [_ U]. assert (0 < IZR (rh (ml_res a) - 1))%R by (apply IZR_lt; lia). split; [apply Zfloor_lub; nra|].
    apply le_IZR. apply Rle_trans with (vy uv * IZR (rh (ml_res a) - 1))%R; [apply Zfloor_lb|nra]. }
  apply Bd; eapply All; eauto; lia.
Qed.
Print Assumptions C46_extremes_bound.

(** Not so with the source above the target: half way, with stretch 4/5, the middle
    row of a lamp with three rows is above all four extremes. *)
Definition upside_down : lamp_params R R :=
  (mkLamp (mkB (mkV 0 0) (mkV 6 6)) (mkB (mkV 0 12) (mkV 6 18)) 10 (1 / 2) (4 / 5) 1)%R.

Theorem C46_source_above_refuted :
  exists a p, stepped_lamp constant upside_down (mkRes 3 3) (1 / 2)%R [] 16 a /\
    (exists c0 c1 c2 c3, lamp_extremes a = Ok [c0; c1; c2; c3] /\ v4y c0 = 6%R /\ v4y c1 = 6%R /\ v4y c2 = 6%R /\ v4y c3 = 6%R) /\
    lamp_deform a (mkV (1 / 2) (1 / 2))%R = Ok p /\ vy p = 5%R.
Proof.
  assert (S : sensible (mkRes 3 3)) by (unfold sensible; cbn [rw rh]; lia).
  destruct (lamp_history constant upside_down (mkRes 3 3) (1 / 2)%R [] 16 (sensible_fits _ S)) as [a0 [a [E [E' [R1 [G [b [Eb P]]]]]]]]; [constructor|].
  assert (Q : ml_params a = upside_down).
  { rewrite lamp_new_full in E by (apply sensible_fits; auto). injection E as <-. cbn [app lamp_run lamp_do] in E'.
    rewrite lamp_step_full in E' by (cbn [ml_res ml_grid]; auto using sensible_fits, full_length). cbn [bind fst] in E'. injection E' as <-. reflexivity. }
  assert (Pa : ml_progress a = (1 / 2)%R).
  { rewrite P. cbn [constant fst]. rewrite lamp_new_full in E by (apply sensible_fits; auto). injection E as <-. injection Eb as <-. cbn [ml_stepper constant snd fst]. rewrite clamp_R.
    unfold Rmin, Rmax. destruct (Rle_dec 0 _), (Rle_dec 1 _); lra. }
  destruct (interpolate_node (mkRes 3 3) (ml_grid a) 1 1 S) as [p [V D]]; [rewrite G; apply full_length|cbn; lia|cbn; lia|].
  exists a, p. split; [exists a0; auto|]. rewrite G, Pa, Q in V. rewrite vertex_full in V by (auto; cbn; lia). injection V as <-.
  destruct (lamp_corners a) as [c0 [c1 [c2 [c3 [V0 [V1 [V2 [V3 Ex]]]]]]]]; [rewrite R1; auto|rewrite R1, G; apply full_length|].
  rewrite R1, G, Pa, Q in V0, V1, V2, V3. rewrite vertex_full in V0, V1, V2, V3 by (auto; cbn; lia).
  injection V0 as <-. injection V1 as <-. injection V2 as <-. injection V3 as <-.
  cbn [rw rh] in *. change (3 - 1) with 2 in *.
  assert (Y0 : row_y upside_down (1 / 2)%R (IZR 0 / IZR 2)%R = 6%R). { unfold row_y, row_pos, row_progress. cbn. unfold Rmin. destruct (Rle_dec _ _); lra. }
  assert (Y1 : row_y upside_down (1 / 2)%R (IZR 1 / IZR 2)%R = 5%R). { unfold row_y, row_pos, row_progress. cbn. unfold Rmin. destruct (Rle_dec _ _); lra. }
  assert (Y2 : row_y upside_down (1 / 2)%R (IZR 2 / IZR 2)%R = 6%R). { unfold row_y, row_pos, row_progress. cbn. unfold Rmin. destruct (Rle_dec _ _); lra. }
  split.
  - do 4 eexists. split; [exact Ex|]. cbn [corner4 v4y vy]. auto.
  - split; [unfold lamp_deform; rewrite R1; exact D|exact Y1].
Qed.
Print Assumptions C46_source_above_refuted.

(** [C42_case] is also a case for [C46_extremes_bound]; its speed is positive. *)
Example C46_case : below (lp_source case_lamp) (lp_target case_lamp) /\ (0 <= lp_stretch case_lamp < 1)%R /\ lp_bend case_lamp <> 0%R /\ (0 <= lp_speed case_lamp)%R.
Proof. split; [apply case_below|]. cbn. lra. Qed.
