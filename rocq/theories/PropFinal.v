(** * The last frame, in [float] and [double] *)

From Coq Require Import ZArith Reals Bool List Lia Lra.
From Flocq Require Import Core IEEE754.BinarySingleNaN.
From Verif Require Import Num Geometry Outcome Steppers Transforms SpecDouble SpecFinal LemDouble LemTransforms LemFinal.
Import ListNotations.

(** A libm good enough for the examples. *)
Definition toy64 : Libm f64 := {| tsin := fun _ => nof 0; tcos := fun _ => nof 1; texp := fun _ => nof 1; tpi := nof 3 |}.
Definition toy32 : Libm f32 := {| tsin := fun _ => nof 0; tcos := fun _ => nof 1; texp := fun _ => nof 1; tpi := nof 3 |}.
Lemma toy64_sound : sound_sine toy64.
Proof.
  split; [|intros x _; change (tsin x) with (nof 0 : f64); split; [reflexivity|]; change (B2R (nof 0 : f64)) with 0%R; rewrite Rabs_R0; apply bpow_ge_0].
  change (@tpi f64 toy64) with (nof 3 : f64). destruct (of_ok 3) as (F & E); [reflexivity|]. split; [exact F|].
  rewrite E, Rabs_right by lra. cbn. lra.
Qed.
Lemma toy32_sound : sound_at_zero toy32.
Proof. intros g _ _. destruct one32 as (F & E). repeat split; assumption. Qed.

Definition from0 : box f64 := mkB (mkV (nof 0) (nof 0)) (mkV (nof 1) (nof 1)).
Definition to0 : box f64 := mkB (mkV (nof 200) (nof 300)) (mkV (nof 300) (nof 400)).
Lemma pixel_within n : (Z.abs n <= 2 ^ 10)%Z -> within 100 (nof n : f64).
Proof.
  intros Hn. destruct (of_ok n) as (F & E); [lia|]. split; [exact F|]. rewrite E, <- abs_IZR.
  apply Rle_trans with (bpow radix2 10); [|apply bpow_le; lia].
  rewrite <- (IZR_Zpower radix2) by lia. apply IZR_le. exact Hn.
Qed.
Lemma from0_within : box_within 100 from0.
Proof. split; split; apply pixel_within; cbn; lia. Qed.
Lemma to0_within : box_within 100 to0.
Proof. split; split; apply pixel_within; cbn; lia. Qed.
Lemma float_pixel n : (Z.abs n <= 2 ^ 10)%Z -> B2R (nof n : f32) = IZR n /\ is_finite (nof n : f32) = true.
Proof.
  intros Hn. pose proof (binary_normalize_correct 24 128 Hprec32 Hemax32 mode_NE n 0 false) as C. cbv zeta in C.
  assert (E : F2R (Float radix2 n 0) = IZR n) by (unfold F2R; apply Rmult_1_r). rewrite E in C.
  assert (B : (Rabs (IZR n) <= bpow radix2 10)%R).
  { rewrite <- abs_IZR, <- (IZR_Zpower radix2) by lia. apply IZR_le. exact Hn. }
  assert (G : round radix2 (SpecFloat.fexp 24 128) (round_mode mode_NE) (IZR n) = IZR n).
  { apply round_generic; [apply valid_rnd_round_mode|]. apply generic_format_FLT with (emin := (-149)%Z) (prec := 24%Z).
    exists (Float radix2 n 0); [symmetry; exact E|apply Z.le_lt_trans with (2 ^ 10)%Z; [exact Hn|reflexivity]|cbn; lia]. }
  rewrite G, Rlt_bool_true in C by (apply Rle_lt_trans with (bpow radix2 10); [exact B|apply bpow_lt; lia]).
  split; apply C.
Qed.

(** ** C81 *)

(** Zoom: after any history and a [Step] that brought the progress to 1, the
    matrix is the identity and every point is drawn at its own coordinates, as
    [float] holds them: no rounding error of the computation is left. *)
Theorem C81_zoom_last_frame :
  forall (L1 : Libm f32) (L2 : Libm f64) (St : Type) (call : St -> Z -> f32 * St) (a0 : zoom f32 f64 St)
         (ops : list (zoom_op f64 St)) (ms : Z),
    let a := fold_left (zoom_do call) (ops ++ [ZmStep ms]) a0 in
    neqb (zm_progress a) (nof 1) = true ->
    box_within 100 (zm_from a) -> box_within 100 (zm_to a) ->
    B2R (vx (b_tl (zm_to a))) <> B2R (vx (b_br (zm_to a))) -> B2R (vy (b_tl (zm_to a))) <> B2R (vy (b_br (zm_to a))) ->
    is_identity (zm_transform a) /\
    forall p : vec f64, point_within 126 p -> drawn_in_place (zoom_extreme a p) p.
Proof.
  intros L1 L2 St call a0 ops ms a P Wf Wt Nx Ny.
  assert (S : shift (zm_transform a) 1 0 0 0).
  { revert P Wf Wt Nx Ny. unfold a. rewrite fold_left_app. cbn [fold_left]. intros P Wf Wt Nx Ny.
    rewrite zoom_step_transform. apply zoom_last; auto using one_of_eqb. }
  split; [apply shift_identity; exact S|]. intros p Wp. eapply transform_in_place; eassumption.
Qed.
Print Assumptions C81_zoom_last_frame.

Example C81_zoom_case : forall (L1 : Libm f32) (L2 : Libm f64),
  let a := fold_left (zoom_do linear_call) ([ZmStep 16] ++ [ZmStep 100]) (zoom_new linear_call from0 to0 (linear_new (nof 100 : f32))) in
  neqb (zm_progress a) (nof 1) = true /\ box_within 100 (zm_from a) /\ box_within 100 (zm_to a) /\
  B2R (vx (b_tl (zm_to a))) <> B2R (vx (b_br (zm_to a))) /\ B2R (vy (b_tl (zm_to a))) <> B2R (vy (b_br (zm_to a))) /\
  point_within 126 (mkV (nof 100) (nof 50)).
Proof.
  intros L1 L2 a.
  assert (E : ensure_non_zero (D := f64) to0 = to0) by reflexivity.
  change (zm_from a) with from0. change (zm_to a) with to0.
  split; [vm_compute; reflexivity|]. split; [exact from0_within|]. split; [exact to0_within|].
  unfold to0. cbn [b_tl b_br vx vy].
  destruct (of_ok 200) as (_ & E1); [reflexivity|]. destruct (of_ok 300) as (_ & E2); [reflexivity|]. destruct (of_ok 400) as (_ & E3); [reflexivity|].
  rewrite E1, E2, E3. split; [lra|]. split; [lra|].
  split; (eapply within_up; [|apply pixel_within]; cbn; lia).
Qed.

(** Bounce, for initial scales from 0 to 2 and any libm whose sine is finite. *)
Theorem C81_bounce_last_frame :
  forall (L1 : Libm f32) (L2 : Libm f64) (St : Type) (call : St -> Z -> f32 * St) (a0 : bounce f32 f64 St)
         (ops : list (bounce_op f32 St)) (ms : Z),
    let a := fold_left (bounce_do call) (ops ++ [BnStep ms]) a0 in
    sound_sine L2 -> neqb (bn_progress a) (nof 1) = true ->
    is_finite (bn_initial a) = true -> (0 <= B2R (bn_initial a) <= 2)%R -> float_within 100 (bn_maximum a) ->
    (0 <= bn_n a < 2 ^ 32)%Z -> box_within 100 (bn_target a) ->
    is_identity (bn_transform a) /\
    forall p : vec f64, point_within 126 p -> drawn_in_place (bounce_extreme a p) p.
Proof.
  intros L1 L2 St call a0 ops ms a Sn P Fi Bi Bm Bn Wb.
  assert (S : shift (bn_transform a) 1 0 0 0).
  { revert P Fi Bi Bm Bn Wb. unfold a. rewrite fold_left_app. cbn [fold_left]. intros P Fi Bi Bm Bn Wb.
    rewrite bounce_step_transform. apply bounce_last; auto using one_of_eqb. }
  split; [apply shift_identity; exact S|]. intros p Wp. eapply transform_in_place; eassumption.
Qed.
Print Assumptions C81_bounce_last_frame.

Example C81_bounce_case :
  let L2 := toy64 in
  let a := fold_left (bounce_do linear_call) ([BnStep 16; BnSetN 2] ++ [BnStep 100]) (bounce_new linear_call (nof 0) (nof 2) 3 to0 (linear_new (nof 100 : f32))) in
  sound_sine toy64 /\ neqb (bn_progress a) (nof 1) = true /\
  is_finite (bn_initial a) = true /\ (0 <= B2R (bn_initial a) <= 2)%R /\ float_within 100 (bn_maximum a) /\
  (0 <= bn_n a < 2 ^ 32)%Z /\ box_within 100 (bn_target a).
Proof.
  intros L2 a. split; [exact toy64_sound|]. split; [vm_compute; reflexivity|].
  change (bn_initial a) with (nof 0 : f32). change (bn_maximum a) with (nof 2 : f32). change (bn_n a) with 2%Z. change (bn_target a) with to0.
  split; [reflexivity|]. split; [change (B2R (nof 0 : f32)) with 0%R; lra|].
  split; [|split; [lia|exact to0_within]]. destruct (float_pixel 2) as (E & F); [lia|]. split; [exact F|].
  rewrite E, Rabs_right by lra. apply Rle_trans with (bpow radix2 1); [cbn; lra|apply bpow_le; lia].
Qed.

(** Outside that range it fails: a bounce that starts mirrored at scale -0.3 ends
    at a scale below 1. *)
Theorem C81_bounce_any_scale_refuted :
  forall (L1 : Libm f32),
    let L2 := toy64 in
    let i : f32 := ndiv (nof (-3)) (nof 10) in
    let a := fold_left (bounce_do linear_call) [BnStep 100] (bounce_new linear_call i (nof 2) 3 to0 (linear_new (nof 100 : f32))) in
    neqb (bn_progress a) (nof 1) = true /\ nltb (v4x (c0 (bn_transform a))) (nof 1) = true.
Proof. intros L1 L2 i a. split; vm_compute; reflexivity. Qed.
Print Assumptions C81_bounce_any_scale_refuted.

(** Glide, for any libm with cos 0 = 1 and sin 0 = 0; the z coordinate is the
    same for all points. *)
Theorem C81_glide_last_frame :
  forall (L1 : Libm f32) (L2 : Libm f64) (St : Type) (call : St -> Z -> f32 * St) (a0 : glide f32 f64 St)
         (ops : list (glide_op f32 St)) (ms : Z),
    let a := fold_left (glide_do call) (ops ++ [GlStep ms]) a0 in
    sound_sine L2 -> sound_at_zero L1 -> neqb (gl_progress a) (nof 1) = true ->
    float_within 100 (gl_distance a) -> float_within 100 (gl_xrot a) -> float_within 100 (gl_yrot a) ->
    float_within 20 (gl_xaxis a) -> float_within 20 (gl_yaxis a) ->
    (0 < gl_width a < 2 ^ 32)%Z -> box_within 100 (gl_target a) ->
    forall p : vec f64, point_within 126 p -> drawn_in_place (glide_extreme a p) p.
Proof.
  intros L1 L2 St call a0 ops ms a Sn Sz P Bd Bxr Byr Bxa Bya Bw Wb p Wp.
  assert (S : exists v, shift (gl_transform a) 0 0 0 v).
  { revert P Bd Bxr Byr Bxa Bya Bw Wb. unfold a. rewrite fold_left_app. cbn [fold_left]. intros P Bd Bxr Byr Bxa Bya Bw Wb.
    rewrite glide_step_transform. apply glide_last; auto using one_of_eqb. }
  destruct S as (v & S). eapply transform_in_place; eassumption.
Qed.
Print Assumptions C81_glide_last_frame.

Example C81_glide_case :
  let L1 := toy32 in let L2 := toy64 in
  let a := fold_left (glide_do linear_call) ([GlStep 16] ++ [GlStep 100])
             (glide_new linear_call (nof 1) (nof 90) (nof 45) (nof 1) (nof 0) 1000 to0 (linear_new (nof 100 : f32))) in
  sound_sine toy64 /\ sound_at_zero toy32 /\ neqb (gl_progress a) (nof 1) = true /\
  float_within 100 (gl_distance a) /\ float_within 100 (gl_xrot a) /\ float_within 100 (gl_yrot a) /\
  float_within 20 (gl_xaxis a) /\ float_within 20 (gl_yaxis a) /\
  (0 < gl_width a < 2 ^ 32)%Z /\ box_within 100 (gl_target a).
Proof.
  intros L1 L2 a. split; [exact toy64_sound|]. split; [exact toy32_sound|]. split; [vm_compute; reflexivity|].
  change (gl_distance a) with (nof 1 : f32). change (gl_xrot a) with (nof 90 : f32). change (gl_yrot a) with (nof 45 : f32).
  change (gl_xaxis a) with (nof 1 : f32). change (gl_yaxis a) with (nof 0 : f32). change (gl_width a) with 1000%Z. change (gl_target a) with to0.
  assert (W : forall n k, (0 <= n <= 2 ^ 10)%Z -> (10 <= k)%Z -> float_within k (nof n : f32)).
  { intros n k Hn Hk. destruct (float_pixel n) as (E & F); [lia|]. split; [exact F|]. rewrite E, <- abs_IZR.
    apply Rle_trans with (bpow radix2 10); [|apply bpow_le; lia]. rewrite <- (IZR_Zpower radix2) by lia. apply IZR_le.
    change (radix2 ^ 10)%Z with (2 ^ 10)%Z. lia. }
  do 5 (split; [apply W; lia|]). split; [lia|exact to0_within].
Qed.

(** Whole pixel coordinates up to 2^24 are held exactly. *)
Theorem C81_pixels_are_exact :
  forall n : Z, (Z.abs n <= 2 ^ 24)%Z -> same_value (as_float (nof n)) (nof n).
Proof. exact pixels. Qed.
Print Assumptions C81_pixels_are_exact.
