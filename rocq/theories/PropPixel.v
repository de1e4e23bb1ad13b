(** * What zoom and bounce draw, in [float] and [double] (C37, C39, C40) *)

From Coq Require Import ZArith Reals Bool List Lia Lra.
From Flocq Require Import Core IEEE754.BinarySingleNaN.
From Verif Require Import Num Geometry Outcome Steppers Transforms SpecAnim SpecDouble SpecFinal SpecPixel LemReal LemDouble LemFloat LemSteppers LemTransforms LemFinal LemZoom32 LemBounce32 PropTransforms PropFinal.
Import ListNotations.
Local Open Scope R_scope.

(** ** C37 *)

(** After any history and a [Step], with boxes whose coordinates are at most 2^k
    and a 'to' box of at least one pixel: the point in proportion (u, v) is drawn
    at most 2^(k-19) from the interpolation of its places in the two boxes
    ([Extremes] is relative to the top-left corner of the 'to' box).  On screens
    of up to 16384 pixels this is 1/32 of a pixel. *)
Theorem C37_zoom_near_float :
  forall (L1 : Libm f32) (L2 : Libm f64) (St : Type) (call : St -> Z -> f32 * St) (a0 : zoom f32 f64 St)
         (ops : list (zoom_op f64 St)) (ms : Z) (k : Z) (p : vec f64) (u v : R),
    let a := fold_left (zoom_do call) (ops ++ [ZmStep ms]) a0 in
    let from := real_box (zm_from a) in let to := real_box (zm_to a) in let t := B2R (zm_progress a) in
    (0 <= k <= 100)%Z -> box_within k (zm_from a) -> box_within k (zm_to a) -> of_some_size to -> lies_at p to u v ->
    is_finite (zm_progress a) = true /\ 0 <= t <= 1 /\
    drawn_near (bpow radix2 (k - 19)) (zoom_extreme a p)
      (between (vx (in_box from u v)) (vx (in_box to u v)) t - vx (b_tl to))
      (between (vy (in_box from u v)) (vy (in_box to u v)) t - vy (b_tl to)).
Proof.
  intros L1 L2 St call a0 ops ms k p u v a from to t Hk Wf Wt Sz At.
  assert (IU : in_unit (zm_progress a)) by (apply zoom_unit; right; rewrite existsb_app; cbn; rewrite orb_true_r; reflexivity).
  destruct IU as (Fp & Hp). split; [exact Fp|]. split; [exact Hp|].
  assert (E : zm_transform a = zoom_transform (zm_progress a) (zm_from a) (zm_to a)).
  { unfold a. rewrite fold_left_app. cbn [fold_left]. apply zoom_step_transform. }
  unfold zoom_extreme. rewrite E. apply zoom_near; assumption.
Qed.
Print Assumptions C37_zoom_near_float.

Lemma small_pixel n : (Z.abs n <= 2 ^ 10)%Z -> within 10 (nof n : f64).
Proof.
  intros Hn. destruct (of_ok n) as (F & E); [lia|]. split; [exact F|]. rewrite E, <- abs_IZR.
  rewrite <- (IZR_Zpower radix2) by lia. apply IZR_le. exact Hn.
Qed.
Lemma small_from : box_within 10 from0.
Proof. split; split; apply small_pixel; cbn; lia. Qed.
Lemma small_to : box_within 10 to0.
Proof. split; split; apply small_pixel; cbn; lia. Qed.
Lemma corner_at : lies_at (mkV (nof 100) (nof 25)) (real_box to0) 1 (1 / 4) /\ of_some_size (real_box to0).
Proof.
  destruct (of_ok 100 ltac:(lia)) as (F1 & E1). destruct (of_ok 25 ltac:(lia)) as (F2 & E2).
  destruct (of_ok 200 ltac:(lia)) as (_ & E3). destruct (of_ok 300 ltac:(lia)) as (_ & E4). destruct (of_ok 400 ltac:(lia)) as (_ & E5).
  unfold lies_at, of_some_size, real_box, real_point, on_surface, to0. cbn [b_tl b_br vx vy]. rewrite E1, E2, E3, E4, E5.
  split; [|lra]. split; [split; [exact F1|exact F2]|]. split; [lra|]. split; [lra|]. apply vec_eq; cbn [vx vy]; lra.
Qed.

(** From the unit square at the origin to a square of side 100 at (200, 300), half
    way, a point on the right edge: it is drawn within 1/512 of a pixel of its
    place. *)
Example C37_float_case : forall (L1 : Libm f32) (L2 : Libm f64),
  let a := fold_left (zoom_do linear_call) ([] ++ [ZmStep 50]) (zoom_new linear_call from0 to0 (linear_new (nof 100 : f32))) in
  neqb (zm_progress a) (ndiv (nof 1) (nof 2)) = true /\ box_within 10 (zm_from a) /\ box_within 10 (zm_to a) /\
  of_some_size (real_box (zm_to a)) /\ lies_at (mkV (nof 100) (nof 25)) (real_box (zm_to a)) 1 (1 / 4) /\
  bpow radix2 (10 - 19) = / 512.
Proof.
  intros L1 L2 a. split; [vm_compute; reflexivity|]. change (zm_from a) with from0. change (zm_to a) with to0.
  split; [exact small_from|]. split; [exact small_to|]. split; [apply corner_at|]. split; [apply corner_at|]. cbn. lra.
Qed.

(** ** C39 and C40 *)

(** After any history and a [Step] there is one scale by which every point of the
    surface is scaled about its centre, up to 2^(k+j-19) for coordinates of at most
    2^k and scale settings of at most 2^j.  It is 1 at progress 1 and the current
    [InitialScale] at progress 0; with [InitialScale] <= [MaximumScale] it stays
    within the stated distance of the straight line from [InitialScale] to 1 and
    does not exceed the larger of [MaximumScale] and 1, up to 2^(j-19). *)
Theorem C39_bounce_near_float :
  forall (L1 : Libm f32) (L2 : Libm f64) (St : Type) (call : St -> Z -> f32 * St) (a0 : bounce f32 f64 St)
         (ops : list (bounce_op f32 St)) (ms : Z) (k j : Z),
    let a := fold_left (bounce_do call) (ops ++ [BnStep ms]) a0 in
    let b := real_box (bn_target a) in let c := surface_centre b in
    let i := B2R (bn_initial a) in let t := B2R (bn_progress a) in
    sound_sine L2 -> (0 <= k)%Z -> (0 <= j)%Z -> (k + j <= 100)%Z -> box_within k (bn_target a) ->
    float_within j (bn_initial a) -> float_within j (bn_maximum a) -> (0 <= bn_n a < 2 ^ 32)%Z ->
    exists s : R,
      (forall (p : vec f64) (u v : R), lies_at p b u v ->
         drawn_near (bpow radix2 (k + j - 19)) (bounce_extreme a p)
           (vx c + s * (B2R (vx p) - vx c)) (vy c + s * (B2R (vy p) - vy c))) /\
      (t = 1 -> 0 <= i <= 2 -> s = 1) /\
      (t = 0 -> (forall x : f64, is_zero x -> is_zero (tsin x)) -> s = i).
Proof.
  intros L1 L2 St call a0 ops ms k j a b c i t Sn Hk Hj Hkj Wb Wi Wm Bn.
  assert (IU : in_unit (bn_progress a)) by (apply bounce_unit; right; rewrite existsb_app; cbn; rewrite orb_true_r; reflexivity).
  destruct IU as (Fp & Hp).
  assert (E : bn_transform a = bounce_transform (bn_progress a) (bn_initial a) (bn_maximum a) (bn_n a) (bn_target a)).
  { unfold a. rewrite fold_left_app. cbn [fold_left]. apply bounce_step_transform. }
  destruct (scale_near L1 L2 j _ _ _ _ ltac:(lia) Sn Fp Hp Wi Wm Bn) as (s & sv & Is & Bs & Ns & Ms). exists s.
  assert (W100 : forall x : f32, float_within j x -> float_within 100 x).
  { intros x (F & L). split; [exact F|]. eapply Rle_trans; [exact L|apply bpow_le; lia]. }
  split; [|split].
  - intros p u v At. unfold bounce_extreme. rewrite E.
    assert (C : c = on_surface b (1 / 2) (1 / 2)) by (unfold c, surface_centre, on_surface; apply vec_eq; cbn [vx vy]; field).
    rewrite C. eapply bounce_draws; eassumption.
  - intros T I. destruct Is as (_ & <-). apply (bounce_scale_last L1 L2); auto; [split; auto|apply Wi].
  - intros T Z. destruct Is as (_ & <-). apply (scale_start L1 L2); auto. split; auto.
Qed.
Print Assumptions C39_bounce_near_float.

Theorem C40_bounce_envelope_float :
  forall (L1 : Libm f32) (L2 : Libm f64) (St : Type) (call : St -> Z -> f32 * St) (a0 : bounce f32 f64 St)
         (ops : list (bounce_op f32 St)) (ms : Z) (k j : Z),
    let a := fold_left (bounce_do call) (ops ++ [BnStep ms]) a0 in
    let b := real_box (bn_target a) in let c := surface_centre b in
    let i := B2R (bn_initial a) in let m := B2R (bn_maximum a) in let t := B2R (bn_progress a) in
    sound_sine L2 -> (0 <= k)%Z -> (0 <= j)%Z -> (k + j <= 100)%Z -> box_within k (bn_target a) ->
    float_within j (bn_initial a) -> float_within j (bn_maximum a) -> (0 <= bn_n a < 2 ^ 32)%Z -> i <= m ->
    exists s : R,
      (forall (p : vec f64) (u v : R), lies_at p b u v ->
         drawn_near (bpow radix2 (k + j - 19)) (bounce_extreme a p)
           (vx c + s * (B2R (vx p) - vx c)) (vy c + s * (B2R (vy p) - vy c))) /\
      Rabs (s - between i 1 t) <= (m - i) * (1 - t) + bpow radix2 (j - 19) /\
      s <= Rmax m 1 + bpow radix2 (j - 19).
Proof.
  intros L1 L2 St call a0 ops ms k j a b c i m t Sn Hk Hj Hkj Wb Wi Wm Bn Im.
  assert (IU : in_unit (bn_progress a)) by (apply bounce_unit; right; rewrite existsb_app; cbn; rewrite orb_true_r; reflexivity).
  destruct IU as (Fp & Hp).
  assert (E : bn_transform a = bounce_transform (bn_progress a) (bn_initial a) (bn_maximum a) (bn_n a) (bn_target a)).
  { unfold a. rewrite fold_left_app. cbn [fold_left]. apply bounce_step_transform. }
  destruct (scale_near L1 L2 j _ _ _ _ ltac:(lia) Sn Fp Hp Wi Wm Bn) as (s & sv & Is & Bs & Ns & Ms). exists s.
  fold i t m in Ns. fold t in Hp.
  assert (U : 17 * (bpow radix2 (-24) * bpow radix2 j) <= bpow radix2 (j - 19)).
  { replace (j - 19)%Z with (5 + (-24 + j))%Z by lia. rewrite (bpow_plus radix2 5), (bpow_plus radix2 (-24)).
    apply Rmult_le_compat_r; [apply Rmult_le_pos; apply bpow_ge_0|cbn; lra]. }
  assert (D : 0 <= (m - i) * (1 - t)) by (apply Rmult_le_pos; lra).
  assert (D1 : (m - i) * (1 - t) * sv <= (m - i) * (1 - t) * 1) by (apply Rmult_le_compat_l; lra).
  assert (D2 : (m - i) * (1 - t) * - 1 <= (m - i) * (1 - t) * sv) by (apply Rmult_le_compat_l; lra).
  apply Rabs_le_inv in Ns. split; [|split].
  - intros p u v At. unfold bounce_extreme. rewrite E.
    assert (C : c = on_surface b (1 / 2) (1 / 2)) by (unfold c, surface_centre, on_surface; apply vec_eq; cbn [vx vy]; field).
    rewrite C. eapply bounce_draws; eassumption.
  - apply Rabs_le. lra.
  - assert (K : between i 1 t + (m - i) * (1 - t) <= Rmax m 1); [|lra]. unfold between.
    replace ((1 - t) * i + t * 1 + (m - i) * (1 - t)) with ((1 - t) * m + t * 1) by ring.
    pose proof (Rmax_l m 1). pose proof (Rmax_r m 1).
    assert ((1 - t) * m <= (1 - t) * Rmax m 1) by (apply Rmult_le_compat_l; lra).
    assert (t * 1 <= t * Rmax m 1) by (apply Rmult_le_compat_l; lra). lra.
Qed.
Print Assumptions C40_bounce_envelope_float.

Example C39_float_case :
  let L2 := toy64 in
  let a := fold_left (bounce_do linear_call) ([BnSetN 2] ++ [BnStep 50]) (bounce_new linear_call (nof 0) (nof 2) 3 to0 (linear_new (nof 100 : f32))) in
  sound_sine toy64 /\ (forall x : f64, is_zero x -> is_zero (@tsin f64 toy64 x)) /\
  neqb (bn_progress a) (ndiv (nof 1) (nof 2)) = true /\ box_within 10 (bn_target a) /\
  float_within 1 (bn_initial a) /\ float_within 1 (bn_maximum a) /\ (0 <= bn_n a < 2 ^ 32)%Z /\ B2R (bn_initial a) <= B2R (bn_maximum a) /\
  lies_at (mkV (nof 100) (nof 25)) (real_box (bn_target a)) 1 (1 / 4).
Proof.
  intros L2 a. split; [exact toy64_sound|]. split; [intros x _; split; reflexivity|]. split; [vm_compute; reflexivity|].
  change (bn_initial a) with (nof 0 : f32). change (bn_maximum a) with (nof 2 : f32). change (bn_n a) with 2%Z. change (bn_target a) with to0.
  destruct (float_pixel 2) as (E & F); [lia|]. change (B2R (nof 0 : f32)) with 0.
  split; [exact small_to|]. split; [split; [reflexivity|change (B2R (nof 0 : f32)) with 0; rewrite Rabs_R0; apply bpow_ge_0]|].
  split; [split; [exact F|rewrite E, Rabs_pos_eq by lra; cbn; lra]|]. split; [lia|]. split; [rewrite E; lra|apply corner_at].
Qed.
