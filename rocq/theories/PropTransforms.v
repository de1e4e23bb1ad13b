(** * Properties C37-C41 and C50: zoom, bounce and glide *)

From Coq Require Import ZArith Reals Bool List Lra Lia.
From Flocq Require Import Core IEEE754.BinarySingleNaN.
From Verif Require Import Num Geometry Outcome Steppers Transforms MagicLamp Program SpecAnim LemReal LemBasic LemFloat LemSteppers LemTransforms.
Import ListNotations.
Local Open Scope R_scope.

(** ** C37 *)

(** After construction, any history and a [Step]: the point in proportion
    (u, v) of the surface is drawn between its places in the two boxes, in
    proportion to the progress.  ([Extremes] and [Matrix] are relative to the
    top-left corner of the 'to' box.) *)
Theorem C37_zoom_interpolates :
  forall (St : Type) (call : St -> Z -> R * St) (from to : box R) (s : St) (ops : list (zoom_op R St)) (ms : Z) (u v : R),
    let a := fold_left (zoom_do call) (ops ++ [ZmStep ms]) (zoom_new call from to s) in
    let q := zoom_extreme a (on_surface (zm_to a) u v) in
    let t := zm_progress a in
    0 <= t <= 1 /\
    vx (b_tl (zm_to a)) + v4x q = between (vx (in_box (zm_from a) u v)) (vx (in_box (zm_to a) u v)) t /\
    vy (b_tl (zm_to a)) + v4y q = between (vy (in_box (zm_from a) u v)) (vy (in_box (zm_to a) u v)) t /\
    v4z q = 0 /\ v4w q = 1.
Proof.
  intros St call from to s ops ms u v. cbv zeta. rewrite fold_left_app. cbn [fold_left].
  set (b := fold_left (zoom_do call) ops _).
  assert (T : zm_to (zoom_do call b (ZmStep ms)) = ensure_non_zero to).
  { change (zoom_do call b (ZmStep ms)) with (fold_left (zoom_do call) [ZmStep ms] b). rewrite zoom_to_fixed. unfold b. rewrite zoom_to_fixed.
    unfold zoom_new. destruct (call s 0%Z). reflexivity. }
  split.
  - cbn [zoom_do]. unfold zoom_step. destruct (call (zm_stepper b) ms) as [w s1]. cbn [fst zm_progress]. rewrite clamp_R.
    unfold Rmin, Rmax. destruct (Rle_dec 0 w), (Rle_dec 1 _); lra.
  - unfold zoom_extreme. rewrite zoom_step_transform. unfold on_surface, in_box, between. cbn [vx vy].
    destruct (ensure_extent to) as [X Y]. rewrite <- T in X, Y. apply (zoom_corner _ _ _ u v X Y).
Qed.
Print Assumptions C37_zoom_interpolates.

(** The same right after construction, where the progress is not clamped. *)
Theorem C37_zoom_constructed :
  forall (St : Type) (call : St -> Z -> R * St) (from to : box R) (s : St) (u v : R),
    let a := zoom_new call from to s in
    let q := zoom_extreme a (on_surface (zm_to a) u v) in
    let t := zm_progress a in
    vx (b_tl (zm_to a)) + v4x q = between (vx (in_box (zm_from a) u v)) (vx (in_box (zm_to a) u v)) t /\
    vy (b_tl (zm_to a)) + v4y q = between (vy (in_box (zm_from a) u v)) (vy (in_box (zm_to a) u v)) t /\
    v4z q = 0 /\ v4w q = 1.
Proof.
  intros. unfold a in *. unfold q, t, zoom_extreme, zoom_new in *. destruct (call s 0%Z) as [w s1]. cbn [zm_to zm_from zm_transform zm_progress].
  unfold on_surface, in_box, between. cbn [vx vy].
  destruct (ensure_extent to) as [X Y]. apply (zoom_corner _ _ _ u v X Y).
Qed.
Print Assumptions C37_zoom_constructed.

(** At the ends: the 'from' box, and the identity. *)
Theorem C37_zoom_ends :
  forall (St : Type) (call : St -> Z -> R * St) (from to : box R) (s : St) (ops : list (zoom_op R St)) (ms : Z) (u v : R),
    let a := fold_left (zoom_do call) (ops ++ [ZmStep ms]) (zoom_new call from to s) in
    let q := zoom_extreme a (on_surface (zm_to a) u v) in
    (zm_progress a = 0 -> vadd (b_tl (zm_to a)) (mkV (v4x q) (v4y q)) = in_box (zm_from a) u v) /\
    (zm_progress a = 1 -> mkV (v4x q) (v4y q) = on_surface (zm_to a) u v).
Proof.
  intros St call from to s ops ms u v. cbv zeta.
  destruct (C37_zoom_interpolates St call from to s ops ms u v) as [_ [X [Y _]]]. cbv zeta in X, Y.
  set (a := fold_left _ _ _) in *. unfold between in *. split; intros P; rewrite P in *; apply vec_eq; unfold vadd; cbn [vx vy nadd Num_R].
  - rewrite X. ring.
  - rewrite Y. ring.
  - unfold in_box, on_surface in *. cbn [vx vy] in *. lra.
  - unfold in_box, on_surface in *. cbn [vx vy] in *. lra.
Qed.
Print Assumptions C37_zoom_ends.

(** From the unit square at the origin to a square of side 100 at (200, 300),
    half way: the bottom-right corner is drawn at (150.5, 200.5). *)
Example C37_case :
  let from := mkB (mkV 0 0) (mkV 1 1) in let to := mkB (mkV 200 300) (mkV 300 400) in
  let a := fold_left (zoom_do linear_call) ([] ++ [ZmStep 50]) (zoom_new linear_call from to (linear_new 100)) in
  zm_progress a = 1 / 2 /\ zm_from a = from /\ zm_to a = to /\
  between (vx (in_box from 1 1)) (vx (in_box to 1 1)) (1 / 2) = 150 + 1 / 2.
Proof.
  cbv zeta. unfold zoom_new, linear_call, linear_new. cbn [fold_left app zoom_do zm_from zm_to]. unfold zoom_step. cbn [zm_stepper].
  cbn [fst zm_progress zm_from zm_to lin_progress lin_length nadd ndiv nof nzero Num_R]. rewrite clamp_R.
  split. { unfold Rmin, Rmax. destruct (Rle_dec 0 _), (Rle_dec 1 _); lra. }
  split. { unfold ensure_non_zero. cbn. unfold Reqb. destruct (Req_EM_T 1 0); [exfalso; lra|reflexivity]. }
  split. { unfold ensure_non_zero. cbn. unfold Reqb. destruct (Req_EM_T 300 200); [exfalso; lra|]. destruct (Req_EM_T 400 300); [exfalso; lra|reflexivity]. }
  unfold between, in_box. cbn [vx vy b_tl b_br]. lra.
Qed.

(** ** C38 *)

(** What the constructor makes of a box. *)
Definition widened (b b' : box R) : Prop :=
  b_tl b' = b_tl b /\
  (vx (b_br b) <> vx (b_tl b) -> vx (b_br b') = vx (b_br b)) /\ (vx (b_br b) = vx (b_tl b) -> vx (b_br b') = vx (b_tl b) + 1) /\
  (vy (b_br b) <> vy (b_tl b) -> vy (b_br b') = vy (b_br b)) /\ (vy (b_br b) = vy (b_tl b) -> vy (b_br b') = vy (b_tl b) + 1).

(** The 'to' box, by which the transform divides, keeps a non-zero extent
    whatever happens; the 'from' box is the last one assigned, or the widened one
    given to the constructor. *)
Theorem C38_zoom_extent :
  forall (St : Type) (call : St -> Z -> R * St) (from to : box R) (s : St) (ops : list (zoom_op R St)),
    let a := fold_left (zoom_do call) ops (zoom_new call from to s) in
    widened to (zm_to a) /\
    vx (b_br (zm_to a)) - vx (b_tl (zm_to a)) <> 0 /\ vy (b_br (zm_to a)) - vy (b_tl (zm_to a)) <> 0 /\
    exists from', widened from from' /\
      zm_from a = latest (fun o => match o with ZmSetFrom b => Some b | _ => None end) from' ops.
Proof.
  intros St call from to s ops. cbv zeta. rewrite zoom_to_fixed.
  assert (W : forall b, widened b (ensure_non_zero b)).
  { intros b. destruct (ensure_spec b) as [A [B C]]. unfold widened. rewrite A, B, C.
    destruct (Req_EM_T (vx (b_br b)) _), (Req_EM_T (vy (b_br b)) _); repeat split; intros; lra. }
  rewrite (latest_fold (fun o => match o with ZmSetFrom b => Some b | _ => None end) zm_from).
  2: { intros a [ms|b|s']; cbn [zoom_do]; auto. unfold zoom_step. destruct (call (zm_stepper a) ms). reflexivity. }
  unfold zoom_new. destruct (call s 0%Z) as [w s1]. cbn [zm_to zm_from]. destruct (ensure_extent to) as [X Y].
  split; auto. split; [lra|]. split; [lra|]. exists (ensure_non_zero from). auto.
Qed.
Print Assumptions C38_zoom_extent.

Example C38_case : widened (mkB (mkV 5 7) (mkV 5 9)) (mkB (mkV 5 7) (mkV 6 9)).
Proof. unfold widened. cbn. repeat split; intros; lra. Qed.

(** In double precision the widening works for coordinates up to 2^53 - 1... *)
Theorem C38_zoom_extent_double :
  forall (L1 : Libm f32) (L2 : Libm f64) (St : Type) (call : St -> Z -> f32 * St) (from to : box f64) (s : St) (ops : list (zoom_op f64 St)),
    is_finite (vx (b_tl to)) = true -> is_finite (vx (b_br to)) = true ->
    is_finite (vy (b_tl to)) = true -> is_finite (vy (b_br to)) = true ->
    Rabs (B2R (vx (b_br to))) <= IZR (2 ^ 53 - 1) -> Rabs (B2R (vy (b_br to))) <= IZR (2 ^ 53 - 1) ->
    let t := zm_to (fold_left (zoom_do call) ops (zoom_new call from to s)) in
    neqb (nsub (vx (b_br t)) (vx (b_tl t))) (nof 0) = false /\ neqb (nsub (vy (b_br t)) (vy (b_tl t))) (nof 0) = false.
Proof.
  intros L1 L2 St call from to s ops Fx1 Fx2 Fy1 Fy2 Bx By. cbv zeta. rewrite zoom_to_fixed.
  assert (T : zm_to (zoom_new call from to s) = ensure_non_zero to) by (unfold zoom_new; destruct (call s 0%Z); reflexivity).
  rewrite T. unfold ensure_non_zero. cbn [b_tl b_br vx vy].
  assert (G : forall x y : f64, is_finite x = true -> is_finite y = true -> Rabs (B2R y) <= IZR (2 ^ 53 - 1) ->
    neqb (nsub (if neqb y x then nadd y (nof 1) else y) x) (nof 0) = false).
  { intros x y Fx Fy B. destruct (neqb y x) eqn:E.
    - change (neqb y x) with (Beqb y x) in E. rewrite Beqb_correct in E by auto. destruct (Req_bool_spec (B2R y) (B2R x)) as [Q|Q]; [|discriminate].
      destruct (plus_one y Fy B) as [F1 [Lt _]]. apply minus_not_zero; auto. lra.
    - change (neqb y x) with (Beqb y x) in E. rewrite Beqb_correct in E by auto. destruct (Req_bool_spec (B2R y) (B2R x)) as [Q|Q]; [discriminate|].
      apply minus_not_zero; auto. }
  split; apply G; auto.
Qed.
Print Assumptions C38_zoom_extent_double.

(** ... but not for every coordinate: a 'to' box of no width at x = 2^53 stays of
    no width, and the drawn surface has no x coordinate. *)
Theorem C38_zoom_extent_double_refuted :
  forall (L1 : Libm f32) (L2 : Libm f64),
  exists (from to : box f64),
    let a := fold_left (zoom_do linear_call) [ZmStep 5] (zoom_new linear_call from to (linear_new (nof 10 : f32))) in
    is_finite (vx (b_tl to)) = true /\ is_finite (vx (b_br to)) = true /\
    vx (b_tl (zm_to a)) = vx (b_br (zm_to a)) /\ v4x (zoom_extreme a (mkV (nof 0) (nof 0))) = B754_nan.
Proof.
  intros. exists (mkB (mkV (nof 0) (nof 0)) (mkV (nof 4) (nof 4))), (mkB (mkV (nof (2 ^ 53)) (nof 0)) (mkV (nof (2 ^ 53)) (nof 4))).
  cbv zeta. split; [reflexivity|]. split; [reflexivity|]. split.
  - apply B2SF_inj. vm_compute. reflexivity.
  - apply B2SF_inj. vm_compute. reflexivity.
Qed.
Print Assumptions C38_zoom_extent_double_refuted.

(** ** C39 *)

(** The centre of a box, as the transforms see it. *)
Definition surface_centre (b : box R) : vec R :=
  mkV ((vx (b_br b) - vx (b_tl b)) / 2) ((vy (b_br b) - vy (b_tl b)) / 2).

(** After any history and a [Step] there is one scale factor by which every point
    is scaled about the centre of the target; it is 1 at progress 1 and the
    current [InitialScale] at progress 0. *)
Theorem C39_bounce_scales_about_centre :
  forall (St : Type) (call : St -> Z -> R * St) (a0 : bounce R R St) (ops : list (bounce_op R St)) (ms : Z),
    let a := fold_left (bounce_do call) (ops ++ [BnStep ms]) a0 in
    let c := surface_centre (bn_target a) in
    exists k : R,
      (forall p : vec R, bounce_extreme a p = mk4 (vx c + k * (vx p - vx c)) (vy c + k * (vy p - vy c)) 0 1) /\
      (bn_progress a = 1 -> k = 1) /\ (bn_progress a = 0 -> k = bn_initial a).
Proof.
  intros. unfold a. rewrite fold_left_app. cbn [fold_left]. set (b := fold_left _ ops a0).
  exists (bounce_scale (bn_progress (bounce_do call b (BnStep ms))) (bn_initial (bounce_do call b (BnStep ms)))
            (bn_maximum (bounce_do call b (BnStep ms))) (bn_n (bounce_do call b (BnStep ms)))).
  split; [|split; intros ->; [apply bounce_scale_1|apply bounce_scale_0]].
  intros [x y]. unfold bounce_extreme. rewrite bounce_step_transform. unfold c, a. rewrite fold_left_app. cbn [fold_left]. fold b.
  rewrite bounce_point. reflexivity.
Qed.
Print Assumptions C39_bounce_scales_about_centre.

(** In particular: *)
Theorem C39_bounce_ends_at_identity :
  forall (St : Type) (call : St -> Z -> R * St) (a0 : bounce R R St) (ops : list (bounce_op R St)) (ms : Z) (p : vec R),
    let a := fold_left (bounce_do call) (ops ++ [BnStep ms]) a0 in
    (bn_progress a = 1 -> bounce_extreme a p = mk4 (vx p) (vy p) 0 1) /\
    bounce_extreme a (surface_centre (bn_target a)) = mk4 (vx (surface_centre (bn_target a))) (vy (surface_centre (bn_target a))) 0 1.
Proof.
  intros St call a0 ops ms p. cbv zeta. destruct (C39_bounce_scales_about_centre St call a0 ops ms) as [k [A [B C]]]. cbv zeta in *.
  split.
  - intros P. rewrite A, (B P). apply mk4_eq; ring.
  - rewrite A. apply mk4_eq; ring.
Qed.
Print Assumptions C39_bounce_ends_at_identity.

Example C39_case : forall b : box R,
  let a := fold_left (bounce_do linear_call) ([] ++ [BnStep 100]) (bounce_new linear_call 0 2 3 b (linear_new 100)) in
  bn_progress a = 1 /\ bn_target a = b.
Proof.
  intros. unfold a, bounce_new, linear_call, linear_new. cbn [fold_left app bounce_do]. unfold bounce_step.
  cbn [bn_stepper bn_target fst bn_progress lin_progress lin_length nadd ndiv nof nzero Num_R]. rewrite clamp_R. split; auto.
  unfold Rmin, Rmax. destruct (Rle_dec 0 _), (Rle_dec 1 _); lra.
Qed.

(** ** C40 *)

(** After any history and a [Step], with [InitialScale] <= [MaximumScale], the
    scale factor stays within the stated distance of the straight line from
    [InitialScale] to 1 and never exceeds the larger of [MaximumScale] and 1. *)
Theorem C40_bounce_envelope :
  forall (St : Type) (call : St -> Z -> R * St) (a0 : bounce R R St) (ops : list (bounce_op R St)) (ms : Z),
    let a := fold_left (bounce_do call) (ops ++ [BnStep ms]) a0 in
    let c := surface_centre (bn_target a) in
    let t := bn_progress a in
    bn_initial a <= bn_maximum a ->
    exists k : R,
      (forall p : vec R, bounce_extreme a p = mk4 (vx c + k * (vx p - vx c)) (vy c + k * (vy p - vy c)) 0 1) /\
      Rabs (k - between (bn_initial a) 1 t) <= (bn_maximum a - bn_initial a) * (1 - t) /\
      k <= Rmax (bn_maximum a) 1.
Proof.
  intros. unfold t, c, a in *. rewrite fold_left_app in *. cbn [fold_left] in *. set (b := fold_left _ ops a0) in *.
  set (a' := bounce_do call b (BnStep ms)) in *.
  assert (P : 0 <= bn_progress a' <= 1).
  { unfold a'. cbn [bounce_do]. unfold bounce_step. destruct (call (bn_stepper b) ms) as [w s1]. cbn [fst bn_progress]. rewrite clamp_R.
    unfold Rmin, Rmax. destruct (Rle_dec 0 w), (Rle_dec 1 _); lra. }
  exists (bounce_scale (bn_progress a') (bn_initial a') (bn_maximum a') (bn_n a')).
  split.
  - intros [x y]. unfold bounce_extreme. unfold a' at 1. rewrite bounce_step_transform. fold a'. rewrite bounce_point. reflexivity.
  - split; [|apply bounce_max; auto]. unfold between. replace ((1 - bn_progress a') * bn_initial a' + bn_progress a' * 1) with
      (bn_initial a' + (1 - bn_initial a') * bn_progress a') by ring. apply bounce_envelope; auto.
Qed.
Print Assumptions C40_bounce_envelope.

(** The scale is not always positive: initial scale 1/10, maximum scale 3 and ten
    bounces mirror the surface at progress 3/20. *)
Theorem C40_bounce_positive_refuted :
  exists (i m : R) (n : Z), 0 < i <= m /\
    forall b : box R,
      let a := fold_left (bounce_do linear_call) [BnStep 15] (bounce_new linear_call i m n b (linear_new 100)) in
      let c := surface_centre b in
      exists k, k < 0 /\ forall p : vec R, bounce_extreme a p = mk4 (vx c + k * (vx p - vx c)) (vy c + k * (vy p - vy c)) 0 1.
Proof.
  exists (1 / 10), 3, 10%Z. split; [lra|]. intros b. cbv zeta. exists (bounce_scale (3 / 20) (1 / 10) 3 10). split.
  - rewrite bounce_scale_R. replace (3 / 20 * PI * 10) with (3 * (PI / 2)) by lra. rewrite sin_3PI2. lra.
  - intros [x y]. unfold bounce_extreme, bounce_new, linear_call, linear_new. cbn [fold_left bounce_do]. unfold bounce_step.
    cbn [bn_stepper fst bn_transform bn_initial bn_maximum bn_n bn_target lin_progress lin_length nadd ndiv nof nzero Num_R].
    rewrite clamp_R. replace (Rmin 1 (Rmax 0 (0 + 0 / 100 + 15 / 100))) with (3 / 20).
    2: { unfold Rmin, Rmax. destruct (Rle_dec 0 _), (Rle_dec 1 _); lra. }
    rewrite bounce_point. reflexivity.
Qed.
Print Assumptions C40_bounce_positive_refuted.

Example C40_case : forall b : box R,
  let a := fold_left (bounce_do linear_call) ([] ++ [BnStep 40]) (bounce_new linear_call (1/2) 2 3 b (linear_new 100)) in
  bn_initial a <= bn_maximum a /\ bn_progress a = 2 / 5.
Proof.
  intros. unfold a, bounce_new, linear_call, linear_new. cbn [fold_left app bounce_do]. unfold bounce_step.
  cbn [bn_stepper bn_initial bn_maximum bn_target fst bn_progress lin_progress lin_length nadd ndiv nof nzero Num_R]. rewrite clamp_R. split; [lra|].
  unfold Rmin, Rmax. destruct (Rle_dec 0 _), (Rle_dec 1 _); lra.
Qed.

(** ** C41 *)

(** At the end the surface is flat and where it belongs. *)
Theorem C41_glide_ends_flat :
  forall (St : Type) (call : St -> Z -> R * St) (a0 : glide R R St) (ops : list (glide_op R St)) (ms : Z),
    let a := fold_left (glide_do call) (ops ++ [GlStep ms]) a0 in
    (0 < gl_width a)%Z -> gl_progress a = 1 ->
    exists z, forall p : vec R, glide_extreme a p = mk4 (vx p) (vy p) z 1.
Proof.
  intros St call a0 ops ms. cbv zeta. rewrite fold_left_app. cbn [fold_left]. set (b := fold_left _ ops a0).
  set (a := glide_do call b (GlStep ms)). intros _ P. exists (-1 / IZR (gl_width a)). intros [x y].
  unfold glide_extreme. unfold a. rewrite glide_step_transform. fold a. rewrite P. apply glide_flat.
Qed.
Print Assumptions C41_glide_ends_flat.

(** The point on the configured rotation axis. *)
Definition axis_point {St} (a : glide R R St) : vec R := on_surface (gl_target a) (gl_xaxis a) (gl_yaxis a).

(** At every progress the axis point stays within 1/width of its place in x and
    in y. *)
Theorem C41_glide_axis_near :
  forall (St : Type) (call : St -> Z -> R * St) (a0 : glide R R St) (ops : list (glide_op R St)) (ms : Z),
    let a := fold_left (glide_do call) (ops ++ [GlStep ms]) a0 in
    let q := glide_extreme a (axis_point a) in
    (0 < gl_width a)%Z ->
    Rabs (v4x q - vx (axis_point a)) <= 1 / IZR (gl_width a) /\
    Rabs (v4y q - vy (axis_point a)) <= 1 / IZR (gl_width a) /\
    Rabs (v4z q + gl_distance a * (1 - gl_progress a)) <= 1 / IZR (gl_width a).
Proof.
  intros St call a0 ops ms. cbv zeta. rewrite fold_left_app. cbn [fold_left]. set (b := fold_left _ ops a0).
  set (a := glide_do call b (GlStep ms)). intros W. unfold glide_extreme.
  pose proof (glide_step_transform call ms b) as E. cbv zeta in E. fold a in E. rewrite !E.
  unfold axis_point, on_surface. rewrite !(Rmult_comm (gl_xaxis a)), !(Rmult_comm (gl_yaxis a)), !glide_axis. cbn [v4x v4y v4z vx vy].
  assert (P : 0 < / IZR (gl_width a)) by (apply Rinv_0_lt_compat, IZR_lt; auto).
  set (ty := glide_angle (gl_yrot a) (gl_progress a)). set (tx := glide_angle (gl_xrot a) (gl_progress a)).
  assert (B : forall t, Rabs (sin t) <= 1) by (intros; apply Rabs_le, SIN_bound).
  assert (B' : forall t, Rabs (cos t) <= 1) by (intros; apply Rabs_le, COS_bound).
  assert (K : forall r, Rabs r <= 1 -> Rabs (r * / IZR (gl_width a)) <= 1 / IZR (gl_width a)).
  { intros r R. rewrite Rabs_mult, (Rabs_pos_eq (/ _)) by lra. unfold Rdiv. apply Rmult_le_compat_r; lra. }
  assert (M : forall r r', Rabs r <= 1 -> Rabs r' <= 1 -> Rabs (r * r') <= 1).
  { intros r r' R1 R2. rewrite Rabs_mult. rewrite <- (Rmult_1_r 1). apply Rmult_le_compat; auto using Rabs_pos. }
  unfold Rdiv in *. split; [|split].
  - match goal with |- Rabs ?e <= _ => replace e with (- sin ty * / IZR (gl_width a)) by ring end. apply K. rewrite Rabs_Ropp. auto.
  - match goal with |- Rabs ?e <= _ => replace e with (cos ty * sin tx * / IZR (gl_width a)) by ring end. apply K, M; auto.
  - match goal with |- Rabs ?e <= _ => replace e with (- (cos ty * cos tx) * / IZR (gl_width a)) by ring end. apply K. rewrite Rabs_Ropp. apply M; auto.
Qed.
Print Assumptions C41_glide_axis_near.

(** It does not stay exactly: half way through a rotation of 180 degrees about the
    y axis it has moved by 1/width. *)
Theorem C41_glide_axis_fixed_refuted :
  forall b : box R,
    let a := fold_left (glide_do linear_call) [GlStep 50] (glide_new linear_call 0 0 180 (1 / 2) (1 / 2) 1000 b (linear_new 100)) in
    v4x (glide_extreme a (axis_point a)) = vx (axis_point a) - 1 / 1000.
Proof.
  intros b. cbv zeta. unfold glide_new, linear_call, linear_new. cbn [fold_left glide_do]. unfold glide_step, glide_extreme, axis_point, on_surface.
  cbn [gl_stepper fst gl_transform gl_distance gl_xrot gl_yrot gl_xaxis gl_yaxis gl_width gl_target gl_progress lin_progress lin_length nadd ndiv nof nzero Num_R].
  rewrite clamp_R. replace (Rmin 1 (Rmax 0 (0 + 0 / 100 + 50 / 100))) with (1 / 2).
  2: { unfold Rmin, Rmax. destruct (Rle_dec 0 _), (Rle_dec 1 _); lra. }
  rewrite !(Rmult_comm (1 / 2)), glide_axis. cbn [v4x vx]. unfold glide_angle.
  replace (PI / 180 * 180 * (1 - 1 / 2)) with (PI / 2) by lra. rewrite sin_PI2. lra.
Qed.
Print Assumptions C41_glide_axis_fixed_refuted.

(** The surface is moved rigidly: distances between its points are kept. *)
Theorem C41_glide_rigid :
  forall (St : Type) (call : St -> Z -> R * St) (a0 : glide R R St) (ops : list (glide_op R St)) (ms : Z) (p q : vec R),
    let a := fold_left (glide_do call) (ops ++ [GlStep ms]) a0 in
    (0 < gl_width a)%Z ->
    dist3 (glide_extreme a p) (glide_extreme a q) = sqrt ((vx p - vx q) ^ 2 + (vy p - vy q) ^ 2).
Proof.
  intros St call a0 ops ms [x y] [x' y']. cbv zeta. intros _. rewrite fold_left_app. cbn [fold_left]. unfold glide_extreme. rewrite glide_step_transform.
  exact (glide_distance _ _ _ _ _ _ _ _ _ _ _ _).
Qed.
Print Assumptions C41_glide_rigid.

(** With a screen of width 0, which the constructor accepts, it does not end at
    all: in machine arithmetic the last frame is nowhere (for a sine and cosine
    that are right at 0). *)
Theorem C41_no_screen_refuted :
  exists (L1 : Libm f32) (L2 : Libm f64), tsin (nof 0 : f32) = nof 0 /\ tcos (nof 0 : f32) = nof 1 /\
    let b := mkB (mkV (nof 0) (nof 0)) (mkV (nof 100) (nof 100)) : box f64 in
    let a := fold_left (glide_do linear_call) [GlStep 100] (glide_new linear_call (nof 1) (nof 90) (nof 45) (nof 1) (nof 0) 0 b (linear_new (nof 100 : f32))) in
    neqb (gl_progress a) (nof 1) = true /\ v4w (glide_extreme a (mkV (nof 100) (nof 50))) = B754_nan.
Proof.
  exists {| tsin := fun x => x; tcos := fun _ => nof 1; texp := fun x => x; tpi := nlit 355 113 |},
         {| tsin := fun x => x; tcos := fun _ => nof 1; texp := fun x => x; tpi := nlit 355 113 |}.
  split; [reflexivity|]. split; [reflexivity|]. cbv zeta. split; [vm_compute; reflexivity|].
  match goal with |- ?x = _ => assert (N : is_nan x = true) by (vm_compute; reflexivity); destruct x; try discriminate N end. reflexivity.
Qed.
Print Assumptions C41_no_screen_refuted.

Example C41_case : forall b : box R,
  let a := fold_left (glide_do linear_call) ([] ++ [GlStep 120]) (glide_new linear_call 3 30 180 (1 / 2) 0 1000 b (linear_new 100)) in
  gl_progress a = 1 /\ (0 < gl_width a)%Z.
Proof.
  intros. unfold a, glide_new, linear_call, linear_new. cbn [fold_left app glide_do]. unfold glide_step.
  cbn [gl_stepper gl_width fst gl_progress lin_progress lin_length nadd ndiv nof nzero Num_R]. rewrite clamp_R. split; [|lia].
  unfold Rmin, Rmax. destruct (Rle_dec 0 _), (Rle_dec 1 _); lra.
Qed.
