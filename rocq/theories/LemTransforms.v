(** Bounce, glide and zoom in real arithmetic. *)

From Coq Require Import ZArith Reals Bool List Lia Lra Psatz.
From Flocq Require Import Core IEEE754.BinarySingleNaN Plus_error.
From Verif Require Import Num Geometry Outcome Steppers Transforms MagicLamp Program SpecAnim LemReal LemBasic.
Import ListNotations.
Local Open Scope R_scope.

Lemma mk4_eq (a b c d a' b' c' d' : R) : a = a' -> b = b' -> c = c' -> d = d' -> mk4 a b c d = mk4 a' b' c' d'.
Proof. intros; subst; reflexivity. Qed.

Lemma v4_ext (a b : vec4 R) : v4x a = v4x b -> v4y a = v4y b -> v4z a = v4z b -> v4w a = v4w b -> a = b.
Proof. destruct a, b; cbn; intros; subst; reflexivity. Qed.

Ltac comp := apply v4_ext; cbn [m_apply m_mul m_col m_translate m_scale m_rotate m_id perspective v4_add v4_scale nzero c0 c1 c2 c3 v4x v4y v4z v4w nadd nsub nmul ndiv nof tcos tsin Libm_R narrow Conv_R Num_R]; ring.

(** Products of matrices act one after the other. *)
Lemma apply_mul (a b : mat4 R) (v : vec4 R) : m_apply (m_mul a b) v = m_apply a (m_apply b v).
Proof. comp. Qed.
Lemma apply_translate (a b c : R) (v : vec4 R) :
  m_apply (m_translate m_id a b c) v = mk4 (v4x v + a * v4w v) (v4y v + b * v4w v) (v4z v + c * v4w v) (v4w v).
Proof. comp. Qed.
Lemma apply_scale (a b c : R) (v : vec4 R) :
  m_apply (m_scale m_id a b c) v = mk4 (a * v4x v) (b * v4y v) (c * v4z v) (v4w v).
Proof. comp. Qed.
Lemma apply_rotate_x (t : R) (v : vec4 R) :
  m_apply (m_rotate m_id t 1 0 0) v = mk4 (v4x v) (v4y v * cos t - v4z v * sin t) (v4y v * sin t + v4z v * cos t) (v4w v).
Proof. comp. Qed.
Lemma apply_rotate_y (t : R) (v : vec4 R) :
  m_apply (m_rotate m_id t 0 1 0) v = mk4 (v4x v * cos t + v4z v * sin t) (v4y v) (v4z v * cos t - v4x v * sin t) (v4w v).
Proof. comp. Qed.
Lemma apply_perspective w (v : vec4 R) :
  m_apply (perspective (F := R) (D := R) w) v = mk4 (v4x v) (v4y v) (-1 / IZR w * v4w v) (v4w v).
Proof. comp. Qed.

Lemma point_R (p : vec R) (m : mat4 R) : transform_point p m = m_apply m (mk4 (vx p) (vy p) 0 1).
Proof. unfold transform_point. cbn [widen narrow Conv_R nzero nof Num_R]. apply v4_ext; reflexivity. Qed.

Ltac mat := rewrite point_R, ?apply_mul, ?apply_translate; cbn [vx vy v4x v4y v4z v4w nadd nsub nmul ndiv nof nzero Num_R widen narrow Conv_R].

Ltac mat' := rewrite ?apply_translate; cbn [vx vy v4x v4y v4z v4w nadd nsub nmul ndiv nof nzero Num_R widen narrow Conv_R].

Lemma zoom_point (p : R) (from to : box R) (x y : R) :
  let fw := vx (b_br from) - vx (b_tl from) in let fh := vy (b_br from) - vy (b_tl from) in
  let tw := vx (b_br to) - vx (b_tl to) in let th := vy (b_br to) - vy (b_tl to) in
  transform_point (mkV x y) (zoom_transform p from to) =
  mk4 ((vx (b_tl from) + fw / 2 - (vx (b_tl to) + tw / 2)) * (1 - p) + tw / 2 + (tw * p + fw * (1 - p)) / tw * (x - tw / 2))
      ((vy (b_tl from) + fh / 2 - (vy (b_tl to) + th / 2)) * (1 - p) + th / 2 + (th * p + fh * (1 - p)) / th * (y - th / 2)) 0 1.
Proof.
  cbv zeta. unfold zoom_transform, box_center, box_center_offset, vadd. cbv zeta. mat. rewrite apply_scale. mat'. apply mk4_eq; unfold Rdiv; ring.
Qed.

Lemma zoom_corner (p : R) (from to : box R) (u v : R) :
  vx (b_br to) <> vx (b_tl to) -> vy (b_br to) <> vy (b_tl to) ->
  let q := transform_point (mkV (u * (vx (b_br to) - vx (b_tl to))) (v * (vy (b_br to) - vy (b_tl to)))) (zoom_transform p from to) in
  vx (b_tl to) + v4x q = (1 - p) * (vx (b_tl from) + u * (vx (b_br from) - vx (b_tl from))) + p * (vx (b_tl to) + u * (vx (b_br to) - vx (b_tl to))) /\
  vy (b_tl to) + v4y q = (1 - p) * (vy (b_tl from) + v * (vy (b_br from) - vy (b_tl from))) + p * (vy (b_tl to) + v * (vy (b_br to) - vy (b_tl to))) /\
  v4z q = 0 /\ v4w q = 1.
Proof.
  intros X Y. cbv zeta. rewrite zoom_point. cbv zeta. cbn [v4x v4y v4z v4w]. repeat split; field; lra.
Qed.

Lemma ensure_spec (b : box R) :
  b_tl (ensure_non_zero b) = b_tl b /\
  vx (b_br (ensure_non_zero b)) = (if Req_EM_T (vx (b_br b)) (vx (b_tl b)) then vx (b_br b) + 1 else vx (b_br b)) /\
  vy (b_br (ensure_non_zero b)) = (if Req_EM_T (vy (b_br b)) (vy (b_tl b)) then vy (b_br b) + 1 else vy (b_br b)).
Proof.
  unfold ensure_non_zero. cbn [b_tl b_br vx vy neqb nadd nof Num_R]. unfold Reqb. split; [destruct (b_tl b); reflexivity|].
  destruct (Req_EM_T (vx (b_br b)) _), (Req_EM_T (vy (b_br b)) _); auto.
Qed.

Lemma ensure_extent (b : box R) :
  vx (b_br (ensure_non_zero b)) <> vx (b_tl (ensure_non_zero b)) /\ vy (b_br (ensure_non_zero b)) <> vy (b_tl (ensure_non_zero b)).
Proof. destruct (ensure_spec b) as [-> [-> ->]]. destruct (Req_EM_T (vx (b_br b)) _), (Req_EM_T (vy (b_br b)) _); split; lra. Qed.

Lemma bounce_point (p i m : R) n (b : box R) (x y : R) :
  let c := box_center_offset b in let s := bounce_scale p i m n in
  transform_point (mkV x y) (bounce_transform p i m n b) = mk4 (vx c + s * (x - vx c)) (vy c + s * (y - vy c)) 0 1.
Proof. cbv zeta. unfold bounce_transform. cbv zeta. mat. rewrite apply_scale. mat'. apply mk4_eq; ring. Qed.

Lemma bounce_scale_R p i m n :
  bounce_scale p i m n = (i + (1 - i) * p + (m - i) * (1 - p) * sin (p * PI * IZR n))%R.
Proof. reflexivity. Qed.

Lemma bounce_scale_1 i m n : bounce_scale 1 i m n = 1.
Proof. rewrite bounce_scale_R. lra. Qed.
Lemma bounce_scale_0 i m n : bounce_scale 0 i m n = i.
Proof. rewrite bounce_scale_R. replace (0 * PI * IZR n) with 0 by ring. rewrite sin_0. lra. Qed.

Lemma bounce_envelope p i m n : 0 <= p <= 1 -> i <= m ->
  Rabs (bounce_scale p i m n - (i + (1 - i) * p)) <= (m - i) * (1 - p).
Proof.
  intros P M. rewrite bounce_scale_R. replace (_ - _) with ((m - i) * (1 - p) * sin (p * PI * IZR n)) by ring.
  assert (K : 0 <= (m - i) * (1 - p)) by nra. rewrite Rabs_mult, (Rabs_pos_eq _ K).
  rewrite <- (Rmult_1_r ((m - i) * (1 - p))) at 2. apply Rmult_le_compat_l; auto. apply Rabs_le. apply SIN_bound.
Qed.

Lemma bounce_max p i m n : 0 <= p <= 1 -> i <= m -> bounce_scale p i m n <= Rmax m 1.
Proof.
  intros P M. pose proof (bounce_envelope p i m n P M) as E. pose proof (Rle_abs (bounce_scale p i m n - (i + (1 - i) * p))) as G.
  assert (A := Rmax_l m 1). assert (B := Rmax_r m 1). nra.
Qed.

(** [glide]: the rotations and the distance at progress [p]. *)
Definition glide_angle (degrees p : R) : R := PI / 180 * degrees * (1 - p).

Lemma glide_point (p d xr yr xa ya : R) w (b : box R) (x y : R) :
  let ax := (vx (b_br b) - vx (b_tl b)) * xa in let ay := (vy (b_br b) - vy (b_tl b)) * ya in
  let tx := glide_angle xr p in let ty := glide_angle yr p in let v := -1 / IZR w in
  let dx := x - ax in let dy := y - ay in
  let z := v * cos ty - dx * sin ty in
  transform_point (mkV x y) (glide_transform p d xr yr xa ya w b) =
  mk4 (ax + (dx * cos ty + v * sin ty))
      (ay + (dy * cos tx - z * sin tx))
      (dy * sin tx + z * cos tx - d * (1 - p)) 1.
Proof.
  cbv zeta. unfold glide_transform, rotation_axis_offset, degrees_to_radians, glide_angle. cbv zeta. mat.
  rewrite apply_perspective, apply_rotate_y, apply_rotate_x. mat'. cbn [tpi Libm_R]. apply mk4_eq; ring.
Qed.

Lemma glide_flat (d xr yr xa ya : R) w (b : box R) (x y : R) :
  transform_point (mkV x y) (glide_transform 1 d xr yr xa ya w b) = mk4 x y (-1 / IZR w) 1.
Proof.
  rewrite glide_point. cbv zeta. unfold glide_angle. replace (PI / 180 * xr * (1 - 1)) with 0 by ring.
  replace (PI / 180 * yr * (1 - 1)) with 0 by ring. rewrite cos_0, sin_0. apply mk4_eq; ring.
Qed.

(** Rotations keep distances. *)
Lemma glide_distance (p d xr yr xa ya : R) w (b : box R) (x y x' y' : R) :
  dist3 (transform_point (mkV x y) (glide_transform p d xr yr xa ya w b))
        (transform_point (mkV x' y') (glide_transform p d xr yr xa ya w b)) = sqrt ((x - x') ^ 2 + (y - y') ^ 2).
Proof.
  rewrite !glide_point. cbv zeta. unfold dist3. cbn [v4x v4y v4z]. f_equal.
  set (tx := glide_angle xr p). set (ty := glide_angle yr p).
  pose proof (sin2_cos2 tx) as X. pose proof (sin2_cos2 ty) as Y. unfold Rsqr in X, Y.
  set (sx := sin tx) in *. set (cx := cos tx) in *. set (sy := sin ty) in *. set (cy := cos ty) in *.
  assert (X' : cx * cx = 1 - sx * sx) by lra. assert (Y' : cy * cy = 1 - sy * sy) by lra.
  transitivity ((x - x') ^ 2 * (cy * cy + sy * sy * (cx * cx + sx * sx)) + (y - y') ^ 2 * (cx * cx + sx * sx)); [ring|].
  rewrite X', Y'. ring.
Qed.

Lemma glide_axis (p d xr yr xa ya : R) w (b : box R) :
  let ax := (vx (b_br b) - vx (b_tl b)) * xa in let ay := (vy (b_br b) - vy (b_tl b)) * ya in
  transform_point (mkV ax ay) (glide_transform p d xr yr xa ya w b) =
  mk4 (ax - sin (glide_angle yr p) / IZR w)
      (ay + cos (glide_angle yr p) * sin (glide_angle xr p) / IZR w)
      (- (cos (glide_angle yr p) * cos (glide_angle xr p)) / IZR w - d * (1 - p)) 1.
Proof. cbv zeta. rewrite glide_point. cbv zeta. apply mk4_eq; unfold Rdiv; ring. Qed.

(** ** Histories *)

Section Histories.
Context {F D : Type} `{Num F} `{Num D} `{Conv F D} `{Libm F} `{Libm D}.
Context {St : Type} (call : St -> Z -> F * St).

Lemma bounce_sets ops : forall a : bounce F D St, existsb bn_is_step ops = false ->
  bn_transform (fold_left (bounce_do call) ops a) = bn_transform a /\ bn_progress (fold_left (bounce_do call) ops a) = bn_progress a.
Proof.
  induction ops as [|o ops IH]; intros a N; cbn [fold_left existsb] in *; auto. apply orb_false_iff in N. destruct N as [N1 N2].
  destruct (IH (bounce_do call a o) N2) as [-> ->]. destruct o; try discriminate; auto.
Qed.
Lemma glide_sets ops : forall a : glide F D St, existsb gl_is_step ops = false ->
  gl_transform (fold_left (glide_do call) ops a) = gl_transform a /\ gl_progress (fold_left (glide_do call) ops a) = gl_progress a.
Proof.
  induction ops as [|o ops IH]; intros a N; cbn [fold_left existsb] in *; auto. apply orb_false_iff in N. destruct N as [N1 N2].
  destruct (IH (glide_do call a o) N2) as [-> ->]. destruct o; try discriminate; auto.
Qed.
Lemma zoom_sets ops : forall a : zoom F D St, existsb zm_is_step ops = false ->
  zm_transform (fold_left (zoom_do call) ops a) = zm_transform a /\ zm_progress (fold_left (zoom_do call) ops a) = zm_progress a.
Proof.
  induction ops as [|o ops IH]; intros a N; cbn [fold_left existsb] in *; auto. apply orb_false_iff in N. destruct N as [N1 N2].
  destruct (IH (zoom_do call a o) N2) as [-> ->]. destruct o; try discriminate; auto.
Qed.

Lemma latest_fold {O V A} (f : O -> option V) (g : A -> V) (act : A -> O -> A) :
  (forall a o, g (act a o) = match f o with Some v => v | None => g a end) ->
  forall ops a, g (fold_left act ops a) = latest f (g a) ops.
Proof. intros S. induction ops as [|o ops IH]; intros a; cbn [fold_left latest]; auto. rewrite IH, S. reflexivity. Qed.

Lemma zoom_to_fixed ops : forall a : zoom F D St, zm_to (fold_left (zoom_do call) ops a) = zm_to a.
Proof.
  induction ops as [|o ops IH]; intros a; cbn [fold_left]; auto. rewrite IH. destruct o; auto.
  cbn [zoom_do]. unfold zoom_step. destruct (call (zm_stepper a) ms). reflexivity.
Qed.

Lemma zoom_step_transform ms (a : zoom F D St) : let a' := zoom_do call a (ZmStep ms) in
  zm_transform a' = zoom_transform (zm_progress a') (zm_from a') (zm_to a').
Proof. cbn [zoom_do]. unfold zoom_step. destruct (call (zm_stepper a) ms). reflexivity. Qed.
Lemma bounce_step_transform ms (a : bounce F D St) : let a' := bounce_do call a (BnStep ms) in
  bn_transform a' = bounce_transform (bn_progress a') (bn_initial a') (bn_maximum a') (bn_n a') (bn_target a').
Proof. cbn [bounce_do]. unfold bounce_step. destruct (call (bn_stepper a) ms). reflexivity. Qed.
Lemma glide_step_transform ms (a : glide F D St) : let a' := glide_do call a (GlStep ms) in
  gl_transform a' = glide_transform (gl_progress a') (gl_distance a') (gl_xrot a') (gl_yrot a') (gl_xaxis a') (gl_yaxis a') (gl_width a') (gl_target a').
Proof. cbn [glide_do]. unfold glide_step. destruct (call (gl_stepper a) ms). reflexivity. Qed.
End Histories.

(** ** Double precision: widening *)

Notation rnd64 := (round radix2 (SpecFloat.fexp 53 1024) (round_mode mode_NE)).

Lemma rnd64_mono x y : x <= y -> rnd64 x <= rnd64 y.
Proof. apply round_le. { apply fexp_correct. reflexivity. } apply valid_rnd_round_mode. Qed.
Lemma rnd64_int z : (Z.abs z <= 2 ^ 53)%Z -> rnd64 (IZR z) = IZR z.
Proof.
  intros Hz. apply round_generic; [apply valid_rnd_round_mode|]. destruct (Z_lt_ge_dec (Z.abs z) (2 ^ 53)).
  - apply generic_format_FLT with (emin := (-1074)%Z) (prec := 53%Z). exists (Float radix2 z 0); [unfold F2R; cbn; lra| |]; cbn; lia.
  - assert (E : (z = 2 ^ 53 \/ z = - 2 ^ 53)%Z) by lia. destruct E as [->| ->].
    + replace (IZR (2 ^ 53)) with (bpow radix2 53) by (cbn; lra). apply generic_format_bpow. cbn. lia.
    + replace (IZR (- 2 ^ 53)) with (- bpow radix2 53) by (cbn; lra). apply generic_format_opp, generic_format_bpow. cbn. lia.
Qed.

Lemma one64_R : B2R (nof 1 : f64) = 1.
Proof. cbn. unfold F2R. cbn. lra. Qed.

Lemma plus_one (x : f64) : is_finite x = true -> Rabs (B2R x) <= IZR (2 ^ 53 - 1) ->
  is_finite (nadd x (nof 1)) = true /\ B2R x < B2R (nadd x (nof 1)) /\ Rabs (B2R (nadd x (nof 1))) <= IZR (2 ^ 53).
Proof.
  intros F B. apply Rabs_le_inv in B.
  assert (O : is_finite (nof 1 : f64) = true) by reflexivity.
  generalize (Bplus_correct 53 1024 Hprec64 Hemax64 mode_NE x (nof 1) F O). rewrite one64_R.
  change (Bplus mode_NE x (nof 1)) with (nadd x (nof 1)).
  assert (U : rnd64 (B2R x + 1) <= IZR (2 ^ 53)). { rewrite <- (rnd64_int (2 ^ 53)) by (cbn; lia). apply rnd64_mono. cbn in *. lra. }
  assert (L : - IZR (2 ^ 53) <= rnd64 (B2R x + 1)). { rewrite <- opp_IZR, <- (rnd64_int (- 2 ^ 53)) by (cbn; lia). apply rnd64_mono. cbn in *. lra. }
  rewrite Rlt_bool_true.
  - intros [E [G _]]. rewrite E. split; auto. split; [|apply Rabs_le; lra].
    apply Rlt_le_trans with (IZR (Zfloor (B2R x) + 1)).
    + rewrite plus_IZR. apply Zfloor_ub.
    + rewrite <- rnd64_int.
      * apply rnd64_mono. rewrite plus_IZR. pose proof (Zfloor_lb (B2R x)). lra.
      * pose proof (Zfloor_lb (B2R x)) as Lb. pose proof (Zfloor_ub (B2R x)) as Ub.
        assert (IZR (Zfloor (B2R x)) <= IZR (2 ^ 53 - 1)) by lra. assert (IZR (- 2 ^ 53) <= IZR (Zfloor (B2R x) + 1)) by (rewrite plus_IZR; cbn in *; lra).
        apply le_IZR in H. apply le_IZR in H0. cbn in *. lia.
  - apply Rle_lt_trans with (IZR (2 ^ 53)); [apply Rabs_le; lra|]. replace (IZR (2 ^ 53)) with (bpow radix2 53) by (cbn; lra). apply bpow_lt. lia.
Qed.

(** The difference of two different finite numbers is not zero. *)
Lemma minus_not_zero (x y : f64) : is_finite x = true -> is_finite y = true -> B2R x <> B2R y -> neqb (nsub x y) (nof 0) = false.
Proof.
  intros Fx Fy N. generalize (Bminus_correct 53 1024 Hprec64 Hemax64 mode_NE x y Fx Fy).
  change (Bminus mode_NE x y) with (nsub x y). case Rlt_bool_spec; intros O C.
  - destruct C as [E [F _]]. change (neqb (nsub x y) (nof 0)) with (Beqb (nsub x y) (nof 0)).
    rewrite Beqb_correct by auto. apply Req_bool_false. rewrite E. cbn.
    assert (Z : round radix2 (FLT_exp (-1074) 53) (round_mode mode_NE) (B2R x + - B2R y) <> 0).
    { apply round_plus_neq_0; try typeclasses eauto.
      - apply (generic_format_B2R 53 1024 x).
      - apply generic_format_opp. apply (generic_format_B2R 53 1024 y).
      - lra. }
    exact Z.
  - destruct C as [E _]. assert (Q : nsub x y = B754_infinity (Bsign x)) by (apply B2SF_inj; rewrite E; reflexivity). rewrite Q. destruct (Bsign x); reflexivity.
Qed.
