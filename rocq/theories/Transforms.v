(** * Bounce, glide and zoom animations

    Models [animation/bounce/bounce.cpp], [animation/glide/glide.cpp],
    [animation/zoom/zoom.cpp], [animation/transform_calculation.h],
    [animation/property.h], the rest of [animation/box_calculation.h], and the
    functions of glm they call.

    [F] is [float], [D] is [double].  The conversions between them are written
    where the usual arithmetic conversions of C++ put them. *)

From Coq Require Import ZArith Bool List Reals.
From Verif Require Import Num Geometry Steppers.
Import ListNotations.

(** libm: [::sin], [::cos], [::exp] and [M_PI] (bounce.cpp:51, glide.cpp:49,
    magiclamp.cpp:62; sine and cosine also in [glm::rotate], glide.cpp:87-92).
    *)
Class Libm (T : Type) : Type := {
  tsin : T -> T;
  tcos : T -> T;
  texp : T -> T;
  tpi  : T
}.

(** The exact functions, in the place of those called in bounce.cpp:51,
    glide.cpp:49, 87-92 and magiclamp.cpp:62. *)
Global Instance Libm_R : Libm R := {| tsin := sin; tcos := cos; texp := exp; tpi := PI |}.

(** ** glm (not part of /repo; glm 0.9.9) *)

Section Glm.
Context {F : Type} `{Num F}.

(** [glm::mat4]: four columns of [glm::vec4] (bounce.cpp:130, glide.cpp:134,
    zoom.cpp:139). *)
Record mat4 : Type := mkM { c0 : vec4 F; c1 : vec4 F; c2 : vec4 F; c3 : vec4 F }.

(** [vec4 * float] and [vec4 + vec4] (used by the operators below; the call in
    /repo is transform_calculation.h:35). *)
Definition v4_scale (v : vec4 F) (s : F) : vec4 F :=
  mk4 (nmul (v4x v) s) (nmul (v4y v) s) (nmul (v4z v) s) (nmul (v4w v) s).
Definition v4_add (a b : vec4 F) : vec4 F :=
  mk4 (nadd (v4x a) (v4x b)) (nadd (v4y a) (v4y b))
      (nadd (v4z a) (v4z b)) (nadd (v4w a) (v4w b)).

(** [glm::mat4 (1.0)] (bounce.cpp:96, glide.cpp:83, zoom.cpp:105). *)
Definition m_id : mat4 :=
  mkM (mk4 (nof 1) nzero nzero nzero) (mk4 nzero (nof 1) nzero nzero)
      (mk4 nzero nzero (nof 1) nzero) (mk4 nzero nzero nzero (nof 1)).

(** [mat4 * vec4]: the products are summed in pairs
    (transform_calculation.h:35). *)
Definition m_apply (m : mat4) (v : vec4 F) : vec4 F :=
  v4_add (v4_add (v4_scale (c0 m) (v4x v)) (v4_scale (c1 m) (v4y v)))
         (v4_add (v4_scale (c2 m) (v4z v)) (v4_scale (c3 m) (v4w v))).

(** One column of [mat4 * mat4]: summed from the left (bounce.cpp:96-109,
    glide.cpp:83-106, zoom.cpp:105-125). *)
Definition m_col (m : mat4) (v : vec4 F) : vec4 F :=
  v4_add (v4_add (v4_add (v4_scale (c0 m) (v4x v)) (v4_scale (c1 m) (v4y v)))
                 (v4_scale (c2 m) (v4z v)))
         (v4_scale (c3 m) (v4w v)).
Definition m_mul (a b : mat4) : mat4 :=
  mkM (m_col a (c0 b)) (m_col a (c1 b)) (m_col a (c2 b)) (m_col a (c3 b)).

(** [glm::translate (m, v)]: [Result[3] = m[0]*v[0] + m[1]*v[1] + m[2]*v[2] +
    m[3]] (bounce.cpp:96-107, glide.cpp:83-100, zoom.cpp:105-120). *)
Definition m_translate (m : mat4) (x y z : F) : mat4 :=
  mkM (c0 m) (c1 m) (c2 m)
      (v4_add (v4_add (v4_add (v4_scale (c0 m) x) (v4_scale (c1 m) y)) (v4_scale (c2 m) z))
              (c3 m)).

(** [glm::scale (m, v)] (bounce.cpp:100-103, zoom.cpp:109-112). *)
Definition m_scale (m : mat4) (x y z : F) : mat4 :=
  mkM (v4_scale (c0 m) x) (v4_scale (c1 m) y) (v4_scale (c2 m) z) (c3 m).

(** [glm::rotate (m, angle, axis)]. Simplification: the axis is taken to be
    already of unit length ([glm::normalize] is not applied); the code only uses
    (1,0,0) and (0,1,0) (glide.cpp:87-92). *)
Definition m_rotate `{Libm F} (m : mat4) (angle ax ay az : F) : mat4 :=
  let c := tcos angle in
  let s := tsin angle in
  let t := nsub (nof 1) c in
  let tx := nmul t ax in let ty := nmul t ay in let tz := nmul t az in
  let r00 := nadd c (nmul tx ax) in
  let r01 := nadd (nmul tx ay) (nmul s az) in
  let r02 := nsub (nmul tx az) (nmul s ay) in
  let r10 := nsub (nmul ty ax) (nmul s az) in
  let r11 := nadd c (nmul ty ay) in
  let r12 := nadd (nmul ty az) (nmul s ax) in
  let r20 := nadd (nmul tz ax) (nmul s ay) in
  let r21 := nsub (nmul tz ay) (nmul s ax) in
  let r22 := nadd c (nmul tz az) in
  let comb a b d :=
    v4_add (v4_add (v4_scale (c0 m) a) (v4_scale (c1 m) b)) (v4_scale (c2 m) d) in
  mkM (comb r00 r01 r02) (comb r10 r11 r12) (comb r20 r21 r22) (c3 m).

End Glm.

Arguments mat4 F : clear implicits.

Section Animations.
Context {F D : Type} `{Num F} `{Num D} `{Conv F D} `{Libm F} `{Libm D}.
Context {St : Type} (call : St -> Z -> F * St).

(** [TransformFlattened2DPointBy3DMatrix] (transform_calculation.h:30-37). *)
Definition transform_point (p : vec D) (m : mat4 F) : vec4 D :=
  let t := m_apply m (mk4 (narrow (vx p)) (narrow (vy p)) (narrow nzero) (narrow (nof 1))) in
  mk4 (widen (v4x t)) (widen (v4y t)) (widen (v4z t)) (widen (v4w t)).

(** [ComputeRotationAxisOffset] (box_calculation.h:47-57). *)
Definition rotation_axis_offset (b : box D) (u v : F) : vec D :=
  mkV (nmul (nsub (vx (b_br b)) (vx (b_tl b))) (widen u))
      (nmul (nsub (vy (b_br b)) (vy (b_tl b))) (widen v)).

(** [progress = clamp (stepper (ms), 0.0f, 1.0f)] and the result
    [progress != 0.0f && progress != 1.0f] of every [Step]
    (bounce.cpp:176-189, glide.cpp:189-205, zoom.cpp:179-190,
    magiclamp.cpp:269-285). *)
Definition clamp_progress (v : F) : F := clamp v (nof 0) (nof 1).
Definition more_progress (p : F) : bool := negb (neqb p (nof 0)) && negb (neqb p (nof 1)).

(** *** Bounce *)

(** [BounceAnimation::Private] (bounce.cpp:115-134). *)
Record bounce : Type := mkBounce {
  bn_initial : F; bn_maximum : F; bn_n : Z; bn_target : box D;
  bn_transform : mat4 F; bn_progress : F; bn_stepper : St }.

(** [SampleSineWave] (bounce.cpp:48-52): [double] inside, result [float]. *)
Definition sample_sine (progress : F) (n : Z) : F :=
  narrow (tsin (nmul (nmul (widen progress) tpi) (nof n))).

(** [ComputeScaleFactorFromProgressParameters] (bounce.cpp:68-82). *)
Definition bounce_scale (progress initial maximum : F) (n : Z) : F :=
  let target := nof 1 in
  let sine := sample_sine progress n in
  let range := nmul (nsub maximum initial) (nsub (nof 1) progress) in
  let floor := nadd initial (nmul (nsub target initial) progress) in
  nadd floor (nmul range sine).

(** [ComputeBounceTransform] (bounce.cpp:84-110). *)
Definition bounce_transform (progress initial maximum : F) (n : Z) (b : box D) : mat4 F :=
  let c := box_center_offset b in
  let s := bounce_scale progress initial maximum n in
  let center := m_translate m_id (narrow (nmul (nof (-1)) (vx c)))
                                 (narrow (nmul (nof (-1)) (vy c))) (narrow nzero) in
  let scale := m_scale m_id s s (nof 1) in
  let inv := m_translate m_id (narrow (vx c)) (narrow (vy c)) (narrow nzero) in
  m_mul (m_mul inv scale) center.

(** The constructor (bounce.cpp:136-155): [progress] is the value of
    [stepper (0)], not clamped, and the stepper is copied after that call. *)
Definition bounce_new (initial maximum : F) (n : Z) (target : box D) (s : St) : bounce :=
  let '(p, s1) := call s 0%Z in
  mkBounce initial maximum n target (bounce_transform p initial maximum n target) p s1.

(** [BounceAnimation::Step] (bounce.cpp:176-189). *)
Definition bounce_step (ms : Z) (a : bounce) : bounce * bool :=
  let '(v, s1) := call (bn_stepper a) ms in
  let p := clamp_progress v in
  (mkBounce (bn_initial a) (bn_maximum a) (bn_n a) (bn_target a)
     (bounce_transform p (bn_initial a) (bn_maximum a) (bn_n a) (bn_target a)) p s1,
   more_progress p).

(** [BounceAnimation::Extremes] (bounce.cpp:159-168), for one corner. *)
Definition bounce_extreme (a : bounce) (p : vec D) : vec4 D := transform_point p (bn_transform a).

(** The settable properties (bounce.cpp:197-201, property.h:35-42). *)
Inductive bounce_op : Type :=
| BnStep (ms : Z)
| BnSetInitial (v : F)
| BnSetMaximum (v : F)
| BnSetN (n : Z)
| BnSetStepper (s : St).

Definition bounce_do (a : bounce) (o : bounce_op) : bounce :=
  match o with
  | BnStep ms => fst (bounce_step ms a)
  | BnSetInitial v =>
      mkBounce v (bn_maximum a) (bn_n a) (bn_target a) (bn_transform a) (bn_progress a) (bn_stepper a)
  | BnSetMaximum v =>
      mkBounce (bn_initial a) v (bn_n a) (bn_target a) (bn_transform a) (bn_progress a) (bn_stepper a)
  | BnSetN n =>
      mkBounce (bn_initial a) (bn_maximum a) n (bn_target a) (bn_transform a) (bn_progress a) (bn_stepper a)
  | BnSetStepper s =>
      mkBounce (bn_initial a) (bn_maximum a) (bn_n a) (bn_target a) (bn_transform a) (bn_progress a) s
  end.

(** *** Glide *)

(** [GlideAnimation::Private] (glide.cpp:114-138). *)
Record glide : Type := mkGlide {
  gl_distance : F; gl_xrot : F; gl_yrot : F; gl_xaxis : F; gl_yaxis : F;
  gl_width : Z; gl_target : box D;
  gl_transform : mat4 F; gl_progress : F; gl_stepper : St }.

(** [DegreesToRadians] (glide.cpp:47-50). *)
Definition degrees_to_radians (degrees : F) : F :=
  narrow (nmul (ndiv tpi (widen (nof 180))) (widen degrees)).

(** [CreatePerspectiveDistortionMatrix] (glide.cpp:53-61). *)
Definition perspective (width : Z) : mat4 F :=
  let v := narrow (ndiv (nof (-1)) (nof width)) in
  mkM (mk4 (nof 1) nzero nzero nzero) (mk4 nzero (nof 1) nzero nzero)
      (mk4 nzero nzero nzero nzero) (mk4 nzero nzero v (nof 1)).

(** [ComputeGlideTransform] (glide.cpp:69-108). *)
Definition glide_transform (progress distance xrot yrot xaxis yaxis : F) (width : Z)
    (b : box D) : mat4 F :=
  let axis := rotation_axis_offset b xaxis yaxis in
  let center := m_translate m_id (narrow (nmul (widen (nof (-1))) (vx axis)))
                                 (narrow (nmul (widen (nof (-1))) (vy axis))) nzero in
  let inv_progress := nsub (nof 1) progress in
  let rx := m_rotate m_id (nmul (degrees_to_radians xrot) inv_progress) (nof 1) nzero nzero in
  let ry := m_rotate m_id (nmul (degrees_to_radians yrot) inv_progress) nzero (nof 1) nzero in
  let trans := m_translate m_id nzero nzero (nmul (nmul (nof (-1)) distance) inv_progress) in
  let inv := m_translate m_id (narrow (vx axis)) (narrow (vy axis)) nzero in
  m_mul (m_mul (m_mul (m_mul (m_mul inv trans) rx) ry) (perspective width)) center.

(** The constructor (glide.cpp:140-168). *)
Definition glide_new (distance xrot yrot xaxis yaxis : F) (width : Z) (target : box D) (s : St)
  : glide :=
  let '(p, s1) := call s 0%Z in
  mkGlide distance xrot yrot xaxis yaxis width target
    (glide_transform p distance xrot yrot xaxis yaxis width target) p s1.

(** [GlideAnimation::Step] (glide.cpp:189-205). *)
Definition glide_step (ms : Z) (a : glide) : glide * bool :=
  let '(v, s1) := call (gl_stepper a) ms in
  let p := clamp_progress v in
  (mkGlide (gl_distance a) (gl_xrot a) (gl_yrot a) (gl_xaxis a) (gl_yaxis a) (gl_width a) (gl_target a)
     (glide_transform p (gl_distance a) (gl_xrot a) (gl_yrot a) (gl_xaxis a) (gl_yaxis a)
        (gl_width a) (gl_target a)) p s1,
   more_progress p).

(** [GlideAnimation::Extremes] (glide.cpp:172-181), for one corner. *)
Definition glide_extreme (a : glide) (p : vec D) : vec4 D := transform_point p (gl_transform a).

(** The settable properties (glide.cpp:213-218). *)
Inductive glide_op : Type :=
| GlStep (ms : Z)
| GlSetDistance (v : F)
| GlSetXRot (v : F)
| GlSetYRot (v : F)
| GlSetXAxis (v : F)
| GlSetYAxis (v : F)
| GlSetStepper (s : St).

Definition glide_do (a : glide) (o : glide_op) : glide :=
  match o with
  | GlStep ms => fst (glide_step ms a)
  | GlSetDistance v =>
      mkGlide v (gl_xrot a) (gl_yrot a) (gl_xaxis a) (gl_yaxis a) (gl_width a) (gl_target a)
        (gl_transform a) (gl_progress a) (gl_stepper a)
  | GlSetXRot v =>
      mkGlide (gl_distance a) v (gl_yrot a) (gl_xaxis a) (gl_yaxis a) (gl_width a) (gl_target a)
        (gl_transform a) (gl_progress a) (gl_stepper a)
  | GlSetYRot v =>
      mkGlide (gl_distance a) (gl_xrot a) v (gl_xaxis a) (gl_yaxis a) (gl_width a) (gl_target a)
        (gl_transform a) (gl_progress a) (gl_stepper a)
  | GlSetXAxis v =>
      mkGlide (gl_distance a) (gl_xrot a) (gl_yrot a) v (gl_yaxis a) (gl_width a) (gl_target a)
        (gl_transform a) (gl_progress a) (gl_stepper a)
  | GlSetYAxis v =>
      mkGlide (gl_distance a) (gl_xrot a) (gl_yrot a) (gl_xaxis a) v (gl_width a) (gl_target a)
        (gl_transform a) (gl_progress a) (gl_stepper a)
  | GlSetStepper s =>
      mkGlide (gl_distance a) (gl_xrot a) (gl_yrot a) (gl_xaxis a) (gl_yaxis a) (gl_width a) (gl_target a)
        (gl_transform a) (gl_progress a) s
  end.

(** *** Zoom *)

(** [ZoomAnimation::Private] (zoom.cpp:129-143). *)
Record zoom : Type := mkZoom {
  zm_from : box D; zm_to : box D;
  zm_transform : mat4 F; zm_progress : F; zm_stepper : St }.

(** [EnsureNonZeroArea] (zoom.cpp:43-53). *)
Definition ensure_non_zero (b : box D) : box D :=
  let x1 := vx (b_tl b) in let y1 := vy (b_tl b) in
  let x2 := vx (b_br b) in let y2 := vy (b_br b) in
  mkB (mkV x1 y1)
      (mkV (if neqb x2 x1 then nadd x2 (nof 1) else x2)
           (if neqb y2 y1 then nadd y2 (nof 1) else y2)).

(** [ComputeZoomTransform] (zoom.cpp:66-123).  The unused [invScaleFactor]
    (zoom.cpp:97-98) is left out. *)
Definition zoom_transform (progress : F) (from to : box D) : mat4 F :=
  let from_w := nsub (vx (b_br from)) (vx (b_tl from)) in
  let from_h := nsub (vy (b_br from)) (vy (b_tl from)) in
  let to_w := nsub (vx (b_br to)) (vx (b_tl to)) in
  let to_h := nsub (vy (b_br to)) (vy (b_tl to)) in
  let from_c := box_center from in
  let to_c := box_center to in
  let off := box_center_offset to in
  let ip := widen (nsub (nof 1) progress) in
  let tx := nmul (nsub (vx from_c) (vx to_c)) ip in
  let ty := nmul (nsub (vy from_c) (vy to_c)) ip in
  let dp := widen progress in
  let sx := ndiv (nadd (nmul to_w dp) (nmul from_w (nsub (nof 1) dp))) to_w in
  let sy := ndiv (nadd (nmul to_h dp) (nmul from_h (nsub (nof 1) dp))) to_h in
  let center := m_translate m_id (narrow (nmul (nof (-1)) (vx off)))
                                 (narrow (nmul (nof (-1)) (vy off))) (narrow nzero) in
  let scale := m_scale m_id (narrow sx) (narrow sy) (narrow (nof 1)) in
  let inv := m_translate m_id (narrow (vx off)) (narrow (vy off)) (narrow nzero) in
  let trans := m_translate m_id (narrow tx) (narrow ty) (narrow nzero) in
  m_mul (m_mul (m_mul trans inv) scale) center.

(** The constructor (zoom.cpp:145-158). *)
Definition zoom_new (from to : box D) (s : St) : zoom :=
  let '(p, s1) := call s 0%Z in
  let from' := ensure_non_zero from in
  let to' := ensure_non_zero to in
  mkZoom from' to' (zoom_transform p from' to') p s1.

(** [ZoomAnimation::Step] (zoom.cpp:179-190). *)
Definition zoom_step (ms : Z) (a : zoom) : zoom * bool :=
  let '(v, s1) := call (zm_stepper a) ms in
  let p := clamp_progress v in
  (mkZoom (zm_from a) (zm_to a) (zoom_transform p (zm_from a) (zm_to a)) p s1,
   more_progress p).

(** [ZoomAnimation::Extremes] (zoom.cpp:162-171), for one corner. *)
Definition zoom_extreme (a : zoom) (p : vec D) : vec4 D := transform_point p (zm_transform a).

(** The settable properties (zoom.cpp:198-200): the setter of [From] stores the
    box as given. *)
Inductive zoom_op : Type :=
| ZmStep (ms : Z)
| ZmSetFrom (b : box D)
| ZmSetStepper (s : St).

Definition zoom_do (a : zoom) (o : zoom_op) : zoom :=
  match o with
  | ZmStep ms => fst (zoom_step ms a)
  | ZmSetFrom b => mkZoom b (zm_to a) (zm_transform a) (zm_progress a) (zm_stepper a)
  | ZmSetStepper s => mkZoom (zm_from a) (zm_to a) (zm_transform a) (zm_progress a) s
  end.

End Animations.

Arguments bounce F D St : clear implicits.
Arguments glide F D St : clear implicits.
Arguments zoom F D St : clear implicits.
Arguments bounce_op F St : clear implicits.
Arguments glide_op F St : clear implicits.
Arguments zoom_op D St : clear implicits.
