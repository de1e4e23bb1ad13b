(** * Points, boxes and their arithmetic

    Models [animation/geometry.h], [animation/geometry_traits.h],
    [animation/math.h] and [animation/box_calculation.h]. *)

From Coq Require Import ZArith Bool List.
From Verif Require Import Num.

(** [PointModel <T>] (geometry.h:222-258) and, since a [PointView] denotes the
    two numbers it points at, the contents of a view (geometry.h:76-184). *)
Record vec (T : Type) : Type := mkV { vx : T; vy : T }.
Arguments mkV {T} vx vy.
Arguments vx {T} v.
Arguments vy {T} v.

Section Geometry.
Context {T : Type} `{Num T}.

(** [PointModel ()] (geometry.h:231-235). *)
Definition vzero : vec T := mkV nzero nzero.

(** [dimension::pointwise_add] (geometry_traits.h:307-315). *)
Definition vadd (dst src : vec T) : vec T :=
  mkV (nadd (vx dst) (vx src)) (nadd (vy dst) (vy src)).

(** [dimension::pointwise_subtract] (geometry_traits.h:323-331). *)
Definition vsub (dst src : vec T) : vec T :=
  mkV (nsub (vx dst) (vx src)) (nsub (vy dst) (vy src)).

(** [dimension::scale] (geometry_traits.h:259-267). *)
Definition vscale (dst : vec T) (factor : T) : vec T :=
  mkV (nmul (vx dst) factor) (nmul (vy dst) factor).

(** [dimension::pointwise_scale] (geometry_traits.h:275-283). *)
Definition vpscale (dst src : vec T) : vec T :=
  mkV (nmul (vx dst) (vx src)) (nmul (vy dst) (vy src)).

(** [dimension::pointwise_div] (geometry_traits.h:291-299). *)
Definition vpdiv (dst src : vec T) : vec T :=
  mkV (ndiv (vx dst) (vx src)) (ndiv (vy dst) (vy src)).

(** [dimension::distance] (geometry_traits.h:339-348): the reduction starts
    from 0.0, visits dimension 1 first, then dimension 0
    (geometry_traits.h:127-156). *)
Definition vdist (l r : vec T) : T :=
  let dy := nsub (vy l) (vy r) in
  let dx := nsub (vx l) (vx r) in
  nsqrt (nadd (nadd nzero (nmul dy dy)) (nmul dx dx)).

(** [dimension::equals] (geometry_traits.h:357-366); the outer [::sqrt] is
    applied to a [bool] and does not change its truth value. *)
Definition vequals (l r : vec T) : bool :=
  (true && neqb (vy l) (vy r)) && neqb (vx l) (vx r).

(** [for_each_coordinate] (geometry_traits.h:165-171). *)
Definition vmap (f : T -> T) (p : vec T) : vec T := mkV (f (vx p)) (f (vy p)).

(** [wobbly::geometry::ResetIfCloseToZero] (wobbly_internal.h:86-93). *)
Definition reset_if_close (t : T) (p : vec T) : vec T :=
  vmap (fun c => if nltb (nabs c) t then nzero else c) p.

(** [wobbly::geometry::Absolute] (wobbly_internal.h:95-111). *)
Definition vabs (p : vec T) : vec T := vmap nabs p.

(** [Box <T>] (geometry.h:313-354). *)
Record box : Type := mkB { b_tl : vec T; b_br : vec T }.

(** [Box::contains] (geometry.h:356-369). *)
Definition box_contains (b : box) (p : vec T) : bool :=
  nleb (vx (b_tl b)) (vx p) && nleb (vx p) (vx (b_br b)) &&
  nleb (vy (b_tl b)) (vy p) && nleb (vy p) (vy (b_br b)).

(** [ComputeBoxCenterOffset] (box_calculation.h:28-36). *)
Definition box_center_offset (b : box) : vec T :=
  mkV (ndiv (nsub (vx (b_br b)) (vx (b_tl b))) (nof 2))
      (ndiv (nsub (vy (b_br b)) (vy (b_tl b))) (nof 2)).

(** [ComputeBoxCenter] (box_calculation.h:38-45). *)
Definition box_center (b : box) : vec T := vadd (b_tl b) (box_center_offset b).

(** [math::clamp] (math.h:28-31). *)
Definition clamp (value lower higher : T) : T := nfmin higher (nfmax lower value).

(** [Vector4DModel <T>] (geometry.h:381-427). *)
Record vec4 : Type := mk4 { v4x : T; v4y : T; v4z : T; v4w : T }.

(** [Vector4DModel::swap (a, b)] (geometry.h:408-414): the new contents of
    [(a, b)]; the third and fourth members are exchanged crosswise. *)
Definition v4_swap (a b : vec4) : vec4 * vec4 :=
  (* std::swap (a.x, b.x); std::swap (a.y, b.y) *)
  let a1 := mk4 (v4x b) (v4y b) (v4z a) (v4w a) in
  let b1 := mk4 (v4x a) (v4y a) (v4z b) (v4w b) in
  (* std::swap (a.z, b.w) *)
  let a2 := mk4 (v4x a1) (v4y a1) (v4w b1) (v4w a1) in
  let b2 := mk4 (v4x b1) (v4y b1) (v4z b1) (v4z a1) in
  (* std::swap (a.w, b.z) *)
  let a3 := mk4 (v4x a2) (v4y a2) (v4z a2) (v4z b2) in
  let b3 := mk4 (v4x b2) (v4y b2) (v4w a2) (v4w b2) in
  (a3, b3).

(** [Vector4DModel (Vector4DModel const &)] (geometry.h:400-406). *)
Definition v4_copy (v : vec4) : vec4 := mk4 (v4x v) (v4y v) (v4z v) (v4w v).

(** [Vector4DModel::operator=] (geometry.h:416-421): the argument is a copy,
    swapped with [*this].  Returns the new contents of [*this]. *)
Definition v4_assign (this other : vec4) : vec4 := fst (v4_swap this (v4_copy other)).

(** [PointModel (PointModel const &)], [PointModel::swap] and
    [PointModel::operator=] (geometry.h:237-254). *)
Definition v_copy (p : vec T) : vec T := mkV (vx p) (vy p).
Definition v_swap (a b : vec T) : vec T * vec T :=
  (mkV (vx b) (vy b), mkV (vx a) (vy a)).
Definition v_assign (this other : vec T) : vec T := fst (v_swap this (v_copy other)).

End Geometry.

Arguments box T : clear implicits.
Arguments mkB {T} b_tl b_br.
Arguments b_tl {T} b.
Arguments b_br {T} b.
Arguments vec4 T : clear implicits.
Arguments mk4 {T} v4x v4y v4z v4w.
