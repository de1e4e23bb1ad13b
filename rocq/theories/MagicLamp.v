(** * The magic lamp animation

    Models [animation/magiclamp/magiclamp.cpp].  [F] is [float], [D] is
    [double]; [size_t] values are integers in [0, 2^64). *)

From Coq Require Import ZArith Bool List.
From Verif Require Import Num Geometry Outcome Steppers Transforms.
Import ListNotations.
Local Open Scope Z_scope.

(** [size_t] arithmetic (magiclamp.cpp:52-57, 87-132, 147-170). *)
Definition u64 (z : Z) : Z := z mod 2 ^ 64.

Section MagicLamp.
Context {F D : Type} `{Num F} `{Num D} `{Conv F D} `{Libm D}.
Context {St : Type} (call : St -> Z -> F * St).

(** [ag::PointModel <size_t>] (magiclamp.cpp:52, 187). *)
Record resolution : Type := mkRes { rw : Z; rh : Z }.

(** [InitializeGridObjects] (magiclamp.cpp:52-57). *)
Definition init_grid (r : resolution) : list (vec D) :=
  repeat vzero (Z.to_nat (u64 (rw r * rh r))).

(** [Sigmoid] (magiclamp.cpp:59-63); the call of [exp] is taken to be the
    [double] one. *)
Definition sigmoid (x bend offset : F) : F :=
  narrow (ndiv (nof 1) (nadd (nof 1) (texp (widen (nmul (nopp bend) (nsub x offset)))))).

(** The parameters of one evaluation of the grid (the arguments of
    magiclamp.cpp:77-85, kept in magiclamp.cpp:181-208). *)
Record lamp_params : Type := mkLamp {
  lp_source : box D; lp_target : box D;
  lp_bend : F; lp_offset : F; lp_stretch : F; lp_speed : F }.

(** The grid point computed for column [i], row [j] (magiclamp.cpp:89-130). *)
Definition lamp_point (q : lamp_params) (r : resolution) (progress : F) (i j : Z) : vec D :=
  let src := lp_source q in
  let tgt := lp_target q in
  let sw : F := narrow (nsub (vx (b_br src)) (vx (b_tl src))) in
  let sh : F := narrow (nsub (vy (b_br src)) (vy (b_tl src))) in
  let tw : F := narrow (nsub (vx (b_br tgt)) (vx (b_tl tgt))) in
  let th : F := narrow (nsub (vy (b_br tgt)) (vy (b_tl tgt))) in
  let tl_target_y : F := narrow (vy (b_tl tgt)) in
  let tl_source_y : F := narrow (vy (b_tl src)) in
  let y_distance := nsub tl_source_y tl_target_y in
  let inv_progress := nsub (nof 1) progress in
  let s0 := sigmoid (nof 0) (lp_bend q) (lp_offset q) in
  let s1 := sigmoid (nof 1) (lp_bend q) (lp_offset q) in
  let s1s0 := nsub s1 s0 in
  let gw1 : F := nof (u64 (rw r - 1)) in
  let gh1 : F := nof (u64 (rh r - 1)) in
  let sx := nadd (vx (b_tl src)) (widen (ndiv (nmul (nof i) sw) gw1)) in
  let sy := nadd (vy (b_tl src)) (widen (ndiv (nmul (nof j) sh) gh1)) in
  let tx := nadd (vx (b_tl tgt)) (widen (ndiv (nmul (nof i) tw) gw1)) in
  let ty := nadd (vy (b_tl tgt)) (widen (ndiv (nmul (nof j) th) gh1)) in
  let stretch := ndiv (nof 1) (nsub (nof 1) (nmul (ndiv (nof j) gh1) (lp_stretch q))) in
  let stretch_progress := nmin2 (nmul inv_progress stretch) (nof 1) in
  let y_delta : F := narrow (nsub sy ty) in
  let y : F := narrow (nadd ty (widen (nmul y_delta stretch_progress))) in
  let x_progress :=
    nmul (nmin2 (nsub (nof 1) (ndiv (nsub tl_source_y y) y_distance)) (nof 1))
         (nmin2 (nmul inv_progress (lp_speed q)) (nof 1)) in
  let x_factor := ndiv (nsub (sigmoid x_progress (lp_bend q) (lp_offset q)) s0) s1s0 in
  let x : F := narrow (nadd tx (nmul (nsub sx tx) (widen x_factor))) in
  mkV (widen x) (widen y).

(** The writes of the double loop of
    [MoveGridVerticallyTowardsTargetWithXSigmoidDeformation]
    (magiclamp.cpp:103-134): the index written and the value. *)
Definition lamp_writes (q : lamp_params) (r : resolution) (progress : F) : list (Z * vec D) :=
  flat_map (fun j =>
    map (fun i =>
      let i := Z.of_nat i in let j := Z.of_nat j in
      (u64 (j * rw r + i), lamp_point q r progress i j))
      (seq 0 (Z.to_nat (rw r))))
    (seq 0 (Z.to_nat (rh r))).

(** Writes outside the vector are [OutOfBounds] (magiclamp.cpp:131-132). *)
Fixpoint do_writes (ws : list (Z * vec D)) (grid : list (vec D)) : res (list (vec D)) :=
  match ws with
  | [] => Ok grid
  | (k, v) :: t =>
      if k <? Z.of_nat (length grid) then do_writes t (list_set (Z.to_nat k) v grid)
      else Err OutOfBounds
  end.

(** [MoveGridVerticallyTowardsTargetWithXSigmoidDeformation]
    (magiclamp.cpp:77-135). *)
Definition move_grid (q : lamp_params) (r : resolution) (progress : F) (grid : list (vec D))
  : res (list (vec D)) :=
  do_writes (lamp_writes q r progress) grid.

(** [static_cast <size_t> (d)]: undefined unless the truncated value is in range
    (magiclamp.cpp:149-150). *)
Definition to_size (d : D) : res Z :=
  match ntrunc d with
  | Some z => if (0 <=? z) && (z <? 2 ^ 64) then Ok z else Err BadCast
  | None => Err BadCast
  end.

(** [grid[k]] of a [std::vector] (magiclamp.cpp:161-170, 252-259). *)
Definition grid_at (grid : list (vec D)) (k : Z) : res (vec D) :=
  if (0 <=? k) && (k <? Z.of_nat (length grid)) then
    of_option OutOfBounds (nth_error grid (Z.to_nat k))
  else Err OutOfBounds.

(** [InterpolateIntoGrid] (magiclamp.cpp:141-174).  [clampedUV] is computed by
    the code and not used. *)
Definition interpolate (uv : vec D) (r : resolution) (grid : list (vec D)) : res (vec D) :=
  let gw := rw r in
  let gh := rh r in
  let gw1 := u64 (gw - 1) in
  let gh1 := u64 (gh - 1) in
  left <- to_size (nmul (vx uv) (nof gw1)) ;;
  top <- to_size (nmul (vy uv) (nof gh1)) ;;
  let right := Z.min gw1 (u64 (left + 1)) in
  let bottom := Z.min gh1 (u64 (top + 1)) in
  let cell_w : F := ndiv (nof 1) (nof gw1) in
  let cell_h : F := ndiv (nof 1) (nof gh1) in
  let xu : F := narrow (ndiv (nsub (vx uv) (widen (nmul cell_w (nof left)))) (widen cell_w)) in
  let yu : F := narrow (ndiv (nsub (vy uv) (widen (nmul cell_h (nof top)))) (widen cell_h)) in
  tl <- grid_at grid (u64 (left + u64 (top * gw))) ;;
  bl <- grid_at grid (u64 (left + u64 (bottom * gw))) ;;
  tr <- grid_at grid (u64 (right + u64 (top * gw))) ;;
  br <- grid_at grid (u64 (right + u64 (bottom * gw))) ;;
  let lerp a b (t : F) : F :=
    narrow (nadd (nmul a (widen (nsub (nof 1) t))) (nmul b (widen t))) in
  let x_left := lerp (vx tl) (vx bl) yu in
  let x_right := lerp (vx tr) (vx br) yu in
  let x := nadd x_left (nmul (nsub x_right x_left) xu) in
  let y_top := lerp (vy tl) (vy tr) xu in
  let y_bottom := lerp (vy bl) (vy br) xu in
  let y := nadd y_top (nmul (nsub y_bottom y_top) yu) in
  Ok (mkV (widen x) (widen y)).

(** [MagicLampAnimation::Private] (magiclamp.cpp:181-208). *)
Record lamp : Type := mkLampAnim {
  ml_params : lamp_params; ml_grid : list (vec D); ml_res : resolution;
  ml_progress : F; ml_stepper : St }.

(** The constructor (magiclamp.cpp:210-236). *)
Definition lamp_new (q : lamp_params) (r : resolution) (s : St) : res lamp :=
  let '(p, s1) := call s 0 in
  g <- move_grid q r p (init_grid r) ;;
  Ok (mkLampAnim q g r p s1).

(** [MagicLampAnimation::Step] (magiclamp.cpp:269-285). *)
Definition lamp_step (ms : Z) (a : lamp) : res (lamp * bool) :=
  let '(v, s1) := call (ml_stepper a) ms in
  let p := clamp_progress v in
  g <- move_grid (ml_params a) (ml_res a) p (ml_grid a) ;;
  Ok (mkLampAnim (ml_params a) g (ml_res a) p s1, more_progress p).

(** [MagicLampAnimation::Extremes] (magiclamp.cpp:240-261); the argument is
    ignored. *)
Definition lamp_extremes (a : lamp) : res (list (vec4 D)) :=
  let gw := rw (ml_res a) in
  let gh := rh (ml_res a) in
  let bl := u64 (u64 (gh - 1) * gw) in
  let corner k := (p <- grid_at (ml_grid a) k ;; Ok (mk4 (vx p) (vy p) (nof 0) (nof 1))) in
  c0 <- corner 0 ;;
  c1 <- corner (u64 (gw - 1)) ;;
  c2 <- corner bl ;;
  c3 <- corner (u64 (bl + gw - 1)) ;;
  Ok [c0; c1; c2; c3].

(** [MagicLampAnimation::DeformUVToModelSpace] (magiclamp.cpp:287-291). *)
Definition lamp_deform (a : lamp) (uv : vec D) : res (vec D) :=
  interpolate uv (ml_res a) (ml_grid a).

(** The settable properties (magiclamp.cpp:299-306): every setter stores its
    argument and nothing else; in particular [GridResolution] does not resize
    the grid. *)
Inductive lamp_op : Type :=
| MlStep (ms : Z)
| MlSetParams (q : lamp_params)      (* Source, Target, BendFactor, OffsetFactor,
                                        StretchFactor, DeformSpeedFactor *)
| MlSetResolution (r : resolution)
| MlSetStepper (s : St).

(** One call (magiclamp.cpp:269-306). *)
Definition lamp_do (a : lamp) (o : lamp_op) : res lamp :=
  match o with
  | MlStep ms => r <- lamp_step ms a ;; Ok (fst r)
  | MlSetParams q => Ok (mkLampAnim q (ml_grid a) (ml_res a) (ml_progress a) (ml_stepper a))
  | MlSetResolution r => Ok (mkLampAnim (ml_params a) (ml_grid a) r (ml_progress a) (ml_stepper a))
  | MlSetStepper s => Ok (mkLampAnim (ml_params a) (ml_grid a) (ml_res a) (ml_progress a) s)
  end.

(** A history of calls (magiclamp.cpp:269-306). *)
Fixpoint lamp_run (a : lamp) (ops : list lamp_op) : res lamp :=
  match ops with
  | [] => Ok a
  | o :: t => a' <- lamp_do a o ;; lamp_run a' t
  end.

End MagicLamp.

Arguments lamp_params F D : clear implicits.
Arguments lamp F D St : clear implicits.
Arguments lamp_op F D St : clear implicits.
