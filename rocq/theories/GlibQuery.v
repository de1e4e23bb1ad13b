(** * What the GObject wrappers of animations report

    Models the query functions of [animation-glib/transform/transform.cpp] and
    [animation-glib/grid/grid.cpp] and [g_object_get] of the four classes, on top
    of [GlibAnim].

    Simplification: a query function of transform animations called on a grid
    animation, or the other way round, finds memory of another layout; the model
    reports [OutOfBounds]. *)

From Coq Require Import ZArith Bool String List.
From Verif Require Import Num Geometry Outcome Steppers Transforms MagicLamp Program GlibParams GlibAnim.
Import ListNotations.
Local Open Scope Z_scope.

Section GlibQuery.
Context {F D : Type} `{Num F} `{Num D} `{Conv F D} `{Libm F} `{Libm D}.

(** The matrix inside a transform animation: [Matrix ()] returns a pointer to it
    (bounce.cpp:191-195, glide.cpp:207-211, zoom.cpp:192-196). *)
Definition anim_matrix (a : ganim F D) : res (mat4 F) :=
  match a with
  | ABounce b => Ok (bn_transform b)
  | AGlide b => Ok (gl_transform b)
  | AZoom b => Ok (zm_transform b)
  | ALamp _ => Err OutOfBounds
  end.
(** [glm::value_ptr]: the columns one after the other (bounce.cpp:194,
    glide.cpp:210, zoom.cpp:195). *)
Definition m_entries (m : mat4 F) : list F :=
  let col v := [v4x v; v4y v; v4z v; v4w v] in
  (col (c0 m) ++ col (c1 m) ++ col (c2 m) ++ col (c3 m))%list.

(** The four corners of a surface (transform.cpp:91-118, grid.cpp:127-154). *)
Definition four (A : Type) : Type := (A * A * A * A)%type.

(** [Extremes] (bounce.cpp:159-168, glide.cpp:172-181, zoom.cpp:162-171,
    magiclamp.cpp:240-261). *)
Definition anim_extremes (a : ganim F D) (cs : four (vec D)) : res (list (vec4 D)) :=
  let '(p, q, r, s) := cs in
  match a with
  | ABounce b => Ok (map (bounce_extreme b) [p; q; r; s])
  | AGlide b => Ok (map (glide_extreme b) [p; q; r; s])
  | AZoom b => Ok (map (zoom_extreme b) [p; q; r; s])
  | ALamp l => lamp_extremes l
  end.

(** [animation_grid_animation_deform_uv_to_model_space] (grid.cpp:71-87). *)
Definition anim_deform (a : ganim F D) (uv : vec D) : res (vec D) :=
  match a with ALamp l => lamp_deform l uv | _ => Err OutOfBounds end.
(** [animation_grid_animation_resolution] (grid.cpp:99-113): [size_t] to
    [double]. *)
Definition anim_resolution (a : ganim F D) : res (vec D) :=
  match a with ALamp l => Ok (mkV (nof (rw (ml_res l))) (nof (rh (ml_res l)))) | _ => Err OutOfBounds end.

(** Properties with [G_PARAM_READABLE] (bounce.cpp:274-320, glide.cpp:298-364,
    zoom.cpp:251-269, magiclamp.cpp:362-424). *)
Definition readable (k : aclass) : list string :=
  match k with
  | CBounce => ["initial-scale"; "maximum-scale"; "n-bounce"; "target"; "stepper"]
  | CGlide => ["initial-distance"; "x-rotation-angle-degrees"; "y-rotation-angle-degrees";
               "x-axis-location-unit"; "y-axis-location-unit"; "stepper"]
  | CZoom => ["from"; "to"; "stepper"]
  | CLamp => ["source"; "target"; "bend-factor"; "offset-factor"; "deform-speed-factor"; "stepper"]
  end%string.

(** What a client holds: its objects, and the pointers [..._matrix] returned, by
    the animation they point into (transform.cpp:70-77). *)
Record qworld : Type := mkQW { qw_objects : gaworld F D; qw_views : list nat }.

(** The calls of a client (transform.cpp:50-127, grid.cpp:50-163). *)
Inductive qop : Type :=
| QCall (o : gaop F D)                    (* a call of [GlibAnim] *)
| QGet (a : nat) (name : string)          (* g_object_get *)
| QMatrix (a : nat)                       (* animation_transform_animation_matrix *)
| QRead (p k : nat)                       (* the client reads entry k through pointer p *)
| QProgress (a : nat)                     (* animation_..._animation_progress *)
| QExtremes (a : nat) (corners : option (four (vec D))) (out : bool) (* _extremes; out: not NULL *)
| QDeform (a : nat) (uv : vec D) (out : bool)
| QResolution (a : nat) (out : bool).

(** What they return (transform.cpp:50-127, grid.cpp:50-163). *)
Inductive qout : Type :=
| QOut (u : gaout F)
| QValue (v : option (gvalue F D))       (* None: a warning, and no value *)
| QView (p : nat)
| QNumber (v : F)
| QCorners (cs : list (vec4 D))
| QPoint (p : vec D)
| QNothing.                               (* g_return_if_fail *)

(** The getters behind [get_property] (bounce.cpp:179-212, glide.cpp:192-229,
    zoom.cpp:162-194, magiclamp.cpp:238-279): the magic lamp has no case for
    "stepper". *)
Definition property_value (name : string) (a : ganim F D) : option (gvalue F D) :=
  match read_float name a, read_uint name a, read_box name a with
  | Some v, _, _ => Some (VFloat v)
  | _, Some n, _ => Some (VUint n)
  | _, _, Some b => Some (VBox (Some b))
  | _, _, _ => None
  end.
Definition get_property (w : gaworld F D) (a : nat) (x : ganim F D) (name : string) : gaworld F D * qout :=
  if existsb (String.eqb name) (readable (class_of x)) then
    if String.eqb name "stepper" then
      match class_of x with
      | CLamp => (w, QValue None)
      | _ => (add_stepper w (SWrapper a), QValue (Some (VObject (Some (List.length (ga_steppers w))))))
      end
    else (w, QValue (property_value name x))
  else (w, QValue None).

(** One call.  [animation_transform_animation_matrix] (transform.cpp:70-77),
    [..._extremes] (transform.cpp:91-118, grid.cpp:127-154), [..._progress]
    (transform.cpp:120-127, grid.cpp:156-163). *)
Definition q_do (q : qworld) (o : qop) : res (qworld * qout) :=
  let w := qw_objects q in
  match o with
  | QCall c => r <- ga_do w c ;; Ok (mkQW (fst r) (qw_views q), QOut (snd r))
  | QGet a name =>
      x <- the_ganim w a ;;
      let r := get_property w a x name in Ok (mkQW (fst r) (qw_views q), snd r)
  | QMatrix a =>
      x <- the_ganim w a ;; m <- anim_matrix x ;;
      Ok (mkQW w (qw_views q ++ [a]), QView (List.length (qw_views q)))
  | QRead p k =>
      a <- of_option UseAfterFree (nth_error (qw_views q) p) ;;
      x <- the_ganim w a ;; m <- anim_matrix x ;;
      v <- of_option OutOfBounds (nth_error (m_entries m) k) ;;
      Ok (q, QNumber v)
  | QProgress a => x <- the_ganim w a ;; Ok (q, QNumber (anim_progress x))
  | QExtremes a cs out =>
      match cs, out with
      | Some cs, true => x <- the_ganim w a ;; es <- anim_extremes x cs ;; Ok (q, QCorners es)
      | _, _ => Ok (q, QNothing)
      end
  | QDeform a uv out =>
      x <- the_ganim w a ;;
      if out then p <- anim_deform x uv ;; Ok (q, QPoint p) else Ok (q, QNothing)
  | QResolution a out =>
      x <- the_ganim w a ;;
      if out then p <- anim_resolution x ;; Ok (q, QPoint p) else Ok (q, QNothing)
  end.

Fixpoint q_run (q : qworld) (ops : list qop) : res (qworld * list qout) :=
  match ops with
  | [] => Ok (q, [])
  | o :: t =>
      r <- q_do q o ;;
      r' <- q_run (fst r) t ;;
      Ok (fst r', snd r :: snd r')
  end.

Definition q_start : qworld := mkQW ga_start [].

End GlibQuery.

Arguments qworld F D : clear implicits.
Arguments qop F D : clear implicits.
Arguments qout F D : clear implicits.
