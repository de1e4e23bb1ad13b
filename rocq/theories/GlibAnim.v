(** * The GObject wrappers of steppers and animations

    Models [animation-glib/stepper/], [animation-glib/transform/],
    [animation-glib/grid/] and the wrappers of bounce, glide, zoom and magic
    lamp, on top of [Program] and [GlibParams].

    Simplifications.  Reference counts are left out: dropping the last reference
    to an object is a call of its own, and the reference a reverse stepper keeps
    to its base only delays that call ([GlibRefs] has the counts).  What GLib itself
    does (not part of /repo) is written out where it matters: [g_object_new]
    passes one construct parameter for each construct property of the class and
    its parents, parents first, holding the value given or the default of the
    specification; the constructor of [GObject] then sets each of them; a value
    outside the range of the specification is not set; a property that is not
    writable, or only during construction, is not set by [g_object_set]. *)

From Coq Require Import ZArith Bool List String.
From Verif Require Import Num Geometry Outcome Steppers Transforms MagicLamp Program GlibParams.
Import ListNotations.
Local Open Scope Z_scope.

Section GlibAnim.
Context {F D : Type} `{Num F} `{Num D} `{Conv F D} `{Libm F} `{Libm D}.

(** The steppers the GObject API can make: [Linear] (linear.h:32-39) and
    [Reverse] (reverse.h:34-41) of one of them. *)
Inductive gstepper : Type :=
| GLin (l : linear F)
| GRev (s : gstepper).

(** A call of such a stepper (linear.h:35-38, reverse.h:37-40). *)
Fixpoint gcall (s : gstepper) (ms : Z) : F * gstepper :=
  match s with
  | GLin l => let '(v, l') := linear_call l ms in (v, GLin l')
  | GRev b => let '(v, b') := reverse_call gcall b ms in (v, GRev b')
  end.

(** The native animation behind an object (transform.cpp:33-36, grid.cpp:33-36).
    *)
Definition ganim : Type := anim F D gstepper.

(** A stepper object: a holder owns a stepper (stepper-holder.cpp:37-40), a
    wrapper points at the stepper inside animation [a] (stepper-wrapper.cpp:37-40);
    [SGone] is finalized. *)
Inductive sobj : Type :=
| SHolder (s : gstepper)
| SWrapper (a : nat)
| SGone.

(** Stepper objects and animation objects, oldest first; a finalized animation
    is [None] (stepper-holder.cpp:37-40, stepper-wrapper.cpp:37-40,
    transform.cpp:33-36, grid.cpp:33-36). *)
Record gaworld : Type := mkGA { ga_steppers : list sobj; ga_anims : list (option ganim) }.

(** What a [GValue] of these classes can hold. A [G_TYPE_POINTER] is the native
    animation behind "interface" or the native stepper behind "stepper"
    (bounce.cpp:274-318, glide.cpp:298-364, zoom.cpp:251-269,
    magiclamp.cpp:362-424). *)
Inductive gvalue : Type :=
| VFloat (v : F)
| VUint (n : Z)
| VBox (b : option (box D))
| VVec (v : option (vec D))
| VObject (i : option nat)
| VInterface (a : option ganim)
| VStepper (s : option gstepper).

(** The test of [replace_named_pointer_prop_in_construct_params_if_null]
    (constructor-helpers.cpp:132-156). *)
Definition is_null (v : gvalue) : bool :=
  match v with
  | VBox None | VVec None | VObject None | VInterface None | VStepper None => true
  | _ => false
  end.

(** [g_value_get_float], [g_value_get_uint], [g_value_get_boxed] and
    [g_value_get_object]: zero or NULL for a NULL [GValue] and for a value of
    another type (as called in bounce.cpp:241-248 and
    constructor-helpers.h:82-135). *)
Definition get_float (v : option gvalue) : F := match v with Some (VFloat x) => x | _ => nzero end.
Definition get_uint (v : option gvalue) : Z := match v with Some (VUint n) => n | _ => 0 end.
Definition get_object (v : option gvalue) : option nat := match v with Some (VObject i) => i | _ => None end.
Definition get_box (v : option gvalue) : option (box D) := match v with Some (VBox b) => b | _ => None end.
Definition get_vec (v : option gvalue) : option (vec D) := match v with Some (VVec b) => b | _ => None end.

(** [animation_box_from_gvalue] (constructor-helpers.h:82-95). *)
Definition box_from (v : option gvalue) : box D :=
  match get_box v with
  | Some b => b
  | None => mkB (mkV nzero nzero) (mkV (nof 1) (nof 1))
  end.

(** [animation_point_size_t_from_gvalue] (constructor-helpers.h:108-117). *)
Definition size_from (v : option gvalue) : res resolution :=
  match get_vec v with
  | Some p => x <- to_size (vx p) ;; y <- to_size (vy p) ;; Ok (mkRes x y)
  | None => Ok (mkRes 0 0)
  end.

(** The native stepper of a stepper object, as [g_object_get (..., "stepper")]
    and the dereference of the pointer find it (stepper-holder.cpp:98-116,
    stepper-wrapper.cpp:86-104). *)
Definition read_stepper (w : gaworld) (i : nat) : res gstepper :=
  match nth_error (ga_steppers w) i with
  | Some (SHolder s) => Ok s
  | Some (SWrapper a) =>
      match nth_error (ga_anims w) a with
      | Some (Some x) => Ok (anim_stepper x)
      | _ => Err UseAfterFree
      end
  | _ => Err UseAfterFree
  end.

(** [animation_stepper_from_gvalue] (constructor-helpers.h:119-135). *)
Definition stepper_from (w : gaworld) (v : option gvalue) : res gstepper :=
  match get_object v with
  | Some i => read_stepper w i
  | None => Ok (GLin (linear_new (nof 300)))
  end.

Definition add_stepper (w : gaworld) (s : sobj) : gaworld :=
  mkGA (ga_steppers w ++ [s]) (ga_anims w).
Definition set_stepper_obj (w : gaworld) (i : nat) (s : sobj) : gaworld :=
  mkGA (list_set i s (ga_steppers w)) (ga_anims w).
Definition set_ganim (w : gaworld) (a : nat) (x : option ganim) : gaworld :=
  mkGA (ga_steppers w) (list_set a x (ga_anims w)).

(** ** Stepper classes *)

(** [animation_stepper_holder_constructor] (stepper-holder.cpp:131-152) and the
    setting of the property (stepper-holder.cpp:76-96), which copies. *)
Definition holder_default (ps : params gvalue) : params gvalue :=
  map (fun p => if String.eqb (fst p) "stepper" then
                  match snd p with
                  | VStepper None => (fst p, VStepper (Some (GLin (linear_new (nof 300)))))
                  | _ => p
                  end
                else p) ps.
Definition holder_set (ps : params gvalue) : option gstepper :=
  fold_left (fun s p => if String.eqb (fst p) "stepper" then
                          match snd p with VStepper s' => s' | _ => s end
                        else s) ps None.

(** [g_object_new (ANIMATION_TYPE_LINEAR_STEPPER, "length", ...)]
    (animation-glib/stepper/linear.cpp:81-105); 300 is the default of the
    specification (linear.cpp:121-128).  Setting "length" does nothing
    (linear.cpp:53-66). *)
Definition linear_object (length : option Z) : res sobj :=
  let ps := [("stepper"%string, VStepper None);
             ("length"%string, VUint (match length with Some n => n | None => 300 end))] in
  let t := values_for_specs ["length"%string] ps in
  let s := GLin (linear_new (nof (get_uint (lookup_gvalue ps t "length")))) in
  ps' <- replace_construct_param ps "stepper" (VStepper (Some s)) ;;
  s' <- of_option NullDeref (holder_set (holder_default ps')) ;;
  Ok (SHolder s').

(** [g_object_new (ANIMATION_TYPE_REVERSE_STEPPER, "base-stepper", ...)]
    (animation-glib/stepper/reverse.cpp:103-129). *)
Definition reverse_object (w : gaworld) (base : option nat) : res sobj :=
  let ps := [("stepper"%string, VStepper None); ("base-stepper"%string, VObject base)] in
  let t := values_for_specs ["base-stepper"%string] ps in
  b <- stepper_from w (lookup_gvalue ps t "base-stepper") ;;
  ps' <- replace_construct_param ps "stepper" (VStepper (Some (GRev b))) ;;
  s' <- of_option NullDeref (holder_set (holder_default ps')) ;;
  Ok (SHolder s').

(** [animation_stepper_step] (stepper.cpp:32-39), on a holder
    (stepper-holder.cpp:56-64) or a wrapper (stepper-wrapper.cpp:56-64). *)
Definition stepper_step (w : gaworld) (i : nat) (ms : Z) : res (gaworld * F) :=
  s <- read_stepper w i ;;
  let '(v, s') := gcall s ms in
  match nth_error (ga_steppers w) i with
  | Some (SWrapper a) =>
      match nth_error (ga_anims w) a with
      | Some (Some x) => Ok (set_ganim w a (Some (anim_set_stepper gcall s' x)), v)
      | _ => Err UseAfterFree
      end
  | _ => Ok (set_stepper_obj w i (SHolder s'), v)
  end.

(** Finalization of a holder (stepper-holder.cpp:118-129) deletes its copy, that
    of a wrapper (stepper-wrapper.cpp:106-117) the stepper it points at, which
    lies inside the animation. *)
Definition stepper_finalize (w : gaworld) (i : nat) : res gaworld :=
  match nth_error (ga_steppers w) i with
  | Some (SHolder _) => Ok (set_stepper_obj w i SGone)
  | Some (SWrapper a) =>
      match nth_error (ga_anims w) a with
      | Some (Some _) => Err BadFree
      | _ => Err UseAfterFree
      end
  | _ => Err UseAfterFree
  end.

(** ** Animation classes *)

(** The four classes (animation-glib/bounce, glide, zoom and magiclamp:
    bounce.cpp:37-48 and the same definitions in the other three). *)
Inductive aclass : Type := CBounce | CGlide | CZoom | CLamp.

Definition class_of (a : ganim) : aclass :=
  match a with ABounce _ => CBounce | AGlide _ => CGlide | AZoom _ => CZoom | ALamp _ => CLamp end.

(** Values given to [g_object_new]; [None] for a property that is not given and,
    for boxed values and objects, NULL (the default) (bounce.cpp:274-318,
    glide.cpp:298-364, zoom.cpp:251-269, magiclamp.cpp:362-424). *)
Inductive gargs : Type :=
| GBounce (initial maximum : option F) (n : option Z) (target : option (box D)) (stepper : option nat)
| GGlide (distance xrot yrot xaxis yaxis : option F) (width : option Z) (target : option (box D))
    (stepper : option nat)
| GZoom (from to : option (box D)) (stepper : option nat)
| GLamp (source target : option (box D)) (res : option (vec D)) (bend offset stretch speed : option F)
    (stepper : option nat).

(** The class named by the first argument of [g_object_new] (bounce.cpp:335-349,
    glide.cpp:384-404, zoom.cpp:284-295, magiclamp.cpp:443-459). *)
Definition gargs_class (c : gargs) : aclass :=
  match c with
  | GBounce _ _ _ _ _ => CBounce
  | GGlide _ _ _ _ _ _ _ _ => CGlide
  | GZoom _ _ _ => CZoom
  | GLamp _ _ _ _ _ _ _ _ => CLamp
  end.

(** The default of a specification (bounce.cpp:274-318, glide.cpp:298-364,
    magiclamp.cpp:362-424). *)
Definition or_default {A} (d : A) (o : option A) : A := match o with Some a => a | None => d end.

(** The construct parameters (transform.cpp:193-197 and grid.cpp:226-230 for
    "interface"; bounce.cpp:274-318, glide.cpp:298-364, zoom.cpp:251-269,
    magiclamp.cpp:362-424 with the defaults). *)
Local Open Scope string_scope.
Definition gargs_params (c : gargs) : params gvalue :=
  ("interface", VInterface None) ::
  match c with
  | GBounce i m n t s =>
      [("initial-scale", VFloat (or_default (nlit 7 10) i));
       ("maximum-scale", VFloat (or_default (nlit 12 10) m));
       ("n-bounce", VUint (or_default 1%Z n)); ("target", VBox t); ("stepper", VObject s)]
  | GGlide d xr yr xa ya wd t s =>
      [("initial-distance", VFloat (or_default (nlit (-3) 10) d));
       ("x-rotation-angle-degrees", VFloat (or_default (nof 0) xr));
       ("y-rotation-angle-degrees", VFloat (or_default (nof 0) yr));
       ("x-axis-location-unit", VFloat (or_default (nlit 2 10) xa));
       ("y-axis-location-unit", VFloat (or_default (nlit 5 10) ya));
       ("screen-width", VUint (or_default 1%Z wd)); ("target", VBox t); ("stepper", VObject s)]
  | GZoom f t s => [("from", VBox f); ("to", VBox t); ("stepper", VObject s)]
  | GLamp f t r b o st sp s =>
      [("source", VBox f); ("target", VBox t); ("resolution", VVec r);
       ("bend-factor", VFloat (or_default (nof 10) b)); ("offset-factor", VFloat (or_default (nlit 5 10) o));
       ("stretch-factor", VFloat (or_default (nlit 45 100) st));
       ("deform-speed-factor", VFloat (or_default (nlit 23 10) sp)); ("stepper", VObject s)]
  end.

(** The [wanted_properties] of the constructors (bounce.cpp:228-235,
    glide.cpp:246-256, zoom.cpp:210-215, magiclamp.cpp:310-320). *)
Definition wanted (k : aclass) : list string :=
  match k with
  | CBounce => ["initial-scale"; "maximum-scale"; "n-bounce"; "target"; "stepper"]
  | CGlide => ["initial-distance"; "x-rotation-angle-degrees"; "y-rotation-angle-degrees";
               "x-axis-location-unit"; "y-axis-location-unit"; "screen-width"; "target"; "stepper"]
  | CZoom => ["from"; "to"; "stepper"]
  | CLamp => ["source"; "target"; "resolution"; "bend-factor"; "offset-factor"; "stretch-factor";
              "deform-speed-factor"; "stepper"]
  end.

(** The arguments forwarded to the native constructor (bounce.cpp:241-248,
    glide.cpp:262-272, zoom.cpp:221-226, magiclamp.cpp:326-336). *)
Definition native_args (k : aclass) (ps : params gvalue) : res (anim_args F D) :=
  let v := lookup_gvalue ps (values_for_specs (wanted k) ps) in
  match k with
  | CBounce =>
      Ok (NewBounce (get_float (v "initial-scale")) (get_float (v "maximum-scale"))
            (get_uint (v "n-bounce")) (box_from (v "target")))
  | CGlide =>
      Ok (NewGlide (get_float (v "initial-distance")) (get_float (v "x-rotation-angle-degrees"))
            (get_float (v "y-rotation-angle-degrees")) (get_float (v "x-axis-location-unit"))
            (get_float (v "y-axis-location-unit")) (get_uint (v "screen-width")) (box_from (v "target")))
  | CZoom => Ok (NewZoom (box_from (v "from")) (box_from (v "to")))
  | CLamp =>
      r <- size_from (v "resolution") ;;
      Ok (NewLamp (mkLamp (box_from (v "source")) (box_from (v "target")) (get_float (v "bend-factor"))
            (get_float (v "offset-factor")) (get_float (v "stretch-factor"))
            (get_float (v "deform-speed-factor"))) r)
  end.
Definition native_stepper (w : gaworld) (k : aclass) (ps : params gvalue) : res gstepper :=
  stepper_from w (lookup_gvalue ps (values_for_specs (wanted k) ps) "stepper").

(** The ranges of the property specifications (bounce.cpp:274-318,
    glide.cpp:298-364, magiclamp.cpp:362-424). *)
Definition float_ok (lo v hi : F) : bool := nleb lo v && nleb v hi.
Definition uint_ok (lo n hi : Z) : bool := (lo <=? n)%Z && (n <=? hi)%Z.
Definition valid (k : aclass) (name : string) (v : gvalue) : bool :=
  match k, v with
  | CBounce, VFloat x =>
      if String.eqb name "initial-scale" then float_ok (nlit 1 10) x (nof 1)
      else if String.eqb name "maximum-scale" then float_ok (nof 1) x (nof 3) else true
  | CBounce, VUint n => if String.eqb name "n-bounce" then uint_ok 1 n 10 else true
  | CGlide, VFloat x =>
      if String.eqb name "initial-distance" then float_ok (nof (-1)) x (nof 1)
      else if String.eqb name "x-rotation-angle-degrees" then float_ok (nof (-360)) x (nof 360)
      else if String.eqb name "y-rotation-angle-degrees" then float_ok (nof (-360)) x (nof 360)
      else if String.eqb name "x-axis-location-unit" then float_ok (nof 0) x (nof 1)
      else if String.eqb name "y-axis-location-unit" then float_ok (nof 0) x (nof 1) else true
  | CGlide, VUint n => if String.eqb name "screen-width" then uint_ok 1 n (2 ^ 32 - 1) else true
  | CLamp, VFloat x =>
      if String.eqb name "bend-factor" then float_ok (nof 1) x (nof 20)
      else if String.eqb name "offset-factor" then float_ok (nlit 1 10) x (nof 1)
      else if String.eqb name "stretch-factor" then float_ok (nlit 2 10) x (nof 1)
      else if String.eqb name "deform-speed-factor" then float_ok (nof 1) x (nof 4) else true
  | _, _ => true
  end.

(** [set_stepper] (bounce.cpp:123-131, glide.cpp:128-136, zoom.cpp:110-118,
    magiclamp.cpp:169-177): a NULL stepper object leaves a NULL pointer, which
    is dereferenced. *)
Definition set_stepper (w : gaworld) (i : option nat) (a : ganim) : res ganim :=
  match i with
  | None => Err NullDeref
  | Some i => s <- read_stepper w i ;; Ok (anim_set_stepper gcall s a)
  end.

(** Magic lamp setters, each of one parameter (magiclamp.cpp:64-72, 117-161). *)
Definition lamp_set (q : lamp_params F D) (name : string) (x : F) : lamp_params F D :=
  if String.eqb name "bend-factor" then
    mkLamp (lp_source q) (lp_target q) x (lp_offset q) (lp_stretch q) (lp_speed q)
  else if String.eqb name "offset-factor" then
    mkLamp (lp_source q) (lp_target q) (lp_bend q) x (lp_stretch q) (lp_speed q)
  else if String.eqb name "stretch-factor" then
    mkLamp (lp_source q) (lp_target q) (lp_bend q) (lp_offset q) x (lp_speed q)
  else if String.eqb name "deform-speed-factor" then
    mkLamp (lp_source q) (lp_target q) (lp_bend q) (lp_offset q) (lp_stretch q) x
  else q.
Definition with_params (l : lamp F D gstepper) (q : lamp_params F D) : lamp F D gstepper :=
  mkLampAnim q (ml_grid l) (ml_res l) (ml_progress l) (ml_stepper l).

(** The functions [animation_..._set_...] for one number (bounce.cpp:68-99,
    glide.cpp:63-120), and [set_from] (zoom.cpp:57-65). *)
Definition set_float (name : string) (x : F) (a : ganim) : ganim :=
  match a with
  | ABounce b =>
      if String.eqb name "initial-scale" then ABounce (bounce_do gcall b (BnSetInitial x))
      else if String.eqb name "maximum-scale" then ABounce (bounce_do gcall b (BnSetMaximum x))
      else a
  | AGlide b =>
      if String.eqb name "initial-distance" then AGlide (glide_do gcall b (GlSetDistance x))
      else if String.eqb name "x-rotation-angle-degrees" then AGlide (glide_do gcall b (GlSetXRot x))
      else if String.eqb name "y-rotation-angle-degrees" then AGlide (glide_do gcall b (GlSetYRot x))
      else if String.eqb name "x-axis-location-unit" then AGlide (glide_do gcall b (GlSetXAxis x))
      else if String.eqb name "y-axis-location-unit" then AGlide (glide_do gcall b (GlSetYAxis x))
      else a
  | AZoom _ => a
  | ALamp l => ALamp (with_params l (lamp_set (ml_params l) name x))
  end.
Definition set_uint (name : string) (n : Z) (a : ganim) : ganim :=
  match a with
  | ABounce b => if String.eqb name "n-bounce" then ABounce (bounce_do gcall b (BnSetN n)) else a
  | _ => a
  end.
Definition set_box (name : string) (bx : option (box D)) (a : ganim) : ganim :=
  match a, bx with
  | AZoom z, Some b => if String.eqb name "from" then AZoom (zoom_do gcall z (ZmSetFrom b)) else a
  | ALamp l, Some b =>
      if String.eqb name "source" then
        let q := ml_params l in
        ALamp (with_params l (mkLamp b (lp_target q) (lp_bend q) (lp_offset q) (lp_stretch q) (lp_speed q)))
      else a
  | _, _ => a
  end.

(** What the functions [animation_..._set_<name>] other than [set_stepper]
    take; none of them checks the range of a number (bounce.cpp:68-99,
    glide.cpp:63-120, zoom.cpp:57-65, magiclamp.cpp:64-72, 117-161). *)
Inductive setting : Type :=
| SetFloat (v : F)
| SetUint (n : Z)
| SetBox (b : box D).
Definition set_to (name : string) (v : setting) (a : ganim) : ganim :=
  match v with
  | SetFloat v => set_float name v a
  | SetUint n => set_uint name n a
  | SetBox b => set_box name (Some b) a
  end.

(** [set_property] of the classes (bounce.cpp:147-177, glide.cpp:152-190,
    zoom.cpp:134-160, magiclamp.cpp:193-236). *)
Definition set_property (w : gaworld) (name : string) (v : gvalue) (a : ganim) : res ganim :=
  match v with
  | VFloat x => Ok (set_float name x a)
  | VUint n => Ok (set_uint name n a)
  | VBox b => Ok (set_box name b a)
  | VObject i => if String.eqb name "stepper" then set_stepper w i a else Ok a
  | _ => Ok a
  end.

(** The constructor of [GObject] sets the construct parameters in turn; [a] is
    what the property "interface" (transform.cpp:137-139, grid.cpp:170-172) has been set to so
    far. *)
Fixpoint set_construct (w : gaworld) (k : aclass) (ps : params gvalue) (a : option ganim)
  : res (option ganim) :=
  match ps with
  | [] => Ok a
  | (name, VInterface x) :: r => set_construct w k r x
  | (name, v) :: r =>
      if valid k name v then
        x <- of_option NullDeref a ;;
        x' <- set_property w name v x ;;
        set_construct w k r (Some x')
      else set_construct w k r a
  end.

(** [g_object_new] through the constructors (bounce.cpp:214-257,
    glide.cpp:231-281, zoom.cpp:196-235, magiclamp.cpp:281-345).  The default
    stepper object made here is never freed ([g_value_set_object] takes a
    reference of its own) and nobody else can reach it; it exists in [w1] only. *)
Definition anim_object (w : gaworld) (c : gargs) : res ganim :=
  let k := gargs_class c in
  r1 <- replace_if_null is_null (gargs_params c) "stepper" (VObject (Some (List.length (ga_steppers w)))) ;;
  default <- linear_object (Some 300%Z) ;;
  let w1 := if snd r1 then add_stepper w default else w in
  r2 <- match k with
        | CLamp => replace_if_null is_null (fst r1) "resolution" (VVec (Some (mkV (nof 10) (nof 10))))
        | _ => Ok (fst r1, false)
        end ;;
  let ps := fst r2 in
  args <- native_args k ps ;;
  s <- native_stepper w1 k ps ;;
  native <- anim_new gcall args s ;;
  ps' <- replace_construct_param ps "interface" (VInterface (Some native)) ;;
  r <- set_construct w1 k ps' None ;;
  a <- of_option NullDeref r ;;
  Ok a.

(** [g_object_set] of a property: only writable ones outside construction (the
    flags in the ranges cited above) (bounce.cpp:274-318, glide.cpp:298-364,
    zoom.cpp:251-269, magiclamp.cpp:362-424). *)
Definition settable (k : aclass) : list string :=
  match k with
  | CBounce => ["initial-scale"; "maximum-scale"; "n-bounce"; "stepper"]
  | CGlide => ["initial-distance"; "x-rotation-angle-degrees"; "y-rotation-angle-degrees";
               "x-axis-location-unit"; "y-axis-location-unit"; "stepper"]
  | CZoom => ["from"; "stepper"]
  | CLamp => ["source"; "bend-factor"; "offset-factor"; "deform-speed-factor"; "stepper"]
  end.
Definition object_set (w : gaworld) (name : string) (v : gvalue) (a : ganim) : res ganim :=
  if existsb (String.eqb name) (settable (class_of a)) && valid (class_of a) name v
  then set_property w name v a else Ok a.

(** The animation object [a] (the private data of transform.cpp:33-36 and
    grid.cpp:33-36). *)
Definition the_ganim (w : gaworld) (a : nat) : res ganim :=
  match nth_error (ga_anims w) a with
  | Some (Some x) => Ok x
  | _ => Err UseAfterFree
  end.

(** The getters (bounce.cpp:62-121, glide.cpp:70-126, zoom.cpp:74-108,
    magiclamp.cpp:81-167); [None] when the class has no such property. *)
Definition read_float (name : string) (a : ganim) : option F :=
  match a with
  | ABounce b =>
      if String.eqb name "initial-scale" then Some (bn_initial b)
      else if String.eqb name "maximum-scale" then Some (bn_maximum b) else None
  | AGlide b =>
      if String.eqb name "initial-distance" then Some (gl_distance b)
      else if String.eqb name "x-rotation-angle-degrees" then Some (gl_xrot b)
      else if String.eqb name "y-rotation-angle-degrees" then Some (gl_yrot b)
      else if String.eqb name "x-axis-location-unit" then Some (gl_xaxis b)
      else if String.eqb name "y-axis-location-unit" then Some (gl_yaxis b) else None
  | AZoom _ => None
  | ALamp l =>
      let q := ml_params l in
      if String.eqb name "bend-factor" then Some (lp_bend q)
      else if String.eqb name "offset-factor" then Some (lp_offset q)
      else if String.eqb name "stretch-factor" then Some (lp_stretch q)
      else if String.eqb name "deform-speed-factor" then Some (lp_speed q) else None
  end.
Definition read_uint (name : string) (a : ganim) : option Z :=
  match a with
  | ABounce b => if String.eqb name "n-bounce" then Some (bn_n b) else None
  | _ => None
  end.
Definition read_box (name : string) (a : ganim) : option (box D) :=
  match a with
  | ABounce b => if String.eqb name "target" then Some (bn_target b) else None
  | AGlide _ => None
  | AZoom z =>
      if String.eqb name "from" then Some (zm_from z)
      else if String.eqb name "to" then Some (zm_to z) else None
  | ALamp l =>
      if String.eqb name "source" then Some (lp_source (ml_params l))
      else if String.eqb name "target" then Some (lp_target (ml_params l)) else None
  end.

(** ** The convenience constructors *)

(** [animation_bounce_new] (bounce.cpp:335-349). *)
Definition bounce_object_new (initial maximum : F) (n : Z) (target : option (box D)) (stepper : option nat) : gargs :=
  GBounce (Some initial) (Some maximum) (Some n) target stepper.
(** [animation_glide_new] (glide.cpp:384-404): "length" is not a property of the
    class and is dropped by [g_object_new]. *)
Definition glide_object_new (distance xrot yrot xaxis yaxis : F) (width : Z) (target : option (box D))
    (length : Z) : gargs :=
  GGlide (Some distance) (Some xrot) (Some yrot) (Some xaxis) (Some yaxis) (Some width) target None.
(** [animation_zoom_new] (zoom.cpp:284-295). *)
Definition zoom_object_new (current from to : option (box D)) (stepper : option nat) : gargs :=
  GZoom from to stepper.
(** [animation_magiclamp_new] (magiclamp.cpp:443-459). *)
Definition lamp_object_new (source target : option (box D)) (r : option (vec D))
    (bend offset stretch speed : F) (stepper : option nat) : gargs :=
  GLamp source target r None None None None stepper.

(** ** Histories *)

(** The calls of a client (stepper.h, transform.h, grid.h and the headers of the
    four classes in animation-glib: stepper.cpp:32-39, transform.cpp:50-127,
    grid.cpp:50-163). *)
Inductive gaop : Type :=
| ANewLinear (length : option Z)          (* animation_linear_stepper_new *)
| ANewReverse (base : option nat)         (* animation_reverse_stepper_new *)
| AStepperStep (i : nat) (ms : Z)         (* animation_stepper_step *)
| AStepperFinalize (i : nat)
| ANew (c : gargs)                        (* g_object_new of an animation *)
| AStep (a : nat) (ms : Z)                (* animation_..._animation_step *)
| ASetStepper (a : nat) (i : option nat)  (* animation_..._set_stepper *)
| AGetStepper (a : nat)                   (* animation_..._get_stepper *)
| ASetTo (a : nat) (name : string) (v : setting) (* animation_..._set_<name> *)
| ASet (a : nat) (name : string) (v : gvalue) (* g_object_set *)
| AFinalize (a : nat).

(** What a call returns (stepper.cpp:32-39, transform.cpp:50-58,
    grid.cpp:50-58). *)
Inductive gaout : Type :=
| RNone
| RValue (v : F)
| RMore (b : bool)
| RStepper (i : nat)
| RAnim (a : nat).

(** [animation_transform_animation_step] (transform.cpp:50-58),
    [animation_grid_animation_step] (grid.cpp:50-58) and the functions cited
    above.  Finalization of an animation deletes the native one
    (transform.cpp:165-176, grid.cpp:198-209). *)
Definition ga_do (w : gaworld) (o : gaop) : res (gaworld * gaout) :=
  match o with
  | ANewLinear n =>
      s <- linear_object n ;; Ok (add_stepper w s, RStepper (List.length (ga_steppers w)))
  | ANewReverse b =>
      s <- reverse_object w b ;; Ok (add_stepper w s, RStepper (List.length (ga_steppers w)))
  | AStepperStep i ms => r <- stepper_step w i ms ;; Ok (fst r, RValue (snd r))
  | AStepperFinalize i => w' <- stepper_finalize w i ;; Ok (w', RNone)
  | ANew c =>
      x <- anim_object w c ;;
      Ok (mkGA (ga_steppers w) (ga_anims w ++ [Some x]), RAnim (List.length (ga_anims w)))
  | AStep a ms =>
      x <- the_ganim w a ;; r <- anim_step gcall ms x ;; Ok (set_ganim w a (Some (fst r)), RMore (snd r))
  | ASetStepper a i =>
      x <- the_ganim w a ;; x' <- set_stepper w i x ;; Ok (set_ganim w a (Some x'), RNone)
  | AGetStepper a =>
      x <- the_ganim w a ;; Ok (add_stepper w (SWrapper a), RStepper (List.length (ga_steppers w)))
  | ASetTo a name v =>
      x <- the_ganim w a ;; Ok (set_ganim w a (Some (set_to name v x)), RNone)
  | ASet a name v =>
      x <- the_ganim w a ;; x' <- object_set w name v x ;; Ok (set_ganim w a (Some x'), RNone)
  | AFinalize a => x <- the_ganim w a ;; Ok (set_ganim w a None, RNone)
  end.

Fixpoint ga_run (w : gaworld) (ops : list gaop) : res (gaworld * list gaout) :=
  match ops with
  | [] => Ok (w, [])
  | o :: t =>
      r <- ga_do w o ;;
      r' <- ga_run (fst r) t ;;
      Ok (fst r', snd r :: snd r')
  end.

Definition ga_start : gaworld := mkGA [] [].

End GlibAnim.

Arguments gstepper F : clear implicits.
Arguments ganim F D : clear implicits.
Arguments sobj F : clear implicits.
Arguments gaworld F D : clear implicits.
Arguments gvalue F D : clear implicits.
Arguments gargs F D : clear implicits.
Arguments gaop F D : clear implicits.
Arguments gaout F : clear implicits.
