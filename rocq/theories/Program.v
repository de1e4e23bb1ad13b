(** * Programs that use steppers and animations together

    A caller holds stepper variables ([animation::stepper::Stepper], a
    [std::function] and so a value: copying one copies the captured state) and
    animation objects.  This file models what a sequence of calls does to both:
    which stepper state each call advances and which calls copy one.

    [F] is [float], [D] is [double]. *)

From Coq Require Import ZArith Bool List.
From Verif Require Import Num Geometry Outcome Steppers Transforms MagicLamp.
Import ListNotations.
Local Open Scope Z_scope.

Section Programs.
Context {F D : Type} `{Num F} `{Num D} `{Conv F D} `{Libm F} `{Libm D}.
Context {St : Type} (call : St -> Z -> F * St).

(** The four animations with a [Step] (bounce.h, glide.h, zoom.h,
    magiclamp.h). *)
Inductive anim : Type :=
| ABounce (a : bounce F D St)
| AGlide (a : glide F D St)
| AZoom (a : zoom F D St)
| ALamp (a : lamp F D St).

(** The arguments of their constructors other than the stepper
    (bounce.cpp:203-215, glide.cpp:220-238, zoom.cpp:202-208,
    magiclamp.cpp:308-328). *)
Inductive anim_args : Type :=
| NewBounce (initial maximum : F) (n : Z) (target : box D)
| NewGlide (distance xrot yrot xaxis yaxis : F) (width : Z) (target : box D)
| NewZoom (from to : box D)
| NewLamp (q : lamp_params F D) (r : resolution).

(** The animation built by a constructor from stepper state [s]
    (bounce.cpp:203-215, glide.cpp:220-238, zoom.cpp:202-208,
    magiclamp.cpp:308-328). *)
Definition anim_new (c : anim_args) (s : St) : res anim :=
  match c with
  | NewBounce i m n t => Ok (ABounce (bounce_new call i m n t s))
  | NewGlide d xr yr xa ya w t => Ok (AGlide (glide_new call d xr yr xa ya w t s))
  | NewZoom f t => Ok (AZoom (zoom_new call f t s))
  | NewLamp q r => a <- lamp_new call q r s ;; Ok (ALamp a)
  end.

(** [Step] (transform.h:41, grid.h:42; bounce.cpp:176-189, glide.cpp:189-205,
    zoom.cpp:179-190, magiclamp.cpp:269-285). *)
Definition anim_step (ms : Z) (a : anim) : res (anim * bool) :=
  match a with
  | ABounce b => let '(b', r) := bounce_step call ms b in Ok (ABounce b', r)
  | AGlide b => let '(b', r) := glide_step call ms b in Ok (AGlide b', r)
  | AZoom b => let '(b', r) := zoom_step call ms b in Ok (AZoom b', r)
  | ALamp b => '(b', r) <- lamp_step call ms b ;; Ok (ALamp b', r)
  end.

(** [Progress ()] (transform.h:40, grid.h:41). *)
Definition anim_progress (a : anim) : F :=
  match a with
  | ABounce b => bn_progress b
  | AGlide b => gl_progress b
  | AZoom b => zm_progress b
  | ALamp b => ml_progress b
  end.

(** The stepper an animation stores (property.h:35-42). *)
Definition anim_stepper (a : anim) : St :=
  match a with
  | ABounce b => bn_stepper b
  | AGlide b => gl_stepper b
  | AZoom b => zm_stepper b
  | ALamp b => ml_stepper b
  end.

(** The setter of [Stepper] (property.h:35-42): the stepper is copied. *)
Definition anim_set_stepper (s : St) (a : anim) : anim :=
  match a with
  | ABounce b => ABounce (bounce_do call b (BnSetStepper s))
  | AGlide b => AGlide (glide_do call b (GlSetStepper s))
  | AZoom b => AZoom (zoom_do call b (ZmSetStepper s))
  | ALamp b =>
      ALamp (mkLampAnim (ml_params b) (ml_grid b) (ml_res b) (ml_progress b) s)
  end.

(** What a caller holds. A destroyed animation is [None] (stepper.h:33,
    bounce.h:36-63, glide.h:36-68, zoom.h:35-58, magiclamp.h:36-70). *)
Record world : Type := mkWorld { w_steppers : list St; w_anims : list (option anim) }.

(** What a caller can do (stepper.h:33, bounce.h:36-63, glide.h:36-68,
    zoom.h:35-58, magiclamp.h:36-70). *)
Inductive world_op : Type :=
| WStepper (s : St)             (* Stepper t = Linear (...) *)
| WCopy (i : nat)               (* Stepper t = s_i *)
| WCall (i : nat) (ms : Z)      (* s_i (ms) *)
| WNew (c : anim_args) (i : nat) (* an animation constructed with s_i *)
| WStep (a : nat) (ms : Z)      (* a.Step (ms) *)
| WSetStepper (a i : nat)       (* a.Stepper (s_i) *)
| WGetStepper (a : nat)         (* Stepper t = a.Stepper () *)
| WDestroy (a : nat).

(** An animation or a stepper the caller names; a destroyed animation
    (transform.h:38, grid.h:38) must not be used. *)
Definition the_anim (w : world) (a : nat) : res anim :=
  match nth_error (w_anims w) a with
  | Some (Some x) => Ok x
  | _ => Err UseAfterFree
  end.
Definition the_stepper (w : world) (i : nat) : res St :=
  of_option UseAfterFree (nth_error (w_steppers w) i).
Definition set_anim (w : world) (a : nat) (x : option anim) : world :=
  mkWorld (w_steppers w) (list_set a x (w_anims w)).

(** One call.  The constructors take the stepper by reference, call it with 0
    and then copy it (bounce.cpp:146-147, glide.cpp:156-157, zoom.cpp:151-152,
    magiclamp.cpp:224-225): [std::function::operator()] is [const], so the call
    advances the caller's stepper. *)
Definition world_do (w : world) (o : world_op) : res world :=
  match o with
  | WStepper s => Ok (mkWorld (w_steppers w ++ [s]) (w_anims w))
  | WCopy i => s <- the_stepper w i ;; Ok (mkWorld (w_steppers w ++ [s]) (w_anims w))
  | WCall i ms =>
      s <- the_stepper w i ;;
      Ok (mkWorld (list_set i (snd (call s ms)) (w_steppers w)) (w_anims w))
  | WNew c i =>
      s <- the_stepper w i ;;
      x <- anim_new c s ;;
      Ok (mkWorld (list_set i (snd (call s 0)) (w_steppers w)) (w_anims w ++ [Some x]))
  | WStep a ms => x <- the_anim w a ;; r <- anim_step ms x ;; Ok (set_anim w a (Some (fst r)))
  | WSetStepper a i =>
      x <- the_anim w a ;; s <- the_stepper w i ;;
      Ok (set_anim w a (Some (anim_set_stepper s x)))
  | WGetStepper a =>
      x <- the_anim w a ;; Ok (mkWorld (w_steppers w ++ [anim_stepper x]) (w_anims w))
  | WDestroy a => x <- the_anim w a ;; Ok (set_anim w a None)
  end.

Fixpoint world_run (w : world) (ops : list world_op) : res world :=
  match ops with
  | [] => Ok w
  | o :: t => w' <- world_do w o ;; world_run w' t
  end.

(** A sequence of [Step]s of one animation, with the value of [Progress ()] and
    the result of each (transform.h:40-41, grid.h:41-42). *)
Fixpoint anim_steps (a : anim) (ts : list Z) : res (anim * list (F * bool)) :=
  match ts with
  | [] => Ok (a, [])
  | t :: l =>
      '(a1, r) <- anim_step t a ;;
      '(a2, rs) <- anim_steps a1 l ;;
      Ok (a2, (anim_progress a1, r) :: rs)
  end.

End Programs.

Arguments anim F D St : clear implicits.
Arguments anim_args F D : clear implicits.
Arguments world F D St : clear implicits.
Arguments world_op F D St : clear implicits.
