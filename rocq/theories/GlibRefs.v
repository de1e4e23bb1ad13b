(** * Reference counts of the GObject steppers and animations

    [GlibAnim] lets a history say when an object is finalized.  Here a client
    takes and drops references, as with [g_object_ref] and [g_object_unref], and
    the counts decide.  A call of the client becomes the calls of [GlibAnim] it
    leads to.

    What GLib does (not part of /repo): a new object has one reference, which
    belongs to the caller of [g_object_new]; a [GValue] of an object holds a
    reference until it is unset, and [g_object_new] unsets the values of the
    construct parameters after construction; when the last reference is dropped
    the object is disposed and then finalized.  Weak and toggle references,
    floating references, and references taken during disposal are left out. *)

From Coq Require Import ZArith Bool List String.
From Verif Require Import Num Geometry Outcome Steppers Transforms MagicLamp Program GlibParams GlibAnim.
Import ListNotations.
Local Open Scope nat_scope.

(** A stepper object or an animation object (stepper.cpp, transform.cpp:33-36,
    grid.cpp:33-36). *)
Inductive gobj : Type := OStepper (i : nat) | OAnim (a : nat).

(** The counts, oldest object first, 0 for a finalized one.  With each stepper
    object: [base_stepper] of a reverse stepper (reverse.cpp:37-40), [None] for
    NULL and for the other classes.  [rf_lost]: vectors allocated by the default
    of "resolution" (magiclamp.cpp:296-308); [g_value_set_boxed] copies, so that
    nothing frees them. *)
Record refs : Type := mkRefs { rf_steppers : list (nat * option nat); rf_anims : list nat; rf_lost : nat }.

(** [g_object_ref] of a stepper object (reverse.cpp:67). *)
Definition take_stepper (r : refs) (i : nat) : res refs :=
  match nth_error (rf_steppers r) i with
  | Some (S n, b) => Ok (mkRefs (list_set i (S (S n), b) (rf_steppers r)) (rf_anims r) (rf_lost r))
  | _ => Err UseAfterFree
  end.

Section GlibRefs.
Context {F D : Type} `{Num F} `{Num D} `{Conv F D} `{Libm F} `{Libm D}.

(** [g_object_unref] of a stepper object.  Disposal of a reverse stepper clears
    the reference to its base (reverse.cpp:93-101: [g_clear_object] stores NULL,
    then drops the reference); finalization follows.  [fuel] bounds the length of
    the chain of bases. *)
Fixpoint drop_stepper (fuel : nat) (r : refs) (i : nat) : res (refs * list (gaop F D)) :=
  match fuel with
  | O => Err NoFuel
  | S fuel =>
      match nth_error (rf_steppers r) i with
      | Some (S (S n), b) => Ok (mkRefs (list_set i (S n, b) (rf_steppers r)) (rf_anims r) (rf_lost r), [])
      | Some (1, b) =>
          let r0 := mkRefs (list_set i (1, None) (rf_steppers r)) (rf_anims r) (rf_lost r) in
          x <- match b with Some j => drop_stepper fuel r0 j | None => Ok (r0, []) end ;;
          Ok (mkRefs (list_set i (0, None) (rf_steppers (fst x))) (rf_anims (fst x)) (rf_lost (fst x)),
              snd x ++ [AStepperFinalize i])
      | _ => Err UseAfterFree
      end
  end.

(** [g_object_ref] and [g_object_unref] of an animation object, whose classes
    hold no references (the private data of transform.cpp:33-36 and
    grid.cpp:33-36 holds none). *)
Definition take_anim (r : refs) (a : nat) : res refs :=
  match nth_error (rf_anims r) a with
  | Some (S n) => Ok (mkRefs (rf_steppers r) (list_set a (S (S n)) (rf_anims r)) (rf_lost r))
  | _ => Err UseAfterFree
  end.
Definition drop_anim (r : refs) (a : nat) : res (refs * list (gaop F D)) :=
  match nth_error (rf_anims r) a with
  | Some (S (S n)) => Ok (mkRefs (rf_steppers r) (list_set a (S n) (rf_anims r)) (rf_lost r), [])
  | Some 1 => Ok (mkRefs (rf_steppers r) (list_set a 0 (rf_anims r)) (rf_lost r), [AFinalize a])
  | _ => Err UseAfterFree
  end.

(** The calls of a client (the functions of stepper.cpp:32-39, linear.cpp,
    reverse.cpp, transform.cpp:50-58, grid.cpp:50-58 and of the four classes).
    *)
Inductive kop : Type :=
| KNewLinear (length : option Z)          (* animation_linear_stepper_new *)
| KNewReverse (base : option nat)         (* animation_reverse_stepper_new *)
| KNew (c : gargs F D)                    (* g_object_new of an animation *)
| KRef (x : gobj)                         (* g_object_ref *)
| KUnref (x : gobj)                       (* g_object_unref *)
| KStepperStep (i : nat) (ms : Z)         (* animation_stepper_step *)
| KStep (a : nat) (ms : Z)                (* animation_..._animation_step *)
| KSetStepper (a : nat) (i : option nat)  (* animation_..._set_stepper *)
| KGetStepper (a : nat)                   (* animation_..._get_stepper *)
| KSetTo (a : nat) (name : string) (v : setting (F := F) (D := D)) (* animation_..._set_<name> *)
| KSet (a : nat) (name : string) (v : gvalue F D).                 (* g_object_set *)

(** The arguments with a stepper filled in (constructor-helpers.cpp:132-156,
    magiclamp.cpp:286-308). *)
Definition args_stepper (c : gargs F D) : option nat :=
  match c with
  | GBounce _ _ _ _ s | GGlide _ _ _ _ _ _ _ s | GZoom _ _ s | GLamp _ _ _ _ _ _ _ s => s
  end.
Definition with_stepper (c : gargs F D) (i : nat) : gargs F D :=
  match c with
  | GBounce a b n t _ => GBounce a b n t (Some i)
  | GGlide d xr yr xa ya w t _ => GGlide d xr yr xa ya w t (Some i)
  | GZoom f t _ => GZoom f t (Some i)
  | GLamp f t r b o s d _ => GLamp f t r b o s d (Some i)
  end.
Definition default_resolution (c : gargs F D) : bool :=
  match c with GLamp _ _ None _ _ _ _ _ => true | _ => false end.

(** The default stepper of an animation: [animation_linear_stepper_new] returns
    one reference, [g_value_set_object] takes another
    (constructor-helpers.cpp:148-149, bounce.cpp:219-226, glide.cpp:236-243,
    zoom.cpp:201-208, magiclamp.cpp:286-293), and [g_object_new] drops that one
    with the construct parameters. *)
Definition default_references : nat := 1 + 1 - 1.

(** What a call does to the counts, and the calls it stands for.  A new object
    has one reference; [g_value_dup_object] (reverse.cpp:67) takes one to the
    base of a reverse stepper; assigning a stepper copies it and takes none. *)
Definition ref_do (r : refs) (o : kop) : res (refs * list (gaop F D)) :=
  match o with
  | KNewLinear n => Ok (mkRefs (rf_steppers r ++ [(1, None)]) (rf_anims r) (rf_lost r), [ANewLinear n])
  | KNewReverse b =>
      r' <- match b with Some j => take_stepper r j | None => Ok r end ;;
      Ok (mkRefs (rf_steppers r' ++ [(1, b)]) (rf_anims r') (rf_lost r'), [ANewReverse b])
  | KNew c =>
      let lost := if default_resolution c then S (rf_lost r) else rf_lost r in
      match args_stepper c with
      | Some _ => Ok (mkRefs (rf_steppers r) (rf_anims r ++ [1]) lost, [ANew c])
      | None => Ok (mkRefs (rf_steppers r ++ [(default_references, None)]) (rf_anims r ++ [1]) lost,
                    [ANewLinear (Some 300%Z); ANew (with_stepper c (List.length (rf_steppers r)))])
      end
  | KRef (OStepper i) => r' <- take_stepper r i ;; Ok (r', [])
  | KRef (OAnim a) => r' <- take_anim r a ;; Ok (r', [])
  | KUnref (OStepper i) => drop_stepper (S i) r i
  | KUnref (OAnim a) => drop_anim r a
  | KStepperStep i ms => Ok (r, [AStepperStep i ms])
  | KStep a ms => Ok (r, [AStep a ms])
  | KSetStepper a i => Ok (r, [ASetStepper a i])
  | KGetStepper a => Ok (mkRefs (rf_steppers r ++ [(1, None)]) (rf_anims r) (rf_lost r), [AGetStepper a])
  | KSetTo a name v => Ok (r, [ASetTo a name v])
  | KSet a name v => Ok (r, [ASet a name v])
  end.

(** Objects and counts (GLib keeps the counts; the calls are those of
    stepper.cpp, transform.cpp and grid.cpp). *)
Record kworld : Type := mkK { k_world : gaworld F D; k_refs : refs }.
Definition k_do (k : kworld) (o : kop) : res (kworld * gaout F) :=
  r <- ref_do (k_refs k) o ;;
  q <- ga_run (k_world k) (snd r) ;;
  Ok (mkK (fst q) (fst r), last (snd q) RNone).
Fixpoint k_run (k : kworld) (ops : list kop) : res (kworld * list (gaout F)) :=
  match ops with
  | [] => Ok (k, [])
  | o :: t =>
      x <- k_do k o ;;
      y <- k_run (fst x) t ;;
      Ok (fst y, snd x :: snd y)
  end.
Definition k_start : kworld := mkK ga_start (mkRefs [] [] 0).

End GlibRefs.

Arguments kop F D : clear implicits.
Arguments kworld F D : clear implicits.
