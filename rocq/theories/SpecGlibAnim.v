(** * Specification vocabulary for the GObject steppers and animations *)

From Coq Require Import ZArith Bool String List.
From Verif Require Import Num Geometry Outcome Steppers Transforms MagicLamp Program GlibParams GlibAnim.
Import ListNotations.

(** ** Construct parameters *)

(** The value of the last parameter with a name. *)
Fixpoint last_value {V} (name : string) (ps : list (string * V)) : option V :=
  match ps with
  | [] => None
  | (n, v) :: r =>
      match last_value name r with
      | Some x => Some x
      | None => if string_dec n name then Some v else None
      end
  end.

(** ** What a client knows about its objects *)

(** A stepper object made by the client owns its stepper; one returned by the
    getter of animation [a] observes the stepper of [a]. *)
Inductive skind : Type := Own | Observes (a : nat).

(** Stepper objects and animation objects, oldest first; [None] and [false] for
    finalized ones. *)
Record aclient : Type := mkAC { ac_steppers : list (option skind); ac_anims : list bool }.
Definition aclient_start : aclient := mkAC [] [].

Section SpecGlibAnim.
Context {F D : Type}.
Implicit Types (o : gaop F D).

Definition aclient_do (c : aclient) o : aclient :=
  match o with
  | ANewLinear _ | ANewReverse _ => mkAC (ac_steppers c ++ [Some Own]) (ac_anims c)
  | AGetStepper a => mkAC (ac_steppers c ++ [Some (Observes a)]) (ac_anims c)
  | AStepperFinalize i => mkAC (list_set i None (ac_steppers c)) (ac_anims c)
  | ANew _ => mkAC (ac_steppers c) (ac_anims c ++ [true])
  | AFinalize a => mkAC (ac_steppers c) (list_set a false (ac_anims c))
  | _ => c
  end.

(** The animation object has not been finalized. *)
Definition present (c : aclient) (a : nat) : Prop := nth_error (ac_anims c) a = Some true.
(** The stepper object has not been finalized, nor has the animation it
    observes. *)
Definition usable (c : aclient) (i : nat) : Prop :=
  nth_error (ac_steppers c) i = Some (Some Own) \/
  exists a, nth_error (ac_steppers c) i = Some (Some (Observes a)) /\ present c a.
Definition usable_or_null (c : aclient) (i : option nat) : Prop :=
  match i with Some i => usable c i | None => True end.

(** The stepper given at construction. *)
Definition stepper_arg (g : gargs F D) : option nat :=
  match g with
  | GBounce _ _ _ _ s | GGlide _ _ _ _ _ _ _ s | GZoom _ _ s | GLamp _ _ _ _ _ _ _ s => s
  end.

(** A client that uses no finalized object, assigns no NULL stepper, and never
    lets go of a stepper object it got from an animation. *)
Definition acareful (c : aclient) o : Prop :=
  match o with
  | ANewLinear _ => True
  | ANewReverse b => usable_or_null c b
  | AStepperStep i _ => usable c i
  | AStepperFinalize i => nth_error (ac_steppers c) i = Some (Some Own)
  | ANew g => usable_or_null c (stepper_arg g)
  | AStep a _ | AGetStepper a | ASetTo a _ _ | AFinalize a => present c a
  | ASetStepper a i => present c a /\ exists j, i = Some j /\ usable c j
  | ASet a _ v => present c a /\
      match v with VObject i => exists j, i = Some j /\ usable c j | _ => True end
  end.

Fixpoint aeach (P : aclient -> gaop F D -> Prop) (c : aclient) (ops : list (gaop F D)) : Prop :=
  match ops with
  | [] => True
  | o :: t => P c o /\ aeach P (aclient_do c o) t
  end.
Definition aclient_after (ops : list (gaop F D)) : aclient := fold_left aclient_do ops aclient_start.

(** ** Own calls *)

(** The times of the calls of [animation_stepper_step] on stepper object [i] and
    the values they returned. *)
Fixpoint stepper_times (i : nat) (ops : list (gaop F D)) : list Z :=
  match ops with
  | [] => []
  | AStepperStep j ms :: t => if Nat.eqb j i then ms :: stepper_times i t else stepper_times i t
  | _ :: t => stepper_times i t
  end.
Fixpoint stepper_values (i : nat) (ops : list (gaop F D)) (us : list (gaout F)) : list F :=
  match ops, us with
  | AStepperStep j _ :: t, RValue v :: us => if Nat.eqb j i then v :: stepper_values i t us else stepper_values i t us
  | _ :: t, _ :: us => stepper_values i t us
  | _, _ => []
  end.

(** The times of the calls of [Step] on animation [a], and what they returned. *)
Fixpoint step_times (a : nat) (ops : list (gaop F D)) : list Z :=
  match ops with
  | [] => []
  | AStep b ms :: t => if Nat.eqb b a then ms :: step_times a t else step_times a t
  | _ :: t => step_times a t
  end.
Fixpoint step_results (a : nat) (ops : list (gaop F D)) (us : list (gaout F)) : list bool :=
  match ops, us with
  | AStep b _ :: t, RMore r :: us => if Nat.eqb b a then r :: step_results a t us else step_results a t us
  | _ :: t, _ :: us => step_results a t us
  | _, _ => []
  end.

(** The call neither replaces nor hands out the stepper of animation [a]. *)
Definition keeps_stepper (a : nat) o : Prop :=
  match o with
  | ASetStepper b _ | AGetStepper b => b <> a
  | ASet b name _ => b <> a \/ name <> "stepper"%string
  | _ => True
  end.

(** The call names animation [a]. *)
Definition names (a : nat) o : Prop :=
  match o with
  | AStep b _ | ASetStepper b _ | AGetStepper b | ASetTo b _ _ | ASet b _ _ | AFinalize b => a = b
  | _ => False
  end.

(** ** Documented properties *)

(** The numbers given at construction, with their defaults; [None] when the
    class has no such property. *)
Context `{Num F} `{Num D}.
Local Open Scope string_scope.
Definition given_float (g : gargs F D) (name : string) : option F :=
  let pick (d : F) (o : option F) := Some (match o with Some v => v | None => d end) in
  match g with
  | GBounce i m _ _ _ =>
      if string_dec name "initial-scale" then pick (nlit 7 10) i
      else if string_dec name "maximum-scale" then pick (nlit 12 10) m else None
  | GGlide d xr yr xa ya _ _ _ =>
      if string_dec name "initial-distance" then pick (nlit (-3) 10) d
      else if string_dec name "x-rotation-angle-degrees" then pick (nof 0) xr
      else if string_dec name "y-rotation-angle-degrees" then pick (nof 0) yr
      else if string_dec name "x-axis-location-unit" then pick (nlit 2 10) xa
      else if string_dec name "y-axis-location-unit" then pick (nlit 5 10) ya else None
  | GZoom _ _ _ => None
  | GLamp _ _ _ b o s d _ =>
      if string_dec name "bend-factor" then pick (nof 10) b
      else if string_dec name "offset-factor" then pick (nlit 5 10) o
      else if string_dec name "stretch-factor" then pick (nlit 45 100) s
      else if string_dec name "deform-speed-factor" then pick (nlit 23 10) d else None
  end.
Definition given_uint (g : gargs F D) (name : string) : option Z :=
  match g with
  | GBounce _ _ n _ _ => if string_dec name "n-bounce" then Some (match n with Some n => n | None => 1%Z end) else None
  | _ => None
  end.

(** The box given, or the unit square. *)
Definition box_or_unit (b : option (box D)) : box D :=
  match b with Some b => b | None => mkB (mkV (nof 0) (nof 0)) (mkV (nof 1) (nof 1)) end.

(** The boxes given.  A zoom animation widens an empty 'to' box. *)
Definition given_box (g : gargs F D) (name : string) : option (box D) :=
  match g with
  | GBounce _ _ _ t _ => if string_dec name "target" then Some (box_or_unit t) else None
  | GGlide _ _ _ _ _ _ _ _ => None
  | GZoom f t _ =>
      if string_dec name "from" then Some (match f with Some b => b | None => ensure_non_zero (box_or_unit f) end)
      else if string_dec name "to" then Some (ensure_non_zero (box_or_unit t)) else None
  | GLamp f t _ _ _ _ _ _ =>
      if string_dec name "source" then Some (box_or_unit f)
      else if string_dec name "target" then Some (box_or_unit t) else None
  end.

(** The resolution of a magic lamp, given or 10 by 10, is a positive number of
    columns and rows that can be counted. *)
Definition good_resolution (g : gargs F D) : Prop :=
  match g with
  | GLamp _ _ r _ _ _ _ _ =>
      let p := match r with Some p => p | None => mkV (nof 10) (nof 10) end in
      exists x y, ntrunc (vx p) = Some x /\ ntrunc (vy p) = Some y /\ (0 < x /\ 0 < y /\ x * y < 2 ^ 64)%Z
  | _ => True
  end.

(** The documented range of a number. *)
Definition documented (k : aclass) (name : string) : option (F * F) :=
  match k with
  | CBounce =>
      if string_dec name "initial-scale" then Some (nlit 1 10, nof 1)
      else if string_dec name "maximum-scale" then Some (nof 1, nof 3) else None
  | CGlide =>
      if string_dec name "initial-distance" then Some (nof (-1), nof 1)
      else if string_dec name "x-rotation-angle-degrees" then Some (nof (-360), nof 360)
      else if string_dec name "y-rotation-angle-degrees" then Some (nof (-360), nof 360)
      else if string_dec name "x-axis-location-unit" then Some (nof 0, nof 1)
      else if string_dec name "y-axis-location-unit" then Some (nof 0, nof 1) else None
  | CZoom => None
  | CLamp =>
      if string_dec name "bend-factor" then Some (nof 1, nof 20)
      else if string_dec name "offset-factor" then Some (nlit 1 10, nof 1)
      else if string_dec name "stretch-factor" then Some (nlit 2 10, nof 1)
      else if string_dec name "deform-speed-factor" then Some (nof 1, nof 4) else None
  end.

(** Every number a getter returns is in its documented range. *)
Definition in_documented_range (x : ganim F D) : Prop :=
  (forall name lo hi v, documented (class_of x) name = Some (lo, hi) -> read_float name x = Some v ->
     nleb lo v = true /\ nleb v hi = true) /\
  (forall n, read_uint "n-bounce" x = Some n -> (1 <= n <= 10)%Z).
Definition given_in_range (g : gargs F D) : Prop :=
  (forall name lo hi v, documented (gargs_class g) name = Some (lo, hi) -> given_float g name = Some v ->
     nleb lo v = true /\ nleb v hi = true) /\
  (forall n, given_uint g "n-bounce" = Some n -> (1 <= n <= 10)%Z).

End SpecGlibAnim.
