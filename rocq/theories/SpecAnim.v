(** * Specification vocabulary for steppers and animations *)

From Coq Require Import ZArith Reals Bool List.
From Flocq Require Import Core IEEE754.BinarySingleNaN.
From Verif Require Import Num Geometry Outcome Steppers Transforms MagicLamp Program.
Import ListNotations.

(** ** Progress *)

(** A number (not NaN) between 0 and 1. *)
Definition in_unit (p : f32) : Prop := is_finite p = true /\ (0 <= B2R p <= 1)%R.
(** A number strictly between 0 and 1. *)
Definition inside_unit (p : f32) : Prop := is_finite p = true /\ (0 < B2R p < 1)%R.

(** ** Elapsed time *)

Fixpoint elapsed (ts : list Z) : Z :=
  match ts with
  | [] => 0
  | t :: l => t + elapsed l
  end.

Definition all_u32 (ts : list Z) : Prop := Forall is_u32 ts.

(** Total time after the first [k+1] calls. *)
Definition total (ts : list Z) (k : nat) : Z := elapsed (firstn (S k) ts).

(** ** Animations *)

(** Some call of a history is [Step]. *)
Definition bn_is_step {F St} (o : bounce_op F St) : bool := match o with BnStep _ => true | _ => false end.
Definition gl_is_step {F St} (o : glide_op F St) : bool := match o with GlStep _ => true | _ => false end.
Definition zm_is_step {D St} (o : zoom_op D St) : bool := match o with ZmStep _ => true | _ => false end.
Definition ml_is_step {F D St} (o : lamp_op F D St) : bool := match o with MlStep _ => true | _ => false end.

(** The value a property has after a history: the last one assigned, [d] when
    none was.  [f] tells which calls assign it. *)
Fixpoint latest {O V} (f : O -> option V) (d : V) (ops : list O) : V :=
  match ops with
  | [] => d
  | o :: t => latest f (match f o with Some v => v | None => d end) t
  end.

(** A point of the plane in proportion [u], [v] between the corners of a box. *)
Definition in_box (b : box R) (u v : R) : vec R :=
  mkV (vx (b_tl b) + u * (vx (b_br b) - vx (b_tl b)))%R (vy (b_tl b) + v * (vy (b_br b) - vy (b_tl b)))%R.

(** The same point as the animations' transforms see it: relative to the
    top-left corner of the surface. *)
Definition on_surface (b : box R) (u v : R) : vec R :=
  mkV (u * (vx (b_br b) - vx (b_tl b)))%R (v * (vy (b_br b) - vy (b_tl b)))%R.

(** Linear interpolation. *)
Definition between (a b t : R) : R := ((1 - t) * a + t * b)%R.

(** Distance of two transformed points in space. *)
Definition dist3 (a b : vec4 R) : R :=
  sqrt ((v4x a - v4x b) ^ 2 + (v4y a - v4y b) ^ 2 + (v4z a - v4z b) ^ 2)%R.

(** ** The magic lamp *)

(** At least two columns and rows, and a number of vertices a computer can
    count. *)
Definition sensible (r : resolution) : Prop := (2 <= rw r /\ 2 <= rh r /\ rw r * rh r < 2 ^ 64)%Z.

(** No call changes the resolution. *)
Definition same_resolution {F D St} (ops : list (lamp_op F D St)) : Prop :=
  Forall (fun o => match o with MlSetResolution _ => False | _ => True end) ops.

Definition in_square (uv : vec R) : Prop := (0 <= vx uv <= 1 /\ 0 <= vy uv <= 1)%R.

(** The source is below the target: the y axis points down, boxes are given by
    their top-left and bottom-right corners. *)
Definition below (source target : box R) : Prop :=
  (vy (b_tl target) < vy (b_tl source) /\ vy (b_br target) <= vy (b_br source) /\
   vy (b_tl target) <= vy (b_br target) /\ vy (b_tl source) <= vy (b_br source))%R.

(** Parameters for which the formulas of the lamp divide by nothing that is zero:
    the tops of the two boxes differ, there is a bend, and no row is stretched
    without limit. *)
Definition lamp_regular (q : lamp_params R R) : Prop :=
  (vy (b_tl (lp_source q)) <> vy (b_tl (lp_target q)) /\ lp_bend q <> 0 /\ lp_stretch q < 1)%R.

(** [a] is a magic lamp built with the given arguments, on which the calls
    [ops] and then [Step (ms)] were made. *)
Definition stepped_lamp {F D} `{Num F} `{Num D} `{Conv F D} `{Libm D} {St} (call : St -> Z -> F * St)
    (q : lamp_params F D) (r : resolution) (s : St) (ops : list (lamp_op F D St)) (ms : Z) (a : lamp F D St) : Prop :=
  exists a0, lamp_new call q r s = Ok a0 /\ lamp_run call a0 (ops ++ [MlStep ms]) = Ok a.

(** The vertex in column [i] and row [j]. *)
Definition vertex {D} (r : resolution) (g : list (vec D)) (i j : Z) : option (vec D) :=
  nth_error g (Z.to_nat (j * rw r + i)).

(** [p] is in the axis-aligned rectangle with corners [lo] and [hi]. *)
Definition within (lo hi p : vec R) : Prop := (vx lo <= vx p <= vx hi /\ vy lo <= vy p <= vy hi)%R.

(** ** Programs *)

(** The calls made directly on stepper variable [i]: constructing an animation
    with it is a call with 0. *)
Fixpoint own_calls {F D St} (i : nat) (ops : list (world_op F D St)) : list Z :=
  match ops with
  | [] => []
  | WCall j ms :: t => if Nat.eqb i j then ms :: own_calls i t else own_calls i t
  | WNew _ j :: t => if Nat.eqb i j then 0%Z :: own_calls i t else own_calls i t
  | _ :: t => own_calls i t
  end.

(** The times of the [Step]s of animation [a]. *)
Fixpoint own_steps {F D St} (a : nat) (ops : list (world_op F D St)) : list Z :=
  match ops with
  | [] => []
  | WStep b ms :: t => if Nat.eqb a b then ms :: own_steps a t else own_steps a t
  | _ :: t => own_steps a t
  end.

(** No call of the history destroys animation [a] or replaces its stepper. *)
Definition left_alone {F D St} (a : nat) (ops : list (world_op F D St)) : Prop :=
  Forall (fun o => match o with
                   | WSetStepper b _ | WDestroy b => a <> b
                   | _ => True
                   end) ops.
