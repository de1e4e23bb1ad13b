(** * Specification vocabulary for whole-model movement and simulation *)

From Coq Require Import ZArith Reals Bool List.
From Flocq Require Import Core IEEE754.BinarySingleNaN.
From Verif Require Import Num Geometry Outcome Wobbly Spec.
Import ListNotations.
Local Open Scope R_scope.

(** ** Displacement *)

(** The same call, its position argument displaced by [d].  Movements and sizes
    are not positions. *)
Definition displace_op (d : vec R) (o : op R) : op R :=
  match o with
  | OpGrab p => OpGrab (vadd p d)
  | OpInsert p => OpInsert (vadd p d)
  | OpMoveTo p => OpMoveTo (vadd p d)
  | _ => o
  end.

(** [m'] is [m] with every position displaced by [d] and nothing else changed. *)
Definition displaced (d : vec R) (m m' : model R) : Prop :=
  mpos m' = map (fun q => vadd q d) (mpos m) /\
  mtargets m' = map (fun q => vadd q d) (mtargets m) /\
  (forall n, anchor_point m' n = option_map (fun q => vadd q d) (anchor_point m n)) /\
  mvel m' = mvel m /\ msprings m' = msprings m /\ mpending m' = mpending m /\
  mw m' = mw m /\ mh m' = mh m /\ mset m' = mset m /\
  mhandles m' = mhandles m /\ mtracked m' = mtracked m /\ mcount m' = mcount m /\
  munequal m' = munequal m /\ malive m' = malive m.

(** ** Forces *)

Fixpoint total (l : list (vec R)) : vec R :=
  match l with [] => mkV 0 0 | f :: t => mkV (vx f + vx (total t)) (vy f + vy (total t)) end.

(** The forces accumulated in the storage of inserted anchors. *)
Definition block_forces (h : list (block R)) : list (vec R) :=
  flat_map (fun b : block R => match b with Some pf => [snd pf] | None => [] end) h.

(** ** Integration *)

(** [n] rounds of integration from [m] to [m']; [b] tells whether any of them
    reported that more are needed. *)
Inductive integrations {T} `{Num T} : nat -> model T -> model T -> bool -> Prop :=
| integrations_none m : integrations 0 m m false
| integrations_more n m m1 m2 b1 b2 :
    integrate_once m = Ok (m1, b1) -> integrations n m1 m2 b2 ->
    integrations (S n) m m2 (b1 || b2).

(** The regular grid of a [w] x [h] model with its top-left corner at [q]. *)
Definition grid (q : vec R) (w h : R) : list (vec R) :=
  map (fun i => mkV (vx q + INR (i mod 4) * (w / 3)) (vy q + INR (i / 4) * (h / 3))) (seq 0 16).

(** No velocity anywhere. *)
Definition at_rest (velocities : list (vec R)) : Prop := Forall (fun v => v = mkV 0 0) velocities.

(** ** Movements of one anchor *)

(** The total movement of anchor [n] in a history: its own movements and those
    of the whole model. *)
Fixpoint movement (n : nat) (ops : list (op R)) : vec R :=
  match ops with
  | [] => mkV 0 0
  | OpMoveAnchor k d :: t => if Nat.eqb k n then vadd d (movement n t) else movement n t
  | OpMoveBy d :: t => vadd d (movement n t)
  | _ :: t => movement n t
  end.

(** Calls that only move anchors or the whole model, let time pass, or choose
    settings with a positive range. *)
Definition moves_only (o : op R) : Prop :=
  match o with
  | OpMoveAnchor _ _ | OpStep _ | OpMoveBy _ => True
  | OpSettings st => 0 < st_range st
  | _ => False
  end.

(** Calls that neither acquire nor release anchors nor destroy the model. *)
Definition keeps_anchors (o : op R) : Prop :=
  match o with
  | OpGrab _ | OpInsert _ | OpRelease _ | OpDestroy => False
  | OpSettings st => 0 < st_range st
  | _ => True
  end.

(** The length of a vector. *)
Definition magnitude (v : vec R) : R := sqrt (vx v ^ 2 + vy v ^ 2).

(** [p'] is [p] confined to distance [r] from [t]: nearer points are untouched,
    others are moved towards [t], along the line to it, to distance [r]. *)
Definition confined (r : R) (t p p' : vec R) : Prop :=
  (euclid t p < r -> p' = p) /\
  (r <= euclid t p ->
   euclid t p' = r /\
   exists s, 0 < s <= 1 /\ p' = mkV (vx t + s * (vx p - vx t)) (vy t + s * (vy p - vy t))).

(** ** [double] arithmetic *)

Definition nan64 : f64 := B754_nan.
Definition nan_mesh (m : model f64) : Prop :=
  Forall (fun p => p = mkV nan64 nan64) (mpos m).

(** Every mesh point is finite and compares equal to its rest position. *)
Definition at_home (t p : vec f64) : bool :=
  is_finite (vx t) && is_finite (vy t) && is_finite (vx p) && is_finite (vy p) && vequals t p.
Definition all_home (m : model f64) : bool :=
  Nat.eqb (length (mpos m)) (length (mtargets m)) && forallb (fun tp => at_home (fst tp) (snd tp)) (combine (mtargets m) (mpos m)).

(** [InsertAnchor] is not called; the time given to [Step] is not negative (it
    is an [unsigned int]). *)
Definition no_insert {T} (ops : list (op T)) : Prop :=
  Forall (fun o => match o with OpInsert _ => False | _ => True end) ops.
Definition proper_times {T} (ops : list (op T)) : Prop :=
  Forall (fun o => match o with OpStep t => (0 <= t)%Z | _ => True end) ops.
