(** * Specification: when a model needs its settings

    The client knows which anchors it holds, the size it gave the model last and
    the calls it makes; from these alone it can tell which calls need the settings
    object to be still there. *)

From Coq Require Import ZArith Bool List.
From Verif Require Import Num Geometry Outcome Wobbly Spec.
Import ListNotations.
Local Open Scope Z_scope.

(** Does the call need the settings?  [live] are the anchors held, [w] and [h] the
    present size of the model.

    - taking the first anchor;
    - releasing one of exactly two;
    - letting time pass;
    - placing the model, or giving it another valid size, unless exactly one
      anchor is held. *)
Definition consults {T} `{Num T} (live : list (nat * kind)) (w h : T) (o : op T) : Prop :=
  match o with
  | OpGrab _ | OpInsert _ => live = []
  | OpRelease n => In n (map fst live) /\ length live = 2%nat
  | OpStep t => 0 < t
  | OpMoveTo _ => length live <> 1%nat
  | OpResize w' h' =>
      length live <> 1%nat /\ nltb nzero w' = true /\ nltb nzero h' = true /\
      vequals (mkV (ndiv w' w) (ndiv h' h)) (mkV (nof 1) (nof 1)) = false
  | OpSettings _ => True
  | OpMoveAnchor _ _ | OpMoveBy _ | OpDestroy => False
  end.

(** The outcome of a call with other values in the settings object. *)
Definition with_settings {T} (st : settings T) (r : res (model T * out)) : res (model T * out) :=
  match r with Ok (m, u) => Ok (set_settings m st, u) | Err e => Err e end.
