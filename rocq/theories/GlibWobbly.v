(** * The GObject wrappers of the wobbly model

    Models [animation-glib/wobbly/model.cpp] and
    [animation-glib/wobbly/anchor.cpp] on top of [Wobbly].

    Simplifications.  Reference counts are left out: dropping the last
    reference to an object is a call of its own ([GAnchorFinalize],
    [GModelFinalize]).  What GLib itself does (not part of /repo) is written out
    where it matters: [g_object_new] and [g_object_set] do not call the setter
    of a property when the value is outside the range of its specification, and
    the private data of a new object is zeroed. *)

From Coq Require Import ZArith Bool List.
From Verif Require Import Num Geometry Outcome Wobbly.
Import ListNotations.

Section GlibWobbly.
Context {T : Type} `{Num T}.

(** [AnimationWobblyAnchorPrivate] (anchor.cpp:35-38): the native anchor, or
    NULL after release; [RGone]: the object has been finalized. *)
Inductive gref : Type :=
| RHeld (n : nat)
| REmpty
| RGone.

(** [AnimationWobblyModelPrivate] (model.cpp:36-45) and the anchor objects
    created from it, oldest first.  [settings] is the [mset] of the native
    model, which keeps a reference to it (wobbly.cpp:472). *)
Record gworld : Type := mkGW {
  gw_model : model T;
  gw_position : vec T;
  gw_size : vec T;
  gw_anchors : list gref }.

(** The property specifications (model.cpp:401-426). *)
Definition spring_k_ok (v : T) : bool := nleb (nlit 1 10) v && nleb v (nof 10).
Definition friction_ok (v : T) : bool := nleb (nlit 1 10) v && nleb v (nof 10).
Definition range_ok (v : T) : bool := nleb (nof 10) v && nleb v (nof 1000).

(** A property write made by GLib: the setter runs only for values inside the
    range (the ranges of model.cpp:401-440). *)
Definition checked (ok : T -> bool) (v old : T) : T := if ok v then v else old.

(** [g_object_new (ANIMATION_WOBBLY_TYPE_MODEL, ...)]: the five construct
    properties (model.cpp:401-440) are set, a missing one to the default of its
    specification (wobbly.h:176-179; NULL for the boxed ones), then
    [animation_wobbly_model_constructed] (model.cpp:371-383) builds the native
    model.  [set_property] dereferences the boxed values unchecked
    (model.cpp:321-326). *)
Definition gw_new (position size : option (vec T)) (k friction range : option T) (next : Z)
  : res gworld :=
  let given ok default o :=
    match o with Some v => checked ok v nzero | None => default end in
  let st := mkSettings (given spring_k_ok (nof 8) k) (given friction_ok (nof 3) friction)
                       (given range_ok (nof 500) range) in
  p <- of_option NullDeref position ;;
  s <- of_option NullDeref size ;;
  Ok (mkGW (model_init p (vx s) (vy s) st next) p s []).

(** [animation_wobbly_model_get_property] (model.cpp:332-356), for all three
    readable properties. *)
Definition gw_read (g : gworld) : settings T := mset (gw_model g).

(** The functions of the wrappers, [g_object_set] of each property, and
    finalization (model.cpp:82-369, anchor.cpp:52-91). *)
Inductive gop : Type :=
| GGrab (p : vec T)               (* animation_wobbly_model_grab_anchor *)
| GInsert (p : vec T)             (* animation_wobbly_model_insert_anchor *)
| GStep (t : Z)                   (* animation_wobbly_model_step *)
| GMoveTo (p : vec T)             (* animation_wobbly_model_move_to *)
| GMoveBy (d : vec T)             (* animation_wobbly_model_move_by *)
| GResize (s : vec T)             (* animation_wobbly_model_resize *)
| GSetK (v : T)                   (* animation_wobbly_model_set_spring_k *)
| GSetFriction (v : T)            (* animation_wobbly_model_set_friction *)
| GSetRange (v : T)               (* animation_wobbly_model_set_maximum_range *)
| GPropK (v : T)                  (* g_object_set "spring-k" *)
| GPropFriction (v : T)           (* g_object_set "friction" *)
| GPropRange (v : T)              (* g_object_set "movement-range" *)
| GPropPosition (p : option (vec T))
| GPropSize (s : option (vec T))
| GModelFinalize                  (* animation_wobbly_model_finalize *)
| GAnchorMove (a : nat) (d : vec T)  (* animation_wobbly_anchor_move_by *)
| GAnchorRelease (a : nat)           (* animation_wobbly_anchor_release *)
| GAnchorFinalize (a : nat).         (* animation_wobbly_anchor_finalize *)

(** [animation_wobbly_anchor_release] (anchor.cpp:72-83). *)
Definition release_calls (r : option gref) : res (list (op T)) :=
  match r with
  | Some (RHeld n) => Ok [OpRelease n]
  | Some REmpty => Ok []
  | _ => Err UseAfterFree
  end.

(** The calls of the native API a wrapper function makes (model.cpp:82-330,
    358-369; anchor.cpp:52-91).  The model object must not have been
    finalized. *)
Definition gw_calls (g : gworld) (o : gop) : res (list (op T)) :=
  let live (l : list (op T)) := if malive (gw_model g) then Ok l else Err UseAfterFree in
  let st := mset (gw_model g) in
  let k v := [OpSettings (mkSettings v (st_friction st) (st_range st))] in
  let f v := [OpSettings (mkSettings (st_k st) v (st_range st))] in
  let r v := [OpSettings (mkSettings (st_k st) (st_friction st) v)] in
  match o with
  | GGrab p => live [OpGrab p]
  | GInsert p => live [OpInsert p]
  | GStep t => live [OpStep t]
  | GMoveTo p => live [OpMoveTo p]
  | GMoveBy d => live [OpMoveBy d]
  | GResize s => live [OpResize (vx s) (vy s)]
  | GSetK v => live (k v)
  | GSetFriction v => live (f v)
  | GSetRange v => live (r v)
  | GPropK v => live (if spring_k_ok v then k v else [])
  | GPropFriction v => live (if friction_ok v then f v else [])
  | GPropRange v => live (if range_ok v then r v else [])
  | GPropPosition q => p <- of_option NullDeref q ;; live [OpMoveTo p]
  | GPropSize q => s <- of_option NullDeref q ;; live [OpResize (vx s) (vy s)]
  | GModelFinalize => live [OpDestroy]
  | GAnchorMove a d =>
      match nth_error (gw_anchors g) a with
      | Some (RHeld n) => Ok [OpMoveAnchor n d]
      | Some REmpty => Ok []
      | _ => Err UseAfterFree
      end
  | GAnchorRelease a | GAnchorFinalize a => release_calls (nth_error (gw_anchors g) a)
  end.

(** What the wrapper objects record, given the native model [m] after the calls
    and their results [us]: a new anchor object takes over the native anchor
    (anchor.cpp:107-118), a released one holds NULL. *)
Definition gw_update (g : gworld) (o : gop) (m : model T) (us : list out) : gworld :=
  let pos := gw_position g in
  let siz := gw_size g in
  let anc := gw_anchors g in
  match o with
  | GGrab _ | GInsert _ =>
      match us with
      | [OHandle n] => mkGW m pos siz (anc ++ [RHeld n])
      | _ => mkGW m pos siz anc
      end
  | GMoveTo p => mkGW m p siz anc
  | GPropPosition (Some p) => mkGW m p siz anc
  | GMoveBy d => mkGW m (vadd pos d) siz anc
  | GResize s => mkGW m pos s anc
  | GPropSize (Some s) => mkGW m pos s anc
  | GAnchorRelease a => mkGW m pos siz (list_set a REmpty anc)
  | GAnchorFinalize a => mkGW m pos siz (list_set a RGone anc)
  | _ => mkGW m pos siz anc
  end.

(** One call, with the native calls made and their results (model.cpp:82-369,
    anchor.cpp:52-91). *)
Definition gw_do (fuel : nat) (g : gworld) (o : gop) : res (gworld * (list (op T) * list out)) :=
  calls <- gw_calls g o ;;
  r <- run fuel (gw_model g) calls ;;
  Ok (gw_update g o (fst r) (snd r), (calls, snd r)).

(** A history of calls (model.cpp:82-369, anchor.cpp:52-91). *)
Fixpoint gw_run (fuel : nat) (g : gworld) (ops : list gop)
  : res (gworld * (list (op T) * list out)) :=
  match ops with
  | [] => Ok (g, ([], []))
  | o :: t =>
      r <- gw_do fuel g o ;;
      r' <- gw_run fuel (fst r) t ;;
      Ok (fst r', (fst (snd r) ++ fst (snd r'), snd (snd r) ++ snd (snd r')))
  end.

(** [animation_wobbly_model_query_extremes] (model.cpp:186-210), for non-NULL
    results: top left, top right, bottom left, bottom right. *)
Definition gw_extremes (g : gworld) : res (vec T * vec T * vec T * vec T) :=
  if malive (gw_model g) then Ok (extremes (gw_model g)) else Err UseAfterFree.

(** [animation_wobbly_model_deform_texcoords] (model.cpp:156-170), for a
    non-NULL result; [L] is [long double]. *)
Definition gw_deform {L : Type} `{Num L} `{Conv T L} (g : gworld) (uv : vec T) : res (vec T) :=
  if malive (gw_model g) then Ok (deform_texcoords (L := L) (gw_model g) uv) else Err UseAfterFree.

End GlibWobbly.

Arguments gworld T : clear implicits.
Arguments gop T : clear implicits.
