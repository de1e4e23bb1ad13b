(** * Specification vocabulary for the GObject wrappers

    What a client of the GObject API can tell from its own calls. *)

From Coq Require Import ZArith Bool List.
From Verif Require Import Num Geometry Outcome Wobbly Spec GlibWobbly.
Import ListNotations.

(** ** Wobbly models and anchors *)

(** An anchor object is held until it is released, and can be used until it is
    finalized. *)
Inductive status : Type := Held | Released | Finalized.

(** The anchor objects obtained so far, oldest first, and whether the model
    object has been finalized. *)
Record gclient : Type := mkGC { gc_anchors : list (kind * status); gc_gone : bool }.

Definition gclient_start : gclient := mkGC [] false.

Definition become (s : status) (a : nat) (l : list (kind * status)) : list (kind * status) :=
  match nth_error l a with
  | Some (k, _) => list_set a (k, s) l
  | None => l
  end.

Definition gclient_step {T} (c : gclient) (o : gop T) : gclient :=
  match o with
  | GGrab _ => mkGC (gc_anchors c ++ [(KGrab, Held)]) (gc_gone c)
  | GInsert _ => mkGC (gc_anchors c ++ [(KInsert, Held)]) (gc_gone c)
  | GAnchorRelease a => mkGC (become Released a (gc_anchors c)) (gc_gone c)
  | GAnchorFinalize a => mkGC (become Finalized a (gc_anchors c)) (gc_gone c)
  | GModelFinalize => mkGC (gc_anchors c) true
  | _ => c
  end.

Definition gclient_after {T} (ops : list (gop T)) : gclient :=
  fold_left gclient_step ops gclient_start.

(** Anchor object [a] is still held. *)
Definition holds (c : gclient) (a : nat) : Prop :=
  exists k, nth_error (gc_anchors c) a = Some (k, Held).
Definition holdsb (c : gclient) (a : nat) : bool :=
  match nth_error (gc_anchors c) a with Some (_, Held) => true | _ => false end.

(** A call a careful client may make: no use of a finalized object, no NULL
    position or size, and the model outlives the anchors that are still held. *)
Definition gcareful {T} (c : gclient) (o : gop T) : Prop :=
  match o with
  | GAnchorMove a _ | GAnchorRelease a | GAnchorFinalize a =>
      exists k s, nth_error (gc_anchors c) a = Some (k, s) /\ s <> Finalized
  | GModelFinalize => gc_gone c = false /\ forall a, ~ holds c a
  | GPropPosition q | GPropSize q => gc_gone c = false /\ q <> None
  | _ => gc_gone c = false
  end.

(** Inserted anchors are released or finalized newest first. *)
Definition gnewest_first {T} (c : gclient) (o : gop T) : Prop :=
  match o with
  | GAnchorRelease a | GAnchorFinalize a =>
      nth_error (gc_anchors c) a = Some (KInsert, Held) ->
      forall b, nth_error (gc_anchors c) b = Some (KInsert, Held) -> (b <= a)%nat
  | _ => True
  end.

Fixpoint geach {T} (P : gclient -> gop T -> Prop) (c : gclient) (ops : list (gop T)) : Prop :=
  match ops with
  | [] => True
  | o :: t => P c o /\ geach P (gclient_step c o) t
  end.

(** The settings a new object starts with: the default for a property that is
    not given, the value given if it is inside its range, and zero otherwise. *)
Definition inside {T} `{Num T} (lo v hi : T) : bool := nleb lo v && nleb v hi.
Definition given {T} `{Num T} (lo hi default : T) (v : option T) : T :=
  match v with
  | None => default
  | Some v => if inside lo v hi then v else nzero
  end.
Definition settings_new {T} `{Num T} (k friction range : option T) : settings T :=
  mkSettings (given (nlit 1 10) (nof 10) (nof 8) k) (given (nlit 1 10) (nof 10) (nof 3) friction)
             (given (nof 10) (nof 1000) (nof 500) range).

(** The settings in force after a history that starts with [st]: the setter
    functions store any value, a property write only one inside its range. *)
Definition settings_do {T} `{Num T} (st : settings T) (o : gop T) : settings T :=
  match o with
  | GSetK v => mkSettings v (st_friction st) (st_range st)
  | GSetFriction v => mkSettings (st_k st) v (st_range st)
  | GSetRange v => mkSettings (st_k st) (st_friction st) v
  | GPropK v =>
      if inside (nlit 1 10) v (nof 10) then mkSettings v (st_friction st) (st_range st) else st
  | GPropFriction v =>
      if inside (nlit 1 10) v (nof 10) then mkSettings (st_k st) v (st_range st) else st
  | GPropRange v =>
      if inside (nof 10) v (nof 1000) then mkSettings (st_k st) (st_friction st) v else st
  | _ => st
  end.
Definition settings_after {T} `{Num T} (st : settings T) (ops : list (gop T)) : settings T :=
  fold_left settings_do ops st.

(** The native calls a wrapper function stands for: the [a]-th anchor object is
    the [a]-th native anchor as long as it is held, and nothing afterwards. *)
Definition meaning {T} `{Num T} (c : gclient) (st : settings T) (o : gop T) : list (op T) :=
  match o with
  | GGrab p => [OpGrab p]
  | GInsert p => [OpInsert p]
  | GStep t => [OpStep t]
  | GMoveTo p => [OpMoveTo p]
  | GPropPosition (Some p) => [OpMoveTo p]
  | GPropPosition None => []
  | GMoveBy d => [OpMoveBy d]
  | GResize s => [OpResize (vx s) (vy s)]
  | GPropSize (Some s) => [OpResize (vx s) (vy s)]
  | GPropSize None => []
  | GSetK _ | GSetFriction _ | GSetRange _ => [OpSettings (settings_do st o)]
  | GPropK v | GPropFriction v =>
      if inside (nlit 1 10) v (nof 10) then [OpSettings (settings_do st o)] else []
  | GPropRange v =>
      if inside (nof 10) v (nof 1000) then [OpSettings (settings_do st o)] else []
  | GModelFinalize => [OpDestroy]
  | GAnchorMove a d => if holdsb c a then [OpMoveAnchor a d] else []
  | GAnchorRelease a | GAnchorFinalize a => if holdsb c a then [OpRelease a] else []
  end.

Fixpoint meanings {T} `{Num T} (c : gclient) (st : settings T) (ops : list (gop T)) : list (op T) :=
  match ops with
  | [] => []
  | o :: t => meaning c st o ++ meanings (gclient_step c o) (settings_do st o) t
  end.

(** How often native anchor [n] is released. *)
Definition releases {T} (n : nat) (l : list (op T)) : nat :=
  length (filter (fun o => match o with OpRelease k => Nat.eqb k n | _ => false end) l).

(** Anchor object [a] is released or finalized somewhere in the history. *)
Definition let_go {T} (a : nat) (ops : list (gop T)) : Prop :=
  In (GAnchorRelease a) ops \/ In (GAnchorFinalize a) ops.
