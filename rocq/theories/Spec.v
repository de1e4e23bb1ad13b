(** * Specification vocabulary

    Notions in which the properties are stated, written from the English
    descriptions and without reference to the internals of the model: which
    anchors are alive after a history of calls, which histories are
    well-formed, what a nearest point is. *)

From Coq Require Import ZArith Reals Bool List.
From Verif Require Import Num Geometry Outcome Wobbly.
Import ListNotations.

(** ** Histories of calls on one wobbly model *)

(** How an anchor was obtained. *)
Inductive kind : Type := KGrab | KInsert.

(** What a client can tell from its own calls alone: the anchors it still
    holds, oldest first, each with the number of acquisitions made before it;
    the number of acquisitions; whether it has destroyed the model. *)
Record client : Type := mkClient {
  c_live : list (nat * kind); c_acquired : nat; c_destroyed : bool }.

Definition client_start : client := mkClient [] 0 false.

Definition client_step {T} (c : client) (o : op T) : client :=
  match o with
  | OpGrab _ =>
      mkClient (c_live c ++ [(c_acquired c, KGrab)]) (S (c_acquired c)) (c_destroyed c)
  | OpInsert _ =>
      mkClient (c_live c ++ [(c_acquired c, KInsert)]) (S (c_acquired c)) (c_destroyed c)
  | OpRelease n =>
      mkClient (filter (fun e => negb (Nat.eqb (fst e) n)) (c_live c))
               (c_acquired c) (c_destroyed c)
  | OpDestroy => mkClient (c_live c) (c_acquired c) true
  | _ => c
  end.

Definition client_after {T} (ops : list (op T)) : client := fold_left client_step ops client_start.

(** The anchors still held after a history, oldest first. *)
Definition live_anchors {T} (ops : list (op T)) : list (nat * kind) := c_live (client_after ops).

(** Those that were inserted. *)
Definition is_inserted (e : nat * kind) : bool :=
  match snd e with KInsert => true | KGrab => false end.
Definition live_inserted {T} (ops : list (op T)) : list nat :=
  map fst (filter is_inserted (live_anchors ops)).

(** A call a careful client may make: no use of a destroyed model, the model
    outlives its anchors, only anchors still held are moved. *)
Definition careful {T} (c : client) (o : op T) : Prop :=
  match o with
  | OpMoveAnchor n _ => In n (map fst (c_live c))
  | OpRelease _ | OpSettings _ => True
  | OpDestroy => c_destroyed c = false /\ c_live c = []
  | _ => c_destroyed c = false
  end.

(** Inserted anchors are released newest first: when [n] is released, no
    inserted anchor acquired after it is still held. *)
Definition newest_first {T} (c : client) (o : op T) : Prop :=
  match o with
  | OpRelease n =>
      In (n, KInsert) (c_live c) ->
      forall k, In (k, KInsert) (c_live c) -> (k <= n)%nat
  | _ => True
  end.

(** [P] holds of every call of the history, given what the client knew before
    it. *)
Fixpoint each_call {T} (P : client -> op T -> Prop) (c : client) (ops : list (op T)) : Prop :=
  match ops with
  | [] => True
  | o :: t => P c o /\ each_call P (client_step c o) t
  end.

Definition careful_history {T} (ops : list (op T)) : Prop := each_call careful client_start ops.
Definition lifo_history {T} (ops : list (op T)) : Prop := each_call newest_first client_start ops.

Definition is_resize {T} (o : op T) : bool :=
  match o with OpResize _ _ => true | _ => false end.

(** The model is not resized while an inserted anchor is held. *)
Definition no_insert_resize {T} (c : client) (o : op T) : Prop :=
  is_resize o = true -> forall n, ~ In (n, KInsert) (c_live c).
Definition calm_history {T} (ops : list (op T)) : Prop := each_call no_insert_resize client_start ops.

(** [m] is the state of a model created by [Model (p, w, h)] with settings [st]
    after the calls [ops], all of which returned. *)
Definition reached {T} `{Num T} (p : vec T) (w h : T) (st : settings T) (ops : list (op T))
    (m : model T) : Prop :=
  exists fuel next us, run fuel (model_init p w h st next) ops = Ok (m, us).

(** ** Locking of points *)

(** Counters are 32 bits wide. *)
Definition two32 : Z := (2 ^ 32)%Z.

(** Locks of point [i] that are outstanding after a sequence of calls. *)
Fixpoint held (l : list lock_op) (i : nat) : Z :=
  match l with
  | [] => 0
  | Lock j :: r => (if Nat.eqb j i then 1 else 0) + held r i
  | Unlock j :: r => held r i - (if Nat.eqb j i then 1 else 0)
  end%Z.

(** Only existing points are locked, and only locked points are unlocked. *)
Definition balanced (n : nat) (l : list lock_op) : Prop :=
  forall before o after, l = before ++ o :: after ->
    match o with
    | Lock i => (i < n)%nat
    | Unlock i => (i < n)%nat /\ (0 < held before i)%Z
    end.

(** ** Nearest points and springs, in the real plane *)

Definition euclid (a b : vec R) : R := sqrt ((vx a - vx b) ^ 2 + (vy a - vy b) ^ 2).

(** [i] is the first of the points nearest to [p]. *)
Definition nearest (pts : list (vec R)) (p : vec R) (i : nat) : Prop :=
  exists q, nth_error pts i = Some q /\
    forall j r, nth_error pts j = Some r ->
      (euclid p q < euclid p r)%R \/ (euclid p q = euclid p r /\ (i <= j)%nat).

(** ** Where an anchor is *)

(** The point an anchor controls: its mesh point, or the point it inserted. *)
Definition anchor_point {T} (m : model T) (n : nat) : option (vec T) :=
  match lookup_handle (mhandles m) n with
  | Some (HGrab i) => nth_error (mpos m) i
  | Some (HIns _ _ _ b _) =>
      match nth_error (mheap m) b with
      | Some (Some (p, _)) => Some p
      | _ => None
      end
  | None => None
  end.

(** Some live grab holds mesh point [i]. *)
Definition grabbed {T} (m : model T) (i : nat) : Prop :=
  exists n, lookup_handle (mhandles m) n = Some (HGrab i).

(** Where a view points, in a model: a mesh point or the point of an inserted
    anchor. *)
Definition place {T} (m : model T) (l : loc) : option (vec T) :=
  match l with
  | LMesh i => nth_error (mpos m) i
  | LBlk b =>
      match nth_error (mheap m) b with
      | Some (Some (p, _)) => Some p
      | _ => None
      end
  end.

Local Open Scope R_scope.

(** ** Springs and motion, in the real plane *)

(** A value below the threshold counts as zero. *)
Definition clip (t x : R) : R := if Rlt_dec (Rabs x) t then 0%R else x.
Definition clip2 (t : R) (p : vec R) : vec R := mkV (clip t (vx p)) (clip t (vy p)).

(** How far a spring with ends [pa] and [pb] and rest vector [len] is extended. *)
Definition extension (pa pb len : vec R) : vec R :=
  mkV (vx pb - vx pa - vx len) (vy pb - vy pa - vy len).

(** The force a spring with constant [k] exerts on its first end: half the
    extension on each axis, nothing below half a unit.  The second end gets the
    opposite force. *)
Definition pull (k : R) (pa pb len : vec R) : vec R :=
  mkV (k * clip (1 / 2) (vx (extension pa pb len) / 2))
      (k * clip (1 / 2) (vy (extension pa pb len) / 2)).

(** Within one unit of the rest vector on each axis. *)
Definition slack (pa pb len : vec R) : Prop :=
  (Rabs (vx (extension pa pb len)) < 1 /\ Rabs (vy (extension pa pb len)) < 1)%R.

(** One integration of a free point of mass 15 under force [f]: friction is
    proportional to velocity, velocities below 1/10 are dropped, the point moves
    by half its new velocity. *)
Definition moves (friction : R) (p v f p' v' : vec R) : Prop :=
  v' = clip2 (1 / 10) (mkV (vx v + (vx f - friction * vx v) / 15)
                           (vy v + (vy f - friction * vy v) / 15)) /\
  p' = mkV (vx p + vx v' / 2) (vy p + vy v' / 2).

(** ** Resultant forces *)

Definition vneg (a : vec R) : vec R := mkV (- vx a) (- vy a).

(** [at_] tells where the ends of the springs are. *)
Definition pull_at (k : R) (at_ : loc -> vec R) (s : spring R) : vec R :=
  pull k (at_ (s_pa s)) (at_ (s_pb s)) (s_len s).

(** What one spring exerts on location [l]. *)
Definition share (k : R) (at_ : loc -> vec R) (l : loc) (s : spring R) : vec R :=
  vadd (if loc_eqb (s_fa s) l then pull_at k at_ s else vzero)
       (if loc_eqb (s_fb s) l then vneg (pull_at k at_ s) else vzero).

(** What all springs together exert on [l]. *)
Fixpoint net_force (k : R) (at_ : loc -> vec R) (l : loc) (ss : list (spring R)) : vec R :=
  match ss with
  | [] => vzero
  | s :: t => vadd (share k at_ l s) (net_force k at_ l t)
  end.

(** The mesh positions as a placement; blocks at the given places. *)
Definition place_of (pos : list (vec R)) (heap : list (block R)) (l : loc) : vec R :=
  match l with
  | LMesh i => nth i pos vzero
  | LBlk b => match nth b heap None with Some pf => fst pf | None => vzero end
  end.

(** Lexicographic order of pairs of distances. *)
Definition key_less (a b : R * R) : Prop := fst a < fst b \/ (fst a = fst b /\ snd a < snd b).


(** The distances a call compares are representable. *)
Definition in_range (m : model R) (o : op R) : Prop :=
  match o with
  | OpGrab p => exists i q, nth_error (mpos m) i = Some q /\ euclid p q < Rmaxv
  | OpInsert p => forall l q, place m l = Some q -> euclid p q < Rmaxv
  | OpResize w h => 0 < w /\ 0 < h
  | _ => True
  end.


(** Calls that may move the point of inserted anchor [n]: its own [MoveBy] and
    release, and the calls that move or resize the whole model. *)
Definition moves_points {T} (o : op T) (n : nat) : Prop :=
  match o with
  | OpMoveAnchor k _ => k = n
  | OpMoveBy _ | OpMoveTo _ | OpResize _ _ => True
  | OpRelease k => k = n
  | _ => False
  end.


(** Same mesh, velocities, rest mesh, inserted points, springs, size and anchors. *)
Definition same_geometry (m m' : model R) : Prop :=
  mpos m' = mpos m /\ mvel m' = mvel m /\ mtargets m' = mtargets m /\ (forall n, anchor_point m' n = anchor_point m n) /\
  msprings m' = msprings m /\ mw m' = mw m /\ mh m' = mh m /\ mhandles m' = mhandles m.

(** Springs taken out of the network by anchors that are still held. *)
Definition held_springs {T} (m : model T) : list (spring T) :=
  flat_map (fun nh => match snd nh with HIns s _ _ _ _ => [s] | HGrab _ => [] end) (mhandles m).

(** The ends and the identity of a spring, without its rest vector. *)
Definition ends {T} (s : spring T) : loc * loc * loc * loc * Z := (s_fa s, s_fb s, s_pa s, s_pb s, s_id s).

(** The settings last assigned by the client. *)
Definition last_settings {T} (st : settings T) (ops : list (op T)) : settings T :=
  fold_left (fun s o => match o with OpSettings s' => s' | _ => s end) ops st.
