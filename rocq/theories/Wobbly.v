(** * The wobbly model

    Models [animation/wobbly/wobbly_internal.h] and
    [animation/wobbly/wobbly.cpp].  Definitions only; proofs are elsewhere. *)

From Coq Require Import ZArith Bool List.
From Verif Require Import Num Geometry Outcome.
Import ListNotations.
Local Open Scope Z_scope.

(** ** Mesh configuration (wobbly_internal.h:115-121) *)
Definition mesh_w : nat := 4.
Definition mesh_h : nat := 4.
Definition mesh_n : nat := 16.   (* config::TotalIndices *)

(** ** TrackedAnchors (wobbly_internal.h:309-376) *)

(** [unsigned int] arithmetic (the counters of wobbly_internal.h:324, 331). *)
Definition u32 (z : Z) : Z := z mod 2 ^ 32.

(** [anchors] and [firstAnchor] (wobbly_internal.h:374-375). *)
Record tracked : Type := mkTracked { t_counts : list Z; t_first : option nat }.

(** [TrackedAnchors ()] (wobbly_internal.h:316-319), for [N] points. *)
Definition tracked_init (n : nat) : tracked := mkTracked (repeat 0 n) None.

(** [Lock] (wobbly_internal.h:321-327). *)
Definition tracked_lock (i : nat) (t : tracked) : res tracked :=
  prev <- of_option OutOfBounds (nth_error (t_counts t) i) ;;
  let counts := list_set i (u32 (prev + 1)) (t_counts t) in
  let first :=
    if (prev =? 0) then
      match t_first t with None => Some i | Some j => Some j end
    else t_first t in
  Ok (mkTracked counts first).

(** [std::max_element]: index of the first largest element
    (wobbly_internal.h:340). *)
Fixpoint max_element_from (l : list Z) (i : nat) (best : nat) (bestv : Z) : nat * Z :=
  match l with
  | [] => (best, bestv)
  | x :: t => if bestv <? x then max_element_from t (S i) i x
              else max_element_from t (S i) best bestv
  end.
Definition max_element (l : list Z) : option (nat * Z) :=
  match l with
  | [] => None
  | x :: t => Some (max_element_from t 1 0 x)
  end.

(** [Unlock] (wobbly_internal.h:329-347). *)
Definition tracked_unlock (i : nat) (t : tracked) : res tracked :=
  prev <- of_option OutOfBounds (nth_error (t_counts t) i) ;;
  let cur := u32 (prev - 1) in
  let counts := list_set i cur (t_counts t) in
  let is_first := match t_first t with Some j => Nat.eqb j i | None => false end in
  let first :=
    if (cur =? 0) && is_first then
      match max_element counts with
      | Some (j, v) => if 0 <? v then Some j else None
      | None => None
      end
    else t_first t in
  Ok (mkTracked counts first).

(** Sequences of calls on one [TrackedAnchors] (wobbly_internal.h:321-347). *)
Inductive lock_op : Type := Lock (i : nat) | Unlock (i : nat).
Definition lock_do (t : tracked) (o : lock_op) : res tracked :=
  match o with Lock i => tracked_lock i t | Unlock i => tracked_unlock i t end.
Fixpoint lock_run (t : tracked) (l : list lock_op) : res tracked :=
  match l with
  | [] => Ok t
  | o :: r => t1 <- lock_do t o ;; lock_run t1 r
  end.

Section Wobbly.
Context {T : Type} `{Num T}.

(** ** Mesh helpers *)

(** [Model::Private::TileSize] (wobbly.cpp:675-680). *)
Definition tile_size (w h : T) : vec T := mkV (ndiv w (nof 3)) (ndiv h (nof 3)).

(** [mesh::CalculatePositionArray] (wobbly_internal.h:129-147). *)
Definition position_array (init tile : vec T) : list (vec T) :=
  map (fun i : nat =>
         let row := Z.of_nat (i / mesh_w) in
         let col := Z.of_nat (i mod mesh_w) in
         vadd init (mkV (nmul (nof col) (vx tile)) (nmul (nof row) (vy tile))))
      (seq 0 mesh_n).

(** [mesh::ClosestIndexToPosition] (wobbly_internal.h:149-171).  [None] is the
    failing assertion [assert (nearestIndex)]. *)
Fixpoint closest_from (pts : list (vec T)) (pos : vec T) (i : nat)
    (best : option nat) (dist : T) : option nat :=
  match pts with
  | [] => best
  | p :: t =>
      let d := vdist pos p in
      if nltb d dist then closest_from t pos (S i) (Some i) d
      else closest_from t pos (S i) best dist
  end.
Definition closest_index (pts : list (vec T)) (pos : vec T) : option nat :=
  closest_from pts pos 0 None nmax.

(** ** Storage *)

(** What a [PointView] inside a spring points at: a point of the mesh arrays,
    or the storage [new double[4]] of an inserted anchor (position in the first
    two numbers, force in the last two; wobbly.cpp:362-365, 384-386). *)
Inductive loc : Type :=
| LMesh (i : nat)
| LBlk (b : nat).

Definition loc_eqb (a b : loc) : bool :=
  match a, b with
  | LMesh i, LMesh j => Nat.eqb i j
  | LBlk i, LBlk j => Nat.eqb i j
  | _, _ => false
  end.

(** A block holds [Some (position, force)]; [None] once freed. Blocks are never
    reused: a new anchor gets a new block (storage of anchors:
    wobbly.cpp:362-365, 384-386). *)
Definition block : Type := option (vec T * vec T).

(** Mesh positions, mesh forces, anchor blocks (wobbly.cpp:464 and
    wobbly_internal.h:1024 for the arrays, wobbly.cpp:362-365 for the anchors).
    *)
Record mem : Type := mkMem {
  m_pos : list (vec T); m_force : list (vec T); m_heap : list block }.

(** Access to the storage of an inserted anchor (wobbly.cpp:362-365). *)
Definition rd_blk (h : list block) (b : nat) : res (vec T * vec T) :=
  match nth_error h b with
  | Some (Some pf) => Ok pf
  | Some None => Err UseAfterFree
  | None => Err OutOfBounds
  end.

(** Read a position through a view (wobbly_internal.h:242-249). *)
Definition rd_pos (m : mem) (l : loc) : res (vec T) :=
  match l with
  | LMesh i => of_option OutOfBounds (nth_error (m_pos m) i)
  | LBlk b => pf <- rd_blk (m_heap m) b ;; Ok (fst pf)
  end.

(** [pointwise_add (force, f)] through a view (wobbly_internal.h:1238-1239). *)
Definition add_force (m : mem) (l : loc) (f : vec T) : res mem :=
  match l with
  | LMesh i =>
      old <- of_option OutOfBounds (nth_error (m_force m) i) ;;
      Ok (mkMem (m_pos m) (list_set i (vadd old f) (m_force m)) (m_heap m))
  | LBlk b =>
      pf <- rd_blk (m_heap m) b ;;
      Ok (mkMem (m_pos m) (m_force m)
                (list_set b (Some (fst pf, vadd (snd pf) f)) (m_heap m)))
  end.

(** ** Springs *)

(** [Spring] (wobbly_internal.h:222-301). *)
Record spring : Type := mkSpring {
  s_fa : loc; s_fb : loc;      (* forceA, forceB *)
  s_pa : loc; s_pb : loc;      (* posA, posB *)
  s_len : vec T;               (* desiredDistance *)
  s_id : Z }.                  (* id *)

(** [Spring::ScaleLength] (wobbly.cpp:231-235). *)
Definition scale_length (f : vec T) (s : spring) : spring :=
  mkSpring (s_fa s) (s_fb s) (s_pa s) (s_pb s) (vpscale (s_len s) f) (s_id s).

(** [springs::DeltaFromDesired] (wobbly_internal.h:1195-1210). *)
Definition delta_from_desired (a b desired : vec T) : vec T :=
  mkV (nmul (nlit 1 2) (nadd (nsub (vx b) (vx a)) (vx desired)))
      (nmul (nlit 1 2) (nadd (nsub (vy b) (vy a)) (vy desired))).

(** [Spring::ClipThreshold] (wobbly_internal.h:283). *)
Definition clip_threshold : T := nlit 1 2.

(** The two clipped deltas of [Spring::ApplyForces] (wobbly_internal.h:1219-1230). *)
Definition spring_deltas (pa pb len : vec T) : vec T * vec T :=
  let neg := vscale len (nof (-1)) in
  (reset_if_close clip_threshold (delta_from_desired pa pb neg),
   reset_if_close clip_threshold (delta_from_desired pb pa len)).

(** [Spring::ApplyForces] (wobbly_internal.h:1214-1249). *)
Definition apply_forces (k : T) (s : spring) (m : mem) : res (mem * bool) :=
  pa <- rd_pos m (s_pa s) ;;
  pb <- rd_pos m (s_pb s) ;;
  let '(da, db) := spring_deltas pa pb (s_len s) in
  m1 <- add_force m (s_fa s) (vscale da k) ;;
  m2 <- add_force m1 (s_fb s) (vscale db k) ;;
  let delta := vadd (vabs da) (vabs db) in
  Ok (m2, nltb nzero (vx delta) || nltb nzero (vy delta)).

(** The loop of [SpringMesh::CalculateForces] (wobbly_internal.h:1261-1263). *)
Fixpoint apply_all (k : T) (ss : list spring) (m : mem) (more : bool) : res (mem * bool) :=
  match ss with
  | [] => Ok (m, more)
  | s :: t => r <- apply_forces k s m ;; apply_all k t (fst r) (more || snd r)
  end.

(** [SpringMesh::CalculateForces] (wobbly_internal.h:1251-1269): the mesh forces
    are reset first, the force halves of anchor blocks are not. *)
Definition calculate_forces (k : T) (ss : list spring) (pos : list (vec T))
    (heap : list block) : res (mem * bool) :=
  apply_all k ss (mkMem pos (repeat vzero mesh_n) heap) false.

(** [GenerateBaseSpringMesh] (wobbly.cpp:239-291), with identifiers taken from
    [NextSpringID] (wobbly.cpp:140-144): [next] is the last identifier handed
    out.  Identifiers are [size_t]; the model does not wrap at 2^64. *)
Definition base_spring_specs (tile : vec T) : list (nat * nat * vec T) :=
  flat_map (fun j =>
    flat_map (fun i =>
      let current := (j * mesh_w + i)%nat in
      let below := ((j + 1) * mesh_w + i)%nat in
      let right := (j * mesh_w + i + 1)%nat in
      (if Nat.ltb j (mesh_h - 1) then [(current, below, mkV nzero (vy tile))] else []) ++
      (if Nat.ltb i (mesh_w - 1) then [(current, right, mkV (vx tile) nzero)] else []))
      (seq 0 mesh_w))
    (seq 0 mesh_h).

Fixpoint number_springs (l : list (nat * nat * vec T)) (next : Z) : list spring :=
  match l with
  | [] => []
  | (a, b, len) :: t =>
      mkSpring (LMesh a) (LMesh b) (LMesh a) (LMesh b) len (next + 1)
      :: number_springs t (next + 1)
  end.

Definition base_springs (tile : vec T) (next : Z) : list spring :=
  number_springs (base_spring_specs tile) next.

(** Number of identifiers consumed by one base mesh:
    [SpringCountForGridSize (4, 4)] (wobbly.cpp:130-135). *)
Definition base_spring_count : Z := ((4 - 1) * (4 - 1)) * 2 + 4 + 4 - 2.

(** ** Integration *)

(** [Model::Mass] (wobbly.h:178). *)
Definition mass : T := nof 15.

(** [EulerIntegrate] (wobbly_internal.h:1116-1165) with [time = 1.0] and
    [mass = Model::Mass] as passed by [AnchoredIntegration]
    (wobbly_internal.h:740-748), including [ApplyAccelerativeForce]
    (wobbly_internal.h:1096-1112).  Returns the new position, the new velocity
    and whether velocity remains. *)
Definition euler (friction : T) (p v f : vec T) : vec T * vec T * bool :=
  let time := nof 1 in
  let friction_force := vscale (vadd vzero v) friction in
  let total := vsub f friction_force in
  let acceleration := vscale total (ndiv (nof 1) mass) in
  let additional := vscale acceleration time in
  let v1 := vadd v additional in
  let v2 := reset_if_close (nlit 1 10) v1 in
  let p1 := vadd p (vscale v2 (ndiv time (nof 2))) in
  (p1, v2, nltb nzero (nabs (vx v2)) || nltb nzero (nabs (vy v2))).

(** [AnchoredIntegration::operator()] (wobbly_internal.h:731-753): points with a
    non-zero anchor count get their velocity reset, the others are integrated. *)
Fixpoint integrate_points (friction : T) (counts : list Z) (pos vel frc : list (vec T))
  : list (vec T) * list (vec T) * bool :=
  match counts, pos, vel, frc with
  | c :: cs, p :: ps, v :: vs, f :: fs =>
      let '(ps', vs', more) := integrate_points friction cs ps vs fs in
      if 0 <? c then (p :: ps', vzero :: vs', more)
      else let '(p', v', b) := euler friction p v f in
           (p' :: ps', v' :: vs', b || more)
  | _, _, _, _ => (pos, vel, false)
  end.

(** [SpringStep::operator()] (wobbly_internal.h:1067-1079).  State: positions,
    velocities, anchor blocks. *)
Definition spring_step (k friction : T) (counts : list Z) (ss : list spring)
    (pos vel : list (vec T)) (heap : list block)
  : res (list (vec T) * list (vec T) * list block * bool) :=
  r <- calculate_forces k ss pos heap ;;
  let '(m, forces_exist) := r in
  let '(pos', vel', moving) := integrate_points friction counts pos vel (m_force m) in
  Ok (pos', vel', m_heap m, forces_exist || moving).

(** One point of [ConstrainmentStep::operator()] (wobbly.cpp:1039-1068). *)
Definition constrain_point (max_range : T) (target point : vec T) : vec T * bool :=
  let range := vdist target point in
  if nltb range max_range then (point, false)
  else
    let sin := ndiv (nsub (vy target) (vy point)) range in
    let cos := ndiv (nsub (vx target) (vx point)) range in
    let new_range := nmin2 max_range range in
    let new_delta := mkV (nmul new_range cos) (nmul new_range sin) in
    (vsub target new_delta, true).

Fixpoint constrain_points (max_range : T) (targets pos : list (vec T))
  : list (vec T) * bool :=
  match targets, pos with
  | t :: ts, p :: ps =>
      let '(p', b) := constrain_point max_range t p in
      let '(ps', more) := constrain_points max_range ts ps in
      (p' :: ps', b || more)
  | _, _ => (pos, false)
  end.

(** ** The model *)

(** What a live [Anchor] owns: a locked mesh point (wobbly.cpp:847-879), or an
    inserted anchor: the stolen spring, the identifiers of the two springs that
    replaced it, the storage and the tracking identifier (wobbly.cpp:684-747). *)
Inductive handle : Type :=
| HGrab (i : nat)
| HIns (stolen : spring) (first second : Z) (blk : nat) (aid : Z).

(** [Model::Settings] (wobbly.h:106-111); kept by reference (wobbly.cpp:472). *)
Record settings : Type := mkSettings {
  st_k : T; st_friction : T; st_range : T }.

(** [Model::Private] (wobbly.cpp:430-475), the process-wide spring identifier
    counter, the anchors held by the client, and whether the model object still
    exists. *)
Record model : Type := mkModel {
  mw : T; mh : T;
  mtracked : tracked;                (* mAnchors *)
  mtargets : list (vec T);           (* mTargets.mPoints *)
  mcount : Z;                        (* mTargets.activationCount *)
  mpos : list (vec T);               (* mPositions *)
  mvel : list (vec T);               (* mVelocityIntegrator.velocities *)
  msprings : list spring;            (* mSpring.mesh.mSprings.mSprings *)
  mpending : list Z;                 (* mSpring.mesh.mSprings.mPending *)
  minserted : list (Z * nat);        (* mSpring.mesh.mInserted.mPoints *)
  mnext_anchor : Z;                  (* mSpring.mesh.mInserted.mNextIndex *)
  mheap : list block;                (* storage of inserted anchors *)
  mnext_id : Z;                      (* CurrentSpringID *)
  mset : settings;
  munequal : bool;                   (* mCurrentlyUnequal *)
  mhandles : list (nat * handle);    (* live Anchor objects *)
  mnext_handle : nat;
  malive : bool }.

(** [TargetMesh::Active] (wobbly_internal.h:619-622). *)
Definition active (m : model) : bool := mcount m =? 1.

(** [Model::Private::Private] (wobbly.cpp:478-516); [next] is the current value
    of the process-wide spring identifier counter. *)
Definition model_init (p : vec T) (w h : T) (st : settings) (next : Z) : model :=
  let tile := tile_size w h in
  let pos := position_array p tile in
  mkModel w h (tracked_init mesh_n) pos 0 pos (repeat vzero mesh_n)
          (base_springs tile next) [] [] 0 [] (next + base_spring_count)
          st false [] 0%nat true.

(** Field updates (the fields of [Model::Private], wobbly.cpp:430-475). *)
Definition set_tracked (m : model) (t : tracked) : model :=
  mkModel (mw m) (mh m) t (mtargets m) (mcount m) (mpos m) (mvel m) (msprings m)
          (mpending m) (minserted m) (mnext_anchor m) (mheap m) (mnext_id m)
          (mset m) (munequal m) (mhandles m) (mnext_handle m) (malive m).
Definition set_targets (m : model) (t : list (vec T)) : model :=
  mkModel (mw m) (mh m) (mtracked m) t (mcount m) (mpos m) (mvel m) (msprings m)
          (mpending m) (minserted m) (mnext_anchor m) (mheap m) (mnext_id m)
          (mset m) (munequal m) (mhandles m) (mnext_handle m) (malive m).
Definition set_count (m : model) (c : Z) : model :=
  mkModel (mw m) (mh m) (mtracked m) (mtargets m) c (mpos m) (mvel m) (msprings m)
          (mpending m) (minserted m) (mnext_anchor m) (mheap m) (mnext_id m)
          (mset m) (munequal m) (mhandles m) (mnext_handle m) (malive m).
Definition set_pos (m : model) (p : list (vec T)) : model :=
  mkModel (mw m) (mh m) (mtracked m) (mtargets m) (mcount m) p (mvel m) (msprings m)
          (mpending m) (minserted m) (mnext_anchor m) (mheap m) (mnext_id m)
          (mset m) (munequal m) (mhandles m) (mnext_handle m) (malive m).
Definition set_sim (m : model) (p v : list (vec T)) (h : list block) : model :=
  mkModel (mw m) (mh m) (mtracked m) (mtargets m) (mcount m) p v (msprings m)
          (mpending m) (minserted m) (mnext_anchor m) h (mnext_id m)
          (mset m) (munequal m) (mhandles m) (mnext_handle m) (malive m).
Definition set_springs (m : model) (ss : list spring) (pd : list Z) : model :=
  mkModel (mw m) (mh m) (mtracked m) (mtargets m) (mcount m) (mpos m) (mvel m) ss
          pd (minserted m) (mnext_anchor m) (mheap m) (mnext_id m)
          (mset m) (munequal m) (mhandles m) (mnext_handle m) (malive m).
Definition set_inserted (m : model) (l : list (Z * nat)) (n : Z) : model :=
  mkModel (mw m) (mh m) (mtracked m) (mtargets m) (mcount m) (mpos m) (mvel m) (msprings m)
          (mpending m) l n (mheap m) (mnext_id m)
          (mset m) (munequal m) (mhandles m) (mnext_handle m) (malive m).
Definition set_heap (m : model) (h : list block) : model :=
  mkModel (mw m) (mh m) (mtracked m) (mtargets m) (mcount m) (mpos m) (mvel m) (msprings m)
          (mpending m) (minserted m) (mnext_anchor m) h (mnext_id m)
          (mset m) (munequal m) (mhandles m) (mnext_handle m) (malive m).
Definition set_next_id (m : model) (n : Z) : model :=
  mkModel (mw m) (mh m) (mtracked m) (mtargets m) (mcount m) (mpos m) (mvel m) (msprings m)
          (mpending m) (minserted m) (mnext_anchor m) (mheap m) n
          (mset m) (munequal m) (mhandles m) (mnext_handle m) (malive m).
Definition set_settings (m : model) (st : settings) : model :=
  mkModel (mw m) (mh m) (mtracked m) (mtargets m) (mcount m) (mpos m) (mvel m) (msprings m)
          (mpending m) (minserted m) (mnext_anchor m) (mheap m) (mnext_id m)
          st (munequal m) (mhandles m) (mnext_handle m) (malive m).
Definition set_unequal (m : model) (b : bool) : model :=
  mkModel (mw m) (mh m) (mtracked m) (mtargets m) (mcount m) (mpos m) (mvel m) (msprings m)
          (mpending m) (minserted m) (mnext_anchor m) (mheap m) (mnext_id m)
          (mset m) b (mhandles m) (mnext_handle m) (malive m).
Definition set_handles (m : model) (l : list (nat * handle)) (n : nat) : model :=
  mkModel (mw m) (mh m) (mtracked m) (mtargets m) (mcount m) (mpos m) (mvel m) (msprings m)
          (mpending m) (minserted m) (mnext_anchor m) (mheap m) (mnext_id m)
          (mset m) (munequal m) l n (malive m).
Definition set_size (m : model) (w h : T) : model :=
  mkModel w h (mtracked m) (mtargets m) (mcount m) (mpos m) (mvel m) (msprings m)
          (mpending m) (minserted m) (mnext_anchor m) (mheap m) (mnext_id m)
          (mset m) (munequal m) (mhandles m) (mnext_handle m) (malive m).
Definition set_alive (m : model) (b : bool) : model :=
  mkModel (mw m) (mh m) (mtracked m) (mtargets m) (mcount m) (mpos m) (mvel m) (msprings m)
          (mpending m) (minserted m) (mnext_anchor m) (mheap m) (mnext_id m)
          (mset m) (munequal m) (mhandles m) (mnext_handle m) b.

(** [ConstrainmentStep::operator()] (wobbly.cpp:1026-1072): nothing unless the
    target mesh is active. *)
Definition constrainment (m : model) (pos : list (vec T)) : list (vec T) * bool :=
  if active m then constrain_points (st_range (mset m)) (mtargets m) pos
  else (pos, false).

(** ** Prediction *)

(** The loop [while (Integrate (points, anchors, 1, spring, extra...));] of
    [TargetPositionByFullIntegration] (wobbly.cpp:643-647): each round performs
    the spring step, then the extra step.  [fuel] bounds the rounds; running out
    is the error [NoFuel]. *)
Fixpoint predict_loop (fuel : nat) (k friction : T) (counts : list Z) (ss : list spring)
    (extra : list (vec T) -> list (vec T) * bool)
    (pos vel : list (vec T)) : res (list (vec T)) :=
  match fuel with
  | O => Err NoFuel
  | S fuel' =>
      r <- spring_step k friction counts ss pos vel [] ;;
      let '(pos1, vel1, _, more1) := r in
      let '(pos2, more2) := extra pos1 in
      if more1 || more2 then predict_loop fuel' k friction counts ss extra pos2 vel1
      else Ok pos2
  end.

(** [TargetPositionByFullIntegration] (wobbly.cpp:625-654): a fresh base mesh
    with the current tile size, a copy of positions and velocities, the current
    anchors; the answer is the top-left point of the settled copy.  The fresh
    springs take 24 identifiers from the global counter. *)
Definition predict (fuel : nat) (m : model)
    (extra : list (vec T) -> list (vec T) * bool) : res (vec T) :=
  pos <- predict_loop fuel (st_k (mset m)) (st_friction (mset m)) (t_counts (mtracked m))
           (base_springs (tile_size (mw m) (mh m)) (mnext_id m)) extra (mpos m) (mvel m) ;;
  of_option OutOfBounds (nth_error pos 0).

(** [Model::Private::TargetPosition] (wobbly.cpp:656-673). *)
Definition target_position (fuel : nat) (m : model) : res (vec T * model) :=
  if active m then
    p <- of_option OutOfBounds (nth_error (mtargets m) 0) ;; Ok (p, m)
  else
    p <- predict fuel m (constrainment m) ;;
    Ok (p, set_next_id m (mnext_id m + base_spring_count)).

(** The origin recalculation given to the target mesh (wobbly.cpp:484-497). *)
Definition recalc_targets (fuel : nat) (m : model) : res model :=
  p <- predict fuel m (fun pos => (pos, false)) ;;
  let m1 := set_next_id m (mnext_id m + base_spring_count) in
  Ok (set_targets m1 (position_array p (tile_size (mw m) (mh m)))).

(** [TargetMesh::Activate] (wobbly.cpp:1134-1140). *)
Definition activate (fuel : nat) (m : model) : res model :=
  let m1 := set_count m (mcount m + 1) in
  if mcount m1 =? 1 then recalc_targets fuel m1 else Ok m1.

(** The release function of an activation handle (wobbly.cpp:1154-1160). *)
Definition deactivate (fuel : nat) (m : model) : res model :=
  let m1 := set_count m (mcount m - 1) in
  if mcount m1 =? 1 then recalc_targets fuel m1 else Ok m1.

(** ** Anchors *)

(** The client receives an anchor (wobbly.h:73-100, 130-142). *)
Definition add_handle (m : model) (h : handle) : model :=
  set_handles m (mhandles m ++ [(mnext_handle m, h)]) (S (mnext_handle m)).

(** The anchor behind the [std::unique_ptr] of the client (wobbly.h:85-99). *)
Fixpoint lookup_handle (l : list (nat * handle)) (n : nat) : option handle :=
  match l with
  | [] => None
  | (i, h) :: t => if Nat.eqb i n then Some h else lookup_handle t n
  end.

(** The client gives an anchor up (wobbly.cpp:93-105). *)
Definition remove_handle (l : list (nat * handle)) (n : nat) : list (nat * handle) :=
  filter (fun ih => negb (Nat.eqb (fst ih) n)) l.

(** [Model::GrabAnchor] (wobbly.cpp:899-916): closest point, mark unequal,
    activate the targets, then lock the point (the [GrabAnchor] constructor,
    wobbly.cpp:851-859, runs after the activation). *)
Definition grab_anchor (fuel : nat) (p : vec T) (m : model) : res (model * nat) :=
  i <- of_option AssertFailed (closest_index (mpos m) p) ;;
  m1 <- activate fuel (set_unequal m true) ;;
  t <- tracked_lock i (mtracked m1) ;;
  Ok (add_handle (set_tracked m1 t) (HGrab i), mnext_handle m).

(** [FindSpringToSplit] (wobbly.cpp:311-352): the position in the vector of the
    spring found.  State of the scan: spring found so far, primary and secondary
    distances. *)
Definition find_one (mm : mem) (install : vec T) (idx : nat) (s : spring)
    (acc : option nat * T * T) : res (option nat * T * T) :=
  let '(found, prim, sec) := acc in
  pa <- rd_pos mm (s_pa s) ;;
  let d := vdist pa install in
  let '(found1, prim1, sec1) :=
    if nltb d prim then (Some idx, d, nmax) else (found, prim, sec) in
  if neqb d prim1 then
    pb <- rd_pos mm (s_pb s) ;;
    let e := vdist pb install in
    if nltb e sec1 then Ok (Some idx, prim1, e) else Ok (found1, prim1, sec1)
  else Ok (found1, prim1, sec1).

Fixpoint find_from (mm : mem) (install : vec T) (idx : nat) (ss : list spring)
    (acc : option nat * T * T) : res (option nat * T * T) :=
  match ss with
  | [] => Ok acc
  | s :: t => acc' <- find_one mm install idx s acc ;; find_from mm install (S idx) t acc'
  end.

Definition find_spring (mm : mem) (install : vec T) (ss : list spring) : res nat :=
  acc <- find_from mm install 0 ss (None, nmax, nmax) ;;
  of_option AssertFailed (fst (fst acc)).

(** The lookup [getTarget] (wobbly.cpp:765-788): the first mesh point equal to
    the given position; throws when there is none. *)
Fixpoint index_of_position (pts : list (vec T)) (p : vec T) (i : nat) : option nat :=
  match pts with
  | [] => None
  | q :: t => if vequals p q then Some i else index_of_position t p (S i)
  end.

(** The position preference built by [wrap] (wobbly.cpp:791-825): the target
    position of the spring's end when the target mesh is active, the end itself
    otherwise. *)
Definition desired_position (m : model) (end_pos : vec T) : res (vec T) :=
  if active m then
    i <- of_option Threw (index_of_position (mpos m) end_pos 0) ;;
    of_option OutOfBounds (nth_error (mtargets m) i)
  else Ok end_pos.

Definition mem_of (m : model) : mem := mkMem (mpos m) (repeat vzero mesh_n) (mheap m).

(** [SpringMesh::InstallAnchorSprings] (wobbly.cpp:355-426) followed by the
    construction of the anchor object (wobbly.cpp:827-844). *)
Definition install_anchor (install : vec T) (m : model) : res (model * handle) :=
  idx <- find_spring (mem_of m) install (msprings m) ;;
  found <- of_option OutOfBounds (nth_error (msprings m) idx) ;;
  (* std::unique_ptr <double[]> data (new double[4]); ... *)
  let b := length (mheap m) in
  let m1 := set_heap m (mheap m ++ [Some (install, vzero)]) in
  pa <- rd_pos (mem_of m1) (s_pa found) ;;
  pb <- rd_pos (mem_of m1) (s_pb found) ;;
  da <- desired_position m1 pa ;;
  db <- desired_position m1 pb ;;
  (* TakeMatching (wobbly_internal.h:838-871) *)
  let rest := list_del idx (msprings m1) in
  (* insertSpring (wobbly.cpp:380-397), EmplaceAndTrack (wobbly_internal.h:874-909),
     CreateWithTrackingID (wobbly.cpp:178-199), twice *)
  let id1 := mnext_id m1 + 1 in
  let s1 := mkSpring (LBlk b) (s_fa found) (LBlk b) (s_pa found) (vsub da install) id1 in
  let id2 := id1 + 1 in
  let s2 := mkSpring (LBlk b) (s_fb found) (LBlk b) (s_pb found) (vsub db install) id2 in
  let m2 := set_next_id (set_springs m1 (rest ++ [s1; s2]) (mpending m1)) id2 in
  (* AnchorDataVector::EmplaceAndTrack (wobbly_internal.h:932-959) *)
  let aid := mnext_anchor m2 in
  let m3 := set_inserted m2 (minserted m2 ++ [(aid, b)]) (aid + 1) in
  Ok (m3, HIns found id1 id2 b aid).

(** [Model::InsertAnchor] (wobbly.cpp:918-934).  Simplification: when the lookup
    of a target position throws, the model stops there ([Err Threw]); the
    unwinding of the half-built anchor is not described. *)
Definition insert_anchor (fuel : nat) (p : vec T) (m : model) : res (model * nat) :=
  m1 <- activate fuel (set_unequal m true) ;;
  r <- install_anchor p m1 ;;
  Ok (add_handle (fst r) (snd r), mnext_handle m).

(** The remover installed by [SpringVector::EmplaceAndTrack]
    (wobbly_internal.h:889-904).  [std::remove_if] followed by the erasure of a
    single element: when more than one spring had the identifier, moved-from
    springs would be left behind ([Err MovedFrom]). *)
Definition spring_remover (id : Z) (ss : list spring) (pd : list Z)
  : res (list spring * list Z) :=
  let kept := filter (fun s => negb (s_id s =? id)) ss in
  match (length ss - length kept)%nat with
  | O => Ok (ss, pd ++ [id])
  | S O => Ok (kept, pd)
  | _ => Err MovedFrom
  end.

(** The replacer installed by [SpringVector::TakeMatching]
    (wobbly_internal.h:851-866). *)
Definition spring_replacer (s : spring) (ss : list spring) (pd : list Z)
  : res (list spring * list Z) :=
  let kept := filter (fun id => negb (s_id s =? id)) pd in
  match (length pd - length kept)%nat with
  | O => Ok (ss ++ [s], pd)
  | S O => Ok (ss, kept)
  | _ => Err MovedFrom
  end.

(** [delete] of the anchor's storage; deleting twice is an error (the
    [std::unique_ptr] of wobbly.cpp:745, deleted through wobbly.cpp:93-97). *)
Definition free_blk (h : list block) (b : nat) : res (list block) :=
  match nth_error h b with
  | Some (Some _) => Ok (list_set b None h)
  | Some None => Err UseAfterFree
  | None => Err OutOfBounds
  end.

(** Destruction of what an anchor owns, before its activation handle is
    released ([~ConstrainingAnchor] destroys [strategy], then [handle],
    wobbly_internal.h:665-666).  [~GrabAnchor]: wobbly.cpp:861-864.
    [~InsertedSprings] destroys its members in reverse order
    (wobbly.cpp:742-746): [anchor] (wobbly_internal.h:943-955), [data],
    [second], [first], [stolen]. *)
Definition release_strategy (h : handle) (m : model) : res model :=
  match h with
  | HGrab i => t <- tracked_unlock i (mtracked m) ;; Ok (set_tracked m t)
  | HIns stolen id1 id2 b aid =>
      let m1 := set_inserted m (filter (fun ab => negb (fst ab =? aid)) (minserted m))
                             (mnext_anchor m) in
      hp <- free_blk (mheap m1) b ;;
      let m2 := set_heap m1 hp in
      r2 <- spring_remover id2 (msprings m2) (mpending m2) ;;
      r1 <- spring_remover id1 (fst r2) (snd r2) ;;
      r0 <- spring_replacer stolen (fst r1) (snd r1) ;;
      Ok (set_springs m2 (fst r0) (snd r0))
  end.

(** Destruction of an [Anchor] ([MovableAnchorDeleter], wobbly.cpp:93-97).  An
    empty [Anchor] (already released or moved from) does nothing. *)
Definition release_anchor (fuel : nat) (n : nat) (m : model) : res model :=
  match lookup_handle (mhandles m) n with
  | None => Ok m
  | Some h =>
      if malive m then
        m1 <- release_strategy h (set_handles m (remove_handle (mhandles m) n) (mnext_handle m)) ;;
        deactivate fuel m1
      else Err UseAfterFree
  end.

(** [Anchor::MoveBy] (wobbly.cpp:107-111) through [ConstrainingAnchor::MoveBy]
    (wobbly_internal.h:649-657): first the targets when active
    (wobbly.cpp:1142-1151), then the anchor's own point (wobbly.cpp:866-869,
    731-735). *)
Definition move_anchor (n : nat) (d : vec T) (m : model) : res model :=
  match lookup_handle (mhandles m) n with
  | None => Err NullDeref
  | Some h =>
      if malive m then
        let m1 := if active m then set_targets m (map (fun p => vadd p d) (mtargets m)) else m in
        match h with
        | HGrab i =>
            p <- of_option OutOfBounds (nth_error (mpos m1) i) ;;
            Ok (set_pos m1 (list_set i (vadd p d) (mpos m1)))
        | HIns _ _ _ b _ =>
            pf <- rd_blk (mheap m1) b ;;
            Ok (set_heap m1 (list_set b (Some (vadd (fst pf) d, snd pf)) (mheap m1)))
        end
      else Err UseAfterFree
  end.

(** ** Whole-model operations *)

(** Apply [f] to the position half of every tracked inserted anchor
    ([AnchorDataVector::MoveBy]/[Scale], wobbly_internal.h:961-978). *)
Fixpoint update_inserted (f : vec T -> vec T) (l : list (Z * nat)) (h : list block)
  : res (list block) :=
  match l with
  | [] => Ok h
  | (_, b) :: t =>
      pf <- rd_blk h b ;;
      update_inserted f t (list_set b (Some (f (fst pf), snd pf)) h)
  end.

(** [Model::MoveModelBy] (wobbly.cpp:936-952). *)
Definition move_model_by (d : vec T) (m : model) : res model :=
  let m1 := set_targets (set_pos m (map (fun p => vadd p d) (mpos m)))
                        (map (fun p => vadd p d) (mtargets m)) in
  h <- update_inserted (fun p => vadd p d) (minserted m1) (mheap m1) ;;
  Ok (set_heap m1 h).

(** [Model::MoveModelTo] (wobbly.cpp:954-968). *)
Definition move_model_to (fuel : nat) (p : vec T) (m : model) : res model :=
  r <- target_position fuel m ;;
  move_model_by (vsub p (fst r)) (snd r).

(** The lambda [rescale] of [ResizeModel] (wobbly.cpp:997-1002). *)
Definition rescale (origin f p : vec T) : vec T :=
  vadd (vpscale (vsub p origin) f) origin.

(** [Model::ResizeModel] (wobbly.cpp:970-1017). *)
Definition resize_model (fuel : nat) (w h : T) (m : model) : res model :=
  if negb (nltb nzero w && nltb nzero h) then Err AssertFailed
  else
    let f := mkV (ndiv w (mw m)) (ndiv h (mh m)) in
    if vequals f (mkV (nof 1) (nof 1)) then Ok m
    else
      r <- target_position fuel m ;;
      let '(porigin, m1) := r in
      torigin <- of_option OutOfBounds (nth_error (mtargets m1) 0) ;;
      let m2 := set_targets (set_pos m1 (map (rescale porigin f) (mpos m1)))
                            (map (rescale torigin f) (mtargets m1)) in
      let m3 := set_springs m2 (map (scale_length f) (msprings m2)) (mpending m2) in
      hp <- update_inserted (rescale porigin f) (minserted m3) (mheap m3) ;;
      Ok (set_size (set_heap m3 hp) w h).

(** One round of [PerformIntegration] with the constrainment step first and the
    spring step second, as passed by [Model::Step] (wobbly.cpp:1093-1097). *)
Definition integrate_once (m : model) : res (model * bool) :=
  let '(pos1, more1) := constrainment m (mpos m) in
  r <- spring_step (st_k (mset m)) (st_friction (mset m)) (t_counts (mtracked m))
         (msprings m) pos1 (mvel m) (mheap m) ;;
  let '(pos2, vel2, heap2, more2) := r in
  Ok (set_sim m pos2 vel2 heap2, more1 || more2).

(** The [do ... while (--steps)] loop of [Integrate] (wobbly.cpp:568-604). *)
Fixpoint integrate_n (n : nat) (m : model) (more : bool) : res (model * bool) :=
  match n with
  | O => Ok (m, more)
  | S n' => r <- integrate_once m ;; integrate_n n' (fst r) (more || snd r)
  end.

(** [std::ceil (time / 16.0)] for an [unsigned int] (wobbly.cpp:1084-1086); the
    division by 16 is exact in [double], so this is an integer computation. *)
Definition step_count (time : Z) : nat := Z.to_nat ((time + 15) / 16).

(** [Model::Step] (wobbly.cpp:1079-1113). *)
Definition model_step (time : Z) (m : model) : res (model * bool) :=
  let more0 := if time =? 0 then munequal m else false in
  r <- integrate_n (step_count time) m false ;;
  let '(m1, more1) := r in
  let more := more0 || more1 in
  let m2 := set_unequal m1 more in
  let m3 := if negb more && active m2 then set_pos m2 (mtargets m2) else m2 in
  Ok (m3, more).

(** ** Queries *)

(** [BezierMesh::Extremes] (wobbly.cpp:1172-1253). *)
Definition point_round (p : vec T) : vec T := vmap nround p.

Definition ext_step (acc : vec T * vec T * vec T * vec T) (p : vec T)
  : vec T * vec T * vec T * vec T :=
  let '(tl, tr, bl, br) := acc in
  let x := vx p in let y := vy p in
  (point_round (mkV (nmin2 (vx tl) x) (nmin2 (vy tl) y)),
   point_round (mkV (nmax2 (vx tr) x) (nmin2 (vy tr) y)),
   point_round (mkV (nmin2 (vx bl) x) (nmax2 (vy bl) y)),
   point_round (mkV (nmax2 (vx br) x) (nmax2 (vy br) y))).

Definition extremes_of (pts : list (vec T)) : vec T * vec T * vec T * vec T :=
  let maximum := nmax in
  let minimum := nopp nmax in
  fold_left ext_step pts
    (mkV maximum maximum, mkV minimum maximum, mkV maximum minimum, mkV minimum minimum).

Definition extremes (m : model) := extremes_of (mpos m).

(** ** The public API as a transition system *)

(** The public functions (wobbly.h:73-187). *)
Inductive op : Type :=
| OpGrab (p : vec T)                 (* Model::GrabAnchor *)
| OpInsert (p : vec T)               (* Model::InsertAnchor *)
| OpMoveAnchor (n : nat) (d : vec T) (* Anchor::MoveBy *)
| OpRelease (n : nat)                (* destruction of an Anchor *)
| OpStep (time : Z)                  (* Model::Step, time an unsigned int *)
| OpMoveBy (d : vec T)               (* Model::MoveModelBy *)
| OpMoveTo (p : vec T)               (* Model::MoveModelTo *)
| OpResize (w h : T)                 (* Model::ResizeModel *)
| OpSettings (st : settings)         (* the client writes its Settings object *)
| OpDestroy.                         (* Model::~Model *)

(** What they return (wobbly.h:130-145); queries are functions of the model,
    above. *)
Inductive out : Type :=
| ONone
| OHandle (n : nat)
| OMore (b : bool).

(** All but the functions of [Anchor] (wobbly.h:73-100) are called on the model.
    *)
Definition needs_model (o : op) : bool :=
  match o with
  | OpMoveAnchor _ _ | OpRelease _ | OpSettings _ => false
  | _ => true
  end.

(** One call of a public function (wobbly.h:73-187). *)
Definition step_op (fuel : nat) (m : model) (o : op) : res (model * out) :=
  if needs_model o && negb (malive m) then Err UseAfterFree
  else
    match o with
    | OpGrab p => r <- grab_anchor fuel p m ;; Ok (fst r, OHandle (snd r))
    | OpInsert p => r <- insert_anchor fuel p m ;; Ok (fst r, OHandle (snd r))
    | OpMoveAnchor n d => m' <- move_anchor n d m ;; Ok (m', ONone)
    | OpRelease n => m' <- release_anchor fuel n m ;; Ok (m', ONone)
    | OpStep t => r <- model_step t m ;; Ok (fst r, OMore (snd r))
    | OpMoveBy d => m' <- move_model_by d m ;; Ok (m', ONone)
    | OpMoveTo p => m' <- move_model_to fuel p m ;; Ok (m', ONone)
    | OpResize w h => m' <- resize_model fuel w h m ;; Ok (m', ONone)
    | OpSettings st => Ok (set_settings m st, ONone)
    | OpDestroy => Ok (set_alive m false, ONone)
    end.

(** A history of calls, with the outputs in order; it stops at the first error
    (wobbly.h:73-187). *)
Fixpoint run (fuel : nat) (m : model) (ops : list op) : res (model * list out) :=
  match ops with
  | [] => Ok (m, [])
  | o :: t =>
      r <- step_op fuel m o ;;
      r' <- run fuel (fst r) t ;;
      Ok (fst r', snd r :: snd r')
  end.

End Wobbly.

Arguments mem T : clear implicits.
Arguments block T : clear implicits.
Arguments spring T : clear implicits.
Arguments handle T : clear implicits.
Arguments settings T : clear implicits.
Arguments model T : clear implicits.
Arguments op T : clear implicits.

(** ** Bezier deformation *)

Section Bezier.
Context {D L : Type} `{Num D} `{Num L} `{Conv D L}.

(** The coefficient vectors of [DeformUnitCoordsToMeshSpace]
    (wobbly_internal.h:1288-1313): computed in [double], stored as
    [long double]. *)
Definition bezier_coefs (u : D) : list L :=
  let one_u := nsub (nof 1) u in
  let three_u := nmul (nof 3) u in
  let u_pow2 := nmul u u in
  let one_u_pow2 := nmul one_u one_u in
  map widen
    [ nmul (nmul one_u one_u) one_u;
      nmul three_u one_u_pow2;
      nmul (nmul (nof 3) u_pow2) one_u;
      nmul u_pow2 u ].

(** One accumulation [x += uCoefficients[j] * vCoefficients[i] * mPoints[..]]
    (wobbly_internal.h:1327-1328): the product and the sum are [long double],
    the result is stored as [double]. *)
Definition bezier_acc (uc vc : L) (m acc : D) : D :=
  narrow (nadd (widen acc) (nmul (nmul uc vc) (widen m))).

(** Inner loop over [i] (wobbly_internal.h:1322-1329). *)
Fixpoint bezier_row (uc : L) (vcs : list L) (pts : list (vec D)) (acc : vec D)
  : vec D * list (vec D) :=
  match vcs, pts with
  | vc :: vcs', p :: pts' =>
      bezier_row uc vcs' pts'
        (mkV (bezier_acc uc vc (vx p) (vx acc)) (bezier_acc uc vc (vy p) (vy acc)))
  | _, _ => (acc, pts)
  end.

(** Outer loop over [j] (wobbly_internal.h:1320-1330). *)
Fixpoint bezier_rows (ucs vcs : list L) (pts : list (vec D)) (acc : vec D) : vec D :=
  match ucs with
  | [] => acc
  | uc :: ucs' =>
      let '(acc', pts') := bezier_row uc vcs pts acc in
      bezier_rows ucs' vcs pts' acc'
  end.

(** [BezierMesh::DeformUnitCoordsToMeshSpace] (wobbly_internal.h:1271-1334). *)
Definition deform_points (pts : list (vec D)) (uv : vec D) : vec D :=
  bezier_rows (bezier_coefs (vx uv)) (bezier_coefs (vy uv)) pts (mkV nzero nzero).

(** [Model::DeformTexcoords] (wobbly.cpp:1115-1119). *)
Definition deform_texcoords (m : model D) (uv : vec D) : vec D :=
  deform_points (mpos m) uv.

End Bezier.
