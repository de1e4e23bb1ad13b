(** * Properties C06-C08, C17, C18, C53-C57: the spring network, safety, rest *)

From Coq Require Import ZArith Reals Bool List Lia Permutation.
From Flocq Require Import Core IEEE754.BinarySingleNaN.
From Verif Require Import Num Geometry Outcome Wobbly Spec Cases LemBasic LemInv LemHistory LemNetwork LemLifo
  LemAnchors LemMoves LemForce LemRest LemSettle LemSafe LemStill LemAnchorFacts LemDangle LemNetworkFacts.
Import ListNotations.
Local Open Scope Z_scope.

(** ** C06 *)

(** In every arithmetic and for every order of releases: once no inserted anchor
    is held, the springs are those of the new model (same ends, same identity;
    with the same rest vectors if the model was never resized), nothing awaits
    removal, and no storage of inserted points is left. *)
Theorem C06_network_restored :
  forall (T : Type) (N : Num T) (p : vec T) (w h : T) (st : settings T) (next : Z) (fuel : nat)
         (ops : list (op T)) (m : model T) (us : list out),
    let m0 := model_init p w h st next in
    run fuel m0 ops = Ok (m, us) -> live_inserted ops = [] ->
    Permutation (map ends (msprings m)) (map ends (msprings m0)) /\
    (existsb is_resize ops = false -> Permutation (msprings m) (msprings m0)) /\
    mpending m = [] /\ minserted m = [] /\ (forall b, In b (mheap m) -> b = None) /\ held_springs m = [].
Proof. exact @restored_run. Qed.
Print Assumptions C06_network_restored.

(** With resizing, as long as the model is not resized while an inserted anchor
    is held: the springs are those of a new model of the present size. *)
Theorem C06_network_restored_after_resizing :
  forall (p : vec R) (w h : R) (st : settings R) (next : Z) (fuel : nat)
         (ops : list (op R)) (m : model R) (us : list out),
    (0 < w)%R -> (0 < h)%R ->
    run fuel (model_init p w h st next) ops = Ok (m, us) ->
    live_inserted ops = [] -> calm_history ops ->
    Permutation (msprings m) (msprings (model_init p (mw m) (mh m) st next)).
Proof. exact restored_resized. Qed.
Print Assumptions C06_network_restored_after_resizing.

(** Three insertions, each splitting a spring of the one before, released in
    their order of insertion. *)
Definition splits_in_order : list (op f64) :=
  [OpInsert (pt 10 0); OpInsert (pt 12 0); OpInsert (pt 13 0); OpRelease 0; OpRelease 1; OpRelease 2].
Example C06_case :
  (exists m us, run 60 (start usual) splits_in_order = Ok (m, us)) /\
  live_inserted splits_in_order = [] /\ existsb is_resize splits_in_order = false /\
  (exists m us, run 60 (start usual) (firstn 4 splits_in_order) = Ok (m, us) /\ mpending m <> []).
Proof.
  split; [|split; [reflexivity|split; [reflexivity|]]].
  - destruct (verdict_run usual splits_in_order (fun _ _ => true)) as (m & us & E & _); [vm_compute; reflexivity|eauto].
  - destruct (verdict_run usual (firstn 4 splits_in_order) (fun m _ => match mpending m with [] => false | _ => true end))
      as (m & us & E & C); [vm_compute; reflexivity|].
    exists m, us. split; [exact E|]. intros X. rewrite X in C. discriminate.
Qed.

(** ** C07 *)

(** In every arithmetic: a history that uses only live objects and releases
    inserted anchors newest first never touches freed storage, never leaves an
    array, never dereferences null and never leaves a moved-from element. *)
Theorem C07_reverse_release_is_safe :
  forall (T : Type) (N : Num T) (p : vec T) (w h : T) (st : settings T) (next : Z) (fuel : nat)
         (ops : list (op T)) (e : err),
    careful_history ops -> lifo_history ops ->
    run fuel (model_init p w h st next) ops = Err e ->
    e <> UseAfterFree /\ e <> OutOfBounds /\ e <> NullDeref /\ e <> MovedFrom.
Proof. exact @lifo_safe. Qed.
Print Assumptions C07_reverse_release_is_safe.

Example C07_case :
  let ops := [OpInsert (pt 10 0); OpGrab (pt 0 0); OpInsert (pt 12 0); OpStep 16; OpRelease 1; OpRelease 2;
              OpStep 16; OpRelease 0; OpDestroy] in
  careful_history ops /\ lifo_history ops /\ exists m us, run 60 (start usual) ops = Ok (m, us).
Proof.
  intros ops. split; [|split].
  - unfold ops, careful_history. simpl. repeat split.
  - unfold ops, lifo_history. simpl. repeat split; intros H k Hk;
      repeat match goal with
             | X : _ \/ _ |- _ => destruct X
             | X : (_, _) = (_, _) |- _ => inversion X; clear X; subst
             | X : False |- _ => destruct X
             end; lia.
  - destruct (verdict_run usual ops (fun _ _ => true)) as (m & us & E & _); [vm_compute; reflexivity|eauto].
Qed.

(** ** C08 *)

(** The expectation is false: two insertions, the first one released, one
    [Step]. *)
Theorem C08_any_release_order_is_safe_refuted :
  exists (ops : list (op f64)),
    careful_history ops /\
    run 60 (model_init (pt 0 0) (nof 90) (nof 90) usual 0) ops = Err UseAfterFree.
Proof.
  exists [OpInsert (pt 10 0); OpInsert (pt 12 0); OpRelease 0; OpStep 16]. split.
  - unfold careful_history. simpl. repeat split.
  - apply failure_run. vm_compute. reflexivity.
Qed.
Print Assumptions C08_any_release_order_is_safe_refuted.

(** Not only the next [Step]: whatever the arithmetic and the positions, as soon
    as a spring attached to a released point is in the network, every [Step] of
    a positive time reads freed storage. *)
Theorem C08_every_later_step_fails :
  forall (T : Type) (N : Num T) (p : vec T) (w h : T) (st : settings T) (ops : list (op T)) (m : model T)
         (s : spring T) (b fuel : nat) (t : Z),
    reached p w h st ops m -> In s (msprings m) -> s_pa s = LBlk b \/ s_pb s = LBlk b ->
    nth_error (mheap m) b = Some None -> 0 < t ->
    step_op fuel m (OpStep t) = Err UseAfterFree.
Proof. exact @dangling_step. Qed.
Print Assumptions C08_every_later_step_fails.

(** And that is the only way in which [Step] can fail while the model exists. *)
Theorem C08_step_fails_exactly_when_dangling :
  forall (T : Type) (N : Num T) (p : vec T) (w h : T) (st : settings T) (ops : list (op T)) (m : model T)
         (fuel : nat) (t : Z) (e : err),
    reached p w h st ops m -> c_destroyed (client_after ops) = false -> 0 < t ->
    (step_op fuel m (OpStep t) = Err e <->
     e = UseAfterFree /\
     exists s b, In s (msprings m) /\ (s_pa s = LBlk b \/ s_pb s = LBlk b) /\ nth_error (mheap m) b = Some None).
Proof. exact @step_fails_iff. Qed.
Print Assumptions C08_step_fails_exactly_when_dangling.

Example C08_case :
  exists m s b, reached (pt 0 0) (nof 90) (nof 90) usual [OpInsert (pt 10 0); OpInsert (pt 12 0); OpRelease 0] m /\
    In s (msprings m) /\ (s_pa s = LBlk b \/ s_pb s = LBlk b) /\ nth_error (mheap m) b = Some None.
Proof.
  destruct (verdict_reached usual [OpInsert (pt 10 0); OpInsert (pt 12 0); OpRelease 0]
    (fun m _ => match nth_error (mheap m) 0, find (fun s => loc_eqb (s_pb s) (LBlk 0)) (msprings m) with
                | Some None, Some _ => true | _, _ => false end)) as (m & Hr & us & C);
    [vm_compute; reflexivity|].
  destruct (nth_error (mheap m) 0) as [[|]|] eqn:E; try discriminate C.
  destruct (find _ (msprings m)) as [s|] eqn:F; try discriminate C. apply find_some in F. destruct F as (F1 & F2).
  exists m, s, 0%nat. split; [exact Hr|]. split; [exact F1|]. split; [right|exact E].
  destruct (s_pb s) as [i|b]; [discriminate F2|]. apply Nat.eqb_eq in F2. congruence.
Qed.

(** ** C17 *)

Theorem C17_fresh_model_is_at_rest :
  forall (fuel : nat) (p : vec R) (w h : R) (st : settings R) (next : Z) (ts : list Z),
    exists m', run fuel (model_init p w h st next) (map OpStep ts) = Ok (m', map (fun _ => OMore false) ts) /\
      same_geometry (model_init p w h st next) m'.
Proof. exact fresh_steps. Qed.
Print Assumptions C17_fresh_model_is_at_rest.

(** ** C18 *)

(** When [Step] with a positive time returns false: all velocities are zero,
    every spring is within one unit of its rest vector on each axis, and any
    number of further [Step]s of any length return false and change nothing.
    Excluded: the model was resized while an inserted anchor was held (C15), and
    the single inserted anchor below. *)
Theorem C18_settled_stays_settled :
  forall (p : vec R) (w h : R) (st : settings R) (ops : list (op R)) (m m' : model R) (t : Z),
    (0 < w)%R -> (0 < h)%R -> reached p w h st ops m -> calm_history ops ->
    (forall n, live_anchors ops <> [(n, KInsert)]) -> malive m = true -> 0 < t ->
    model_step t m = Ok (m', false) ->
    (forall v, In v (mvel m') -> v = vzero) /\
    (forall s, In s (msprings m') ->
       exists pa pb, place m' (s_pa s) = Some pa /\ place m' (s_pb s) = Some pb /\ slack pa pb (s_len s)) /\
    (forall (fuel : nat) (ts : list Z),
       exists m'', run fuel m' (map OpStep ts) = Ok (m'', map (fun _ => OMore false) ts) /\ same_geometry m' m'').
Proof. exact settled_stays. Qed.
Print Assumptions C18_settled_stays_settled.

(** The top-left point, grabbed twice, has been moved by half a unit. *)
Example C18_case :
  exists m m' : model R,
    reached (mkV 0 0)%R 90%R 60%R (mkSettings 8 3 500)%R nudge m /\
    calm_history nudge /\ (forall n, live_anchors nudge <> [(n, KInsert)]) /\
    malive m = true /\ nth_error (mpos m) 0 = Some (mkV (1 / 2) 0)%R /\ model_step 16 m = Ok (m', false).
Proof. exact settle_case. Qed.

(** With a single inserted anchor the claim is false: after another anchor is
    released the rest positions are recomputed without regard to the inserted
    one; [Step] reports settling and snaps the mesh out of balance, and the next
    [Step] moves again. *)
Definition insert_disturb : list (op f64) :=
  [OpInsert (pt 40 0); OpMoveAnchor 0 (mkV (nlit 3 2) (nof 0)); OpGrab (pt 0 0); OpRelease 1].
Theorem C18_single_inserted_anchor_refuted :
  exists (m m' m'' : model f64) (ops : list (op f64)),
    reached (pt 0 0) (nof 90) (nof 90) usual ops m /\ calm_history ops /\
    live_anchors ops = [(0%nat, KInsert)] /\
    model_step 16 m = Ok (m', false) /\ model_step 16 m' = Ok (m'', true).
Proof.
  destruct (verdict_reached usual (insert_disturb ++ [OpStep 144])
    (fun m _ => match model_step 16 m with
                | Ok (m1, false) => match model_step 16 m1 with Ok (_, true) => true | _ => false end
                | _ => false end)) as (m & Hr & us & C);
    [vm_compute; reflexivity|].
  destruct (model_step 16 m) as [[m1 []]|] eqn:E1; try discriminate C.
  destruct (model_step 16 m1) as [[m2 []]|] eqn:E2; try discriminate C.
  exists m, m1, m2. eexists. split; [exact Hr|]. split; [|split; [reflexivity|auto]].
  unfold calm_history, insert_disturb. simpl. repeat split; discriminate.
Qed.
Print Assumptions C18_single_inserted_anchor_refuted.

(** ** C53 *)

(** [in_range] ([Spec]): grabbed and inserted positions are less than the
    largest [double] away from the points they are compared with, sizes are
    positive.  The only error left is that the prediction does not finish within
    the given number of rounds (C13). *)
Theorem C53_well_formed_histories_do_not_fail :
  forall (p : vec R) (w h : R) (st : settings R) (ops : list (op R)) (m : model R) (o : op R) (fuel : nat) (e : err),
    reached p w h st ops m -> careful_history (ops ++ [o]) -> lifo_history ops -> in_range m o ->
    step_op fuel m o = Err e -> e = NoFuel.
Proof. exact safe_reached. Qed.
Print Assumptions C53_well_formed_histories_do_not_fail.

(** A reachable state and a call that satisfy the hypotheses (they do not fail
    at all). *)
Example C53_case :
  exists (m m' : model R) (n : nat),
    reached (mkV 0 0)%R 90%R 60%R (mkSettings 8 3 500)%R [OpGrab (mkV 0 0)%R] m /\
    careful_history ([OpGrab (mkV 0 0)] ++ [OpInsert (mkV 0 0)])%R /\ lifo_history [OpGrab (mkV 0 0)%R] /\
    in_range m (OpInsert (mkV 0 0)%R) /\
    step_op 1 m (OpInsert (mkV 0 0)%R) = Ok (m', OHandle n).
Proof.
  destruct insert_case as (m & m' & n & Hr & L & Rg & E). exists m, m', n.
  split; [exact Hr|]. split; [unfold careful_history; simpl; auto|]. split; [exact L|]. split; [exact Rg|exact E].
Qed.

(** Without the restriction on the order of releases and in every arithmetic,
    the calls that can touch freed storage are [Step] and [InsertAnchor]; no call
    leaves an array, uses an empty pointer or leaves a moved-from spring behind;
    [Step] never hangs and no other call throws. *)
Theorem C53_any_release_order :
  forall (T : Type) (N : Num T) (p : vec T) (w h : T) (st : settings T) (ops : list (op T)) (m : model T)
         (o : op T) (fuel : nat) (e : err),
    reached p w h st ops m -> careful_history (ops ++ [o]) -> step_op fuel m o = Err e ->
    match o with
    | OpInsert _ => e = NoFuel \/ e = AssertFailed \/ e = Threw \/ e = UseAfterFree
    | OpStep _ => e = UseAfterFree
    | OpGrab _ | OpResize _ _ => e = NoFuel \/ e = AssertFailed
    | _ => e = NoFuel
    end.
Proof. exact @step_err_reached. Qed.
Print Assumptions C53_any_release_order.

Example C53_any_case :
  let ops := [OpInsert (pt 10 0); OpInsert (pt 12 0); OpRelease 0] in
  exists m, reached (pt 0 0) (nof 90) (nof 90) usual ops m /\ careful_history (ops ++ [OpStep 16]) /\
    c_destroyed (client_after ops) = false /\ step_op 0 m (OpStep 16) = Err UseAfterFree.
Proof.
  destruct C08_case as (m & s & b & Hr & Hin & Hs & Hb). exists m. split; [exact Hr|].
  split; [unfold careful_history; simpl; repeat split|]. split; [reflexivity|].
  exact (C08_every_later_step_fails f64 _ _ _ _ _ _ _ _ _ 0%nat 16 Hr Hin Hs Hb eq_refl).
Qed.

(** ** C54 *)

(** The expectation is false in [double]: a finite position that fails on a new
    model, whatever the prediction bound. *)
Theorem C54_any_finite_position_refuted :
  exists q : vec f64, is_finite (vx q) = true /\ is_finite (vy q) = true /\
    forall fuel, step_op fuel (start usual) (OpGrab q) = Err AssertFailed.
Proof.
  exists (pt (10 ^ 160) 0). split; [vm_compute; reflexivity|]. split; [vm_compute; reflexivity|].
  intros fuel.
  assert (X : closest_index (mpos (start usual)) (pt (10 ^ 160) 0) = None) by (vm_compute; reflexivity).
  unfold step_op. cbn [needs_model start malive model_init negb andb]. unfold grab_anchor.
  change (mpos (model_init (pt 0 0) (nof 90) (nof 90) usual 0)) with (mpos (start usual)).
  rewrite X. reflexivity.
Qed.
Print Assumptions C54_any_finite_position_refuted.

(** ** C55 *)

Theorem C55_identifiers_unique :
  forall (T : Type) (N : Num T) (p : vec T) (w h : T) (st : settings T) (ops : list (op T)) (m : model T),
    reached p w h st ops m ->
    NoDup (map s_id (msprings m ++ held_springs m)) /\ NoDup (mpending m) /\
    incl (mpending m) (map s_id (held_springs m)) /\
    (forall id, In id (mpending m) -> ~ In id (map s_id (msprings m))).
Proof. exact @unique_ids. Qed.
Print Assumptions C55_identifiers_unique.

Example C55_case :
  exists m, reached (pt 0 0) (nof 90) (nof 90) usual [OpInsert (pt 10 0); OpInsert (pt 12 0); OpRelease 0] m /\
    length (msprings m) = 26%nat /\ length (held_springs m) = 1%nat /\ length (mpending m) = 1%nat.
Proof.
  destruct (verdict_reached usual [OpInsert (pt 10 0); OpInsert (pt 12 0); OpRelease 0]
    (fun m _ => Nat.eqb (length (msprings m)) 26 && Nat.eqb (length (held_springs m)) 1 &&
                Nat.eqb (length (mpending m)) 1)%bool) as (m & Hr & us & C);
    [vm_compute; reflexivity|].
  apply andb_prop in C. destruct C as (C & C3). apply andb_prop in C. destruct C as (C1 & C2).
  exists m. split; [exact Hr|]. repeat split; apply Nat.eqb_eq; assumption.
Qed.

(** ** C56 *)

(** In every arithmetic: the springs of a new model are exactly the adjacent
    pairs of the 4 x 4 grid (row-major indices), each once, from the lower to
    the higher index; forces act on the points whose positions are read. *)
Theorem C56_base_network_is_the_grid :
  forall (T : Type) (N : Num T) (p : vec T) (w h : T) (st : settings T) (next : Z),
    let m := model_init p w h st next in
    length (msprings m) = 24%nat /\
    NoDup (map (fun s => (s_pa s, s_pb s)) (msprings m)) /\
    (forall s, In s (msprings m) -> s_fa s = s_pa s /\ s_fb s = s_pb s) /\
    (forall la lb len,
       (exists s, In s (msprings m) /\ s_pa s = la /\ s_pb s = lb /\ s_len s = len) <->
       exists row col, (row < 4 /\ col < 4)%nat /\ la = LMesh (row * 4 + col) /\
         ((col + 1 < 4)%nat /\ lb = LMesh (row * 4 + col + 1) /\ len = mkV (ndiv w (nof 3)) nzero \/
          (row + 1 < 4)%nat /\ lb = LMesh ((row + 1) * 4 + col) /\ len = mkV nzero (ndiv h (nof 3)))).
Proof. exact @base_network. Qed.
Print Assumptions C56_base_network_is_the_grid.

(** ** C57 *)

(** In every arithmetic: the settings in force are the last ones the client
    assigned; assigning them changes nothing else, and a model whose settings
    were assigned after construction is the model constructed with them. *)
Theorem C57_settings_are_the_last_assigned :
  forall (T : Type) (N : Num T) (p : vec T) (w h : T) (st : settings T) (ops : list (op T)) (m : model T),
    reached p w h st ops m -> mset m = last_settings st ops.
Proof. exact @settings_reached. Qed.
Print Assumptions C57_settings_are_the_last_assigned.

Theorem C57_assignment_changes_nothing_else :
  forall (T : Type) (N : Num T) (p : vec T) (w h : T) (st st' : settings T) (next : Z) (fuel : nat)
         (m m' : model T) (u : out),
    (step_op fuel m (OpSettings st') = Ok (m', u) ->
       set_settings m' (mset m) = m /\ mset m' = st' /\ u = ONone) /\
    step_op fuel (model_init p w h st next) (OpSettings st') = Ok (model_init p w h st' next, ONone).
Proof. exact @settings_only. Qed.
Print Assumptions C57_assignment_changes_nothing_else.
