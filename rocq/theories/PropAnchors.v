(** * Properties C01-C05, C20, C51, C52: which anchors act, and on what *)

From Coq Require Import ZArith Reals Bool List Lia.
From Flocq Require Import Core IEEE754.BinarySingleNaN.
From Verif Require Import Num Geometry Outcome Wobbly Spec Cases LemBasic LemInv LemHistory LemNetwork LemLifo
  LemAnchors LemMoves LemForce LemSafe LemStill LemAnchorFacts.
Import ListNotations.
Local Open Scope Z_scope.

(** ** C01 *)

(** [Anchor::MoveBy] drags the rest mesh along exactly when one anchor is live.
    In every arithmetic. *)
Theorem C01_move_drags_rest_mesh :
  forall (T : Type) (N : Num T) (p : vec T) (w h : T) (st : settings T) (ops : list (op T)) (m m' : model T)
         (fuel n : nat) (d : vec T) (u : out),
    reached p w h st ops m ->
    step_op fuel m (OpMoveAnchor n d) = Ok (m', u) ->
    (length (live_anchors ops) = 1%nat -> mtargets m' = map (fun q => vadd q d) (mtargets m)) /\
    (length (live_anchors ops) <> 1%nat -> mtargets m' = mtargets m).
Proof.
  intros T N p w h st ops m m' fuel n d u Hr E. pose proof (reached_active _ _ _ _ _ _ Hr) as A.
  cbn [step_op needs_model andb] in E. inv_ok. rename Ha into E. rewrite (move_anchor_targets _ _ _ _ E).
  destruct (active m); split; intros L; auto; [exfalso; tauto|]. exfalso. apply A in L. discriminate.
Qed.
Print Assumptions C01_move_drags_rest_mesh.

(** Unless exactly one anchor is live, [Step] does not depend on the rest mesh at
    all: replacing the rest positions changes neither the answer nor anything
    else. *)
Theorem C01_step_ignores_rest_mesh :
  forall (T : Type) (N : Num T) (p : vec T) (w h : T) (st : settings T) (ops : list (op T)) (m m' : model T)
         (t : Z) (b : bool) (rest : list (vec T)),
    reached p w h st ops m -> length (live_anchors ops) <> 1%nat ->
    model_step t m = Ok (m', b) ->
    model_step t (set_targets m rest) = Ok (set_targets m' rest, b).
Proof.
  intros T N p w h st ops m m' t b rest Hr L E. pose proof (reached_active _ _ _ _ _ _ Hr) as A.
  rewrite model_step_targets, E; [reflexivity|]. destruct (active m); auto. exfalso. tauto.
Qed.
Print Assumptions C01_step_ignores_rest_mesh.

(** While exactly one anchor is live, each integration first clamps every point
    to its rest position (C23 says how), and a [Step] that reports settling
    leaves every point exactly on its rest position. *)
Theorem C01_single_anchor_clamps :
  forall (T : Type) (N : Num T) (p : vec T) (w h : T) (st : settings T) (ops : list (op T)) (m : model T),
    reached p w h st ops m ->
    fst (constrainment m (mpos m)) =
    if Nat.eqb (length (live_anchors ops)) 1
    then map (fun tq => fst (constrain_point (st_range (mset m)) (fst tq) (snd tq))) (combine (mtargets m) (mpos m))
    else mpos m.
Proof. exact @constrainment_reached. Qed.
Print Assumptions C01_single_anchor_clamps.

Theorem C01_single_anchor_snaps :
  forall (T : Type) (N : Num T) (p : vec T) (w h : T) (st : settings T) (ops : list (op T)) (m m' : model T) (t : Z),
    reached p w h st ops m -> length (live_anchors ops) = 1%nat ->
    model_step t m = Ok (m', false) ->
    mpos m' = mtargets m /\ mtargets m' = mtargets m.
Proof.
  intros T N p w h st ops m m' t Hr L E. apply (reached_active _ _ _ _ _ _ Hr) in L.
  destruct (model_step_snap _ _ _ L E) as (A & B). rewrite A. auto.
Qed.
Print Assumptions C01_single_anchor_snaps.

(** A grab, and a grab plus an insertion: one and two live anchors.  The move of
    the sole grab drags the rest mesh, and a [Step] after a tiny move settles. *)
Example C01_case_one :
  exists m, reached (pt 0 0) (nof 90) (nof 90) stiff [OpGrab (pt 1 2); OpStep 16] m /\
    length (live_anchors [OpGrab (pt 1 2); OpStep 16 : op f64]) = 1%nat /\
    (exists m', step_op 1 m (OpMoveAnchor 0 (pt 7 0)) = Ok (m', ONone)) /\
    (exists m', model_step 16 m = Ok (m', false)).
Proof.
  destruct (verdict_reached stiff [OpGrab (pt 1 2); OpStep 16]
    (fun m _ => match step_op 1 m (OpMoveAnchor 0 (pt 7 0)), model_step 16 m with
                | Ok (_, ONone), Ok (_, false) => true | _, _ => false end)) as (m & Hr & us & C);
    [vm_compute; reflexivity|].
  exists m. split; [exact Hr|]. split; [reflexivity|].
  destruct (step_op 1 m _) as [[m1 []]|]; try discriminate C.
  destruct (model_step 16 m) as [[m2 []]|]; try discriminate C. eauto.
Qed.

Example C01_case_two :
  exists m, reached (pt 0 0) (nof 90) (nof 90) usual
              [OpGrab (pt 1 2); OpInsert (pt 40 0); OpMoveAnchor 0 (pt 9 5)] m /\
    length (live_anchors [OpGrab (pt 1 2); OpInsert (pt 40 0); OpMoveAnchor 0 (pt 9 5)]) = 2%nat /\
    (exists m', model_step 32 m = Ok (m', true)).
Proof.
  destruct (verdict_reached usual [OpGrab (pt 1 2); OpInsert (pt 40 0); OpMoveAnchor 0 (pt 9 5)]
    (fun m _ => match model_step 32 m with Ok (_, true) => true | _ => false end)) as (m & Hr & us & C);
    [vm_compute; reflexivity|].
  exists m. split; [exact Hr|]. split; [reflexivity|].
  destruct (model_step 32 m) as [[m2 []]|]; try discriminate C. eauto.
Qed.

(** ** C02 *)

(** One integration, in every arithmetic: a grabbed point keeps its (clamped)
    position and gets velocity zero, any other point is moved by the Euler step
    under the force accumulated for it. *)
Theorem C02_integration_skips_exactly_grabbed_points :
  forall (T : Type) (N : Num T) (p : vec T) (w h : T) (st : settings T) (ops : list (op T)) (m m' : model T)
         (b : bool) (i : nat),
    reached p w h st ops m -> Z.of_nat (length ops) < two32 -> (i < 16)%nat ->
    integrate_once m = Ok (m', b) ->
    exists q v f mm more,
      nth_error (fst (constrainment m (mpos m))) i = Some q /\ nth_error (mvel m) i = Some v /\
      calculate_forces (st_k (mset m)) (msprings m) (fst (constrainment m (mpos m))) (mheap m) = Ok (mm, more) /\
      nth_error (m_force mm) i = Some f /\
      (grabbed m i -> nth_error (mpos m') i = Some q /\ nth_error (mvel m') i = Some vzero) /\
      (~ grabbed m i ->
         nth_error (mpos m') i = Some (fst (fst (euler (st_friction (mset m)) q v f))) /\
         nth_error (mvel m') i = Some (snd (fst (euler (st_friction (mset m)) q v f)))).
Proof.
  intros T N p w h st ops m m' b i Hr Hb Hi E.
  exact (integrate_once_point m m' b i (inv_reached _ _ _ _ _ _ Hr) (reached_bound _ _ _ _ _ _ Hr Hb) Hi E).
Qed.
Print Assumptions C02_integration_skips_exactly_grabbed_points.

(** The same over the reals, with the law of motion spelled out. *)
Theorem C02_motion_law :
  forall (p : vec R) (w h : R) (st : settings R) (ops : list (op R)) (m m' : model R) (b : bool) (i : nat),
    reached p w h st ops m -> Z.of_nat (length ops) < two32 -> (i < 16)%nat ->
    integrate_once m = Ok (m', b) ->
    let pos := fst (constrainment m (mpos m)) in
    exists q v,
      nth_error pos i = Some q /\ nth_error (mvel m) i = Some v /\
      (grabbed m i -> nth_error (mpos m') i = Some q /\ nth_error (mvel m') i = Some vzero) /\
      (~ grabbed m i ->
         exists q' v', nth_error (mpos m') i = Some q' /\ nth_error (mvel m') i = Some v' /\
           moves (st_friction (mset m)) q v
                 (net_force (st_k (mset m)) (place_of pos (mheap m)) (LMesh i) (msprings m)) q' v').
Proof. exact integrate_once_moves. Qed.
Print Assumptions C02_motion_law.

(** Which points are grabbed is decided by the client's own history: an anchor
    obtained by a grab holds one and the same point from its acquisition until
    its release, and releasing another anchor of the same point does not free
    it. *)
Theorem C02_attachment_is_permanent :
  forall (T : Type) (N : Num T) (p : vec T) (w h : T) (st : settings T) (ops more : list (op T)) (m m' : model T)
         (fuel n i : nat) (us : list out),
    reached p w h st ops m ->
    lookup_handle (mhandles m) n = Some (HGrab i) ->
    run fuel m more = Ok (m', us) ->
    In n (map fst (live_anchors (ops ++ more))) ->
    lookup_handle (mhandles m') n = Some (HGrab i) /\ grabbed m' i.
Proof. exact @attachment_reached. Qed.
Print Assumptions C02_attachment_is_permanent.

(** Conversely a point is held only by an anchor that is still live. *)
Theorem C02_only_live_grabs_hold :
  forall (T : Type) (N : Num T) (p : vec T) (w h : T) (st : settings T) (ops : list (op T)) (m : model T) (i : nat),
    reached p w h st ops m -> grabbed m i ->
    exists n, In (n, KGrab) (live_anchors ops) /\ lookup_handle (mhandles m) n = Some (HGrab i).
Proof. exact @grabbed_live. Qed.
Print Assumptions C02_only_live_grabs_hold.

(** Two grabs of one point, one of them released: the point is still held; the
    other points are free. *)
Definition two_grabs_one_release : list (op f64) :=
  [OpGrab (pt 1 2); OpGrab (pt 2 1); OpRelease 0; OpMoveAnchor 1 (pt 20 5)].
Example C02_case :
  exists m, reached (pt 0 0) (nof 90) (nof 90) usual two_grabs_one_release m /\
    Z.of_nat (length two_grabs_one_release) < two32 /\
    grabbed m 0 /\ ~ grabbed m 1 /\
    (exists m', integrate_once m = Ok (m', true)).
Proof.
  destruct (verdict_reached usual two_grabs_one_release
    (fun m _ => match mhandles m, integrate_once m with
                | [(1%nat, HGrab 0%nat)], Ok (_, true) => true | _, _ => false end)) as (m & Hr & us & C);
    [vm_compute; reflexivity|].
  exists m. split; [exact Hr|]. split; [reflexivity|].
  destruct (mhandles m) as [|[[|[|n]] [[|i]|]] [|]] eqn:E; try discriminate C.
  split; [exists 1%nat; rewrite E; reflexivity|].
  split; [intros (k & K); rewrite E in K; cbn [lookup_handle] in K; destruct (Nat.eqb 1 k); discriminate K|].
  destruct (integrate_once m) as [[m2 []]|]; try discriminate C. eauto.
Qed.

(** ** C03 *)

(** [held l i] is the number of locks of [i] in [l] minus the number of unlocks
    ([Spec]).  The bound is that of the 32-bit counters. *)
Theorem C03_first_anchor_is_locked :
  forall (n : nat) (l : list lock_op),
    balanced n l -> Z.of_nat (length l) < two32 ->
    exists t, lock_run (tracked_init n) l = Ok t /\
      (forall i, (i < n)%nat -> nth_error (t_counts t) i = Some (held l i)) /\
      (forall i, t_first t = Some i -> (i < n)%nat /\ 0 < held l i) /\
      (t_first t = None -> forall i, (i < n)%nat -> held l i = 0).
Proof.
  intros n l B L. destruct (lock_run_spec n l B L) as (t & E & [Hl Hc Hf]). exists t.
  split; [exact E|]. split; [exact Hc|]. destruct (t_first t) as [j|].
  - split; [intros i X; injection X as <-; exact Hf|discriminate].
  - split; [discriminate|intros _; exact Hf].
Qed.
Print Assumptions C03_first_anchor_is_locked.

(** The first anchor stays first for as long as it is held, whatever else is
    locked and unlocked. *)
Theorem C03_first_anchor_is_kept :
  forall (n : nat) (l : list lock_op) (o : lock_op) (t t' : tracked) (i : nat),
    balanced n (l ++ [o]) -> Z.of_nat (length (l ++ [o])) < two32 ->
    lock_run (tracked_init n) l = Ok t -> lock_run (tracked_init n) (l ++ [o]) = Ok t' ->
    t_first t = Some i -> 0 < held (l ++ [o]) i -> t_first t' = Some i.
Proof. exact first_kept. Qed.
Print Assumptions C03_first_anchor_is_kept.

Example C03_case :
  let l := [Lock 3; Lock 5; Lock 5; Lock 3; Unlock 3; Unlock 3] in
  balanced 16 l /\ Z.of_nat (length l) < two32 /\
  exists t, lock_run (tracked_init 16) l = Ok t /\ t_first t = Some 5%nat.
Proof.
  split; [|split; [reflexivity|eexists; split; reflexivity]].
  intros before o after E.
  do 6 (destruct before as [|? before]; simpl in E; [injection E as <- <-; simpl; lia|injection E as <- E]).
  destruct before; discriminate E.
Qed.

(** ** C04 *)

Theorem C04_grab_takes_nearest :
  forall (p : vec R) (w h : R) (st : settings R) (ops : list (op R)) (m m' : model R) (fuel n : nat) (q : vec R),
    reached p w h st ops m ->
    step_op fuel m (OpGrab q) = Ok (m', OHandle n) ->
    exists i, nearest (mpos m) q i /\ lookup_handle (mhandles m') n = Some (HGrab i) /\
      mpos m' = mpos m /\ mvel m' = mvel m.
Proof. exact grab_nearest. Qed.
Print Assumptions C04_grab_takes_nearest.

(** A point at a distance below the largest [double] can be grabbed. *)
Theorem C04_grab_fails_only_out_of_range :
  forall (p : vec R) (w h : R) (st : settings R) (ops : list (op R)) (m : model R) (fuel : nat) (q : vec R),
    reached p w h st ops m ->
    step_op fuel m (OpGrab q) = Err AssertFailed ->
    forall i r, nth_error (mpos m) i = Some r -> (Rmaxv <= euclid q r)%R.
Proof. exact grab_assert. Qed.
Print Assumptions C04_grab_fails_only_out_of_range.

Example C04_case :
  exists m m' : model R,
    reached (mkV 5 7)%R 90%R 60%R (mkSettings 8 3 500)%R [OpGrab (mkV 5 7)%R] m /\
    step_op 1 m (OpGrab (mkV 5 7)%R) = Ok (m', OHandle 1).
Proof. exact grab_case. Qed.

(** ** C05 *)

(** Distances are compared first-end first.  The rest vectors of the two new
    springs are the present offsets of the two ends; when the inserted anchor is
    the only one, the offsets of their rest positions. *)
Theorem C05_insert_splits_nearest_spring :
  forall (p : vec R) (w h : R) (st : settings R) (ops : list (op R)) (m m' : model R) (q : vec R) (fuel n : nat),
    reached p w h st ops m -> lifo_history ops ->
    (forall l r, place m l = Some r -> (euclid q r < Rmaxv)%R) ->
    step_op fuel m (OpInsert q) = Ok (m', OHandle n) ->
    exists idx s pa pb s1 s2 blk,
      nth_error (msprings m) idx = Some s /\ place m (s_pa s) = Some pa /\ place m (s_pb s) = Some pb /\
      (forall j r ra rb, nth_error (msprings m) j = Some r ->
         place m (s_pa r) = Some ra -> place m (s_pb r) = Some rb ->
         key_less (euclid pa q, euclid pb q) (euclid ra q, euclid rb q) \/
         ((euclid pa q, euclid pb q) = (euclid ra q, euclid rb q) /\ (idx <= j)%nat)) /\
      msprings m' = list_del idx (msprings m) ++ [s1; s2] /\
      s_pa s1 = LBlk blk /\ s_pb s1 = s_pa s /\ s_fa s1 = LBlk blk /\ s_fb s1 = s_fa s /\
      s_pa s2 = LBlk blk /\ s_pb s2 = s_pb s /\ s_fa s2 = LBlk blk /\ s_fb s2 = s_fb s /\
      place m (LBlk blk) = None /\ place m' (LBlk blk) = Some q /\ anchor_point m' n = Some q /\
      mpos m' = mpos m /\ mvel m' = mvel m /\
      (live_anchors ops <> [] -> s_len s1 = vsub pa q /\ s_len s2 = vsub pb q) /\
      (live_anchors ops = [] -> exists i j ta tb,
         nth_error (mpos m) i = Some pa /\ nth_error (mtargets m') i = Some ta /\ s_len s1 = vsub ta q /\
         nth_error (mpos m) j = Some pb /\ nth_error (mtargets m') j = Some tb /\ s_len s2 = vsub tb q).
Proof. exact insert_splits. Qed.
Print Assumptions C05_insert_splits_nearest_spring.

Example C05_case :
  exists (m m' : model R) (n : nat),
    reached (mkV 0 0)%R 90%R 60%R (mkSettings 8 3 500)%R [OpGrab (mkV 0 0)%R] m /\
    lifo_history [OpGrab (mkV 0 0)%R] /\
    (forall l r, place m l = Some r -> (euclid (mkV 0 0) r < Rmaxv)%R) /\
    step_op 1 m (OpInsert (mkV 0 0)%R) = Ok (m', OHandle n).
Proof. exact insert_case. Qed.

(** ** C20 *)

(** In every arithmetic; [t] is the argument of [Step]. *)
Theorem C20_grabbed_points_stay :
  forall (T : Type) (N : Num T) (p : vec T) (w h : T) (st : settings T) (ops : list (op T)) (m m' : model T)
         (t : Z) (b : bool) (i : nat),
    reached p w h st ops m -> Z.of_nat (length ops) < two32 ->
    (2 <= length (live_anchors ops))%nat -> grabbed m i ->
    model_step t m = Ok (m', b) ->
    nth_error (mpos m') i = nth_error (mpos m) i /\
    (0 < t -> nth_error (mvel m') i = Some vzero).
Proof. exact @step_grabbed. Qed.
Print Assumptions C20_grabbed_points_stay.

Example C20_case :
  exists m, reached (pt 0 0) (nof 90) (nof 90) usual
              [OpGrab (pt 1 2); OpInsert (pt 40 0); OpMoveAnchor 0 (pt 9 5); OpMoveAnchor 1 (pt 8 8)] m /\
    grabbed m 0 /\ (exists m', model_step 16 m = Ok (m', true)).
Proof.
  destruct (verdict_reached usual [OpGrab (pt 1 2); OpInsert (pt 40 0); OpMoveAnchor 0 (pt 9 5); OpMoveAnchor 1 (pt 8 8)]
    (fun m _ => match mhandles m, model_step 16 m with
                | (0%nat, HGrab 0%nat) :: _, Ok (_, true) => true | _, _ => false end)) as (m & Hr & us & C);
    [vm_compute; reflexivity|].
  exists m. split; [exact Hr|].
  destruct (mhandles m) as [|[[|n] [[|i]|]] l] eqn:E; try discriminate C.
  split; [exists 0%nat; rewrite E; reflexivity|].
  destruct (model_step 16 m) as [[m2 []]|]; try discriminate C. eauto.
Qed.

(** ** C51 *)

(** Moving a grab: its mesh point moves by [d], no other mesh point and no
    inserted point does.  Moving an inserted anchor: its inserted point moves by
    [d], no mesh point and no other inserted point does. *)
Theorem C51_move_by_moves_only_its_point :
  forall (T : Type) (N : Num T) (p : vec T) (w h : T) (st : settings T) (ops : list (op T)) (m m' : model T)
         (fuel n : nat) (d : vec T) (u : out),
    reached p w h st ops m ->
    step_op fuel m (OpMoveAnchor n d) = Ok (m', u) ->
    (exists q, anchor_point m n = Some q /\ anchor_point m' n = Some (vadd q d)) /\
    (forall i, lookup_handle (mhandles m) n = Some (HGrab i) ->
       (forall j, j <> i -> nth_error (mpos m') j = nth_error (mpos m) j) /\
       (forall k s a b blk aid, lookup_handle (mhandles m) k = Some (HIns s a b blk aid) ->
          anchor_point m' k = anchor_point m k)) /\
    (forall s a b blk aid, lookup_handle (mhandles m) n = Some (HIns s a b blk aid) ->
       mpos m' = mpos m /\ (forall k, k <> n -> anchor_point m' k = anchor_point m k)) /\
    mvel m' = mvel m /\ msprings m' = msprings m /\ mhandles m' = mhandles m /\ mw m' = mw m /\ mh m' = mh m.
Proof. exact @move_by_reached. Qed.
Print Assumptions C51_move_by_moves_only_its_point.

Example C51_case :
  exists m, reached (pt 0 0) (nof 90) (nof 90) usual [OpGrab (pt 1 2); OpInsert (pt 40 0)] m /\
    (exists m', step_op 1 m (OpMoveAnchor 1 (pt 8 8)) = Ok (m', ONone)) /\
    (exists m', step_op 1 m (OpMoveAnchor 0 (pt 8 8)) = Ok (m', ONone)).
Proof.
  destruct (verdict_reached usual [OpGrab (pt 1 2); OpInsert (pt 40 0)]
    (fun m _ => match step_op 1 m (OpMoveAnchor 1 (pt 8 8)), step_op 1 m (OpMoveAnchor 0 (pt 8 8)) with
                | Ok (_, ONone), Ok (_, ONone) => true | _, _ => false end)) as (m & Hr & us & C);
    [vm_compute; reflexivity|].
  exists m. split; [exact Hr|].
  destruct (step_op 1 m (OpMoveAnchor 1 _)) as [[m1 []]|]; try discriminate C.
  destruct (step_op 1 m (OpMoveAnchor 0 _)) as [[m2 []]|]; try discriminate C. eauto.
Qed.

(** ** C52 *)

(** In every arithmetic.  [moves_points o n]: the call is [MoveBy] or the release
    of anchor [n], or moves or resizes the whole model ([Spec]). *)
Theorem C52_simulation_never_moves_inserted_points :
  forall (T : Type) (N : Num T) (p : vec T) (w h : T) (st : settings T) (ops : list (op T)) (m m' : model T)
         (fuel n : nat) (o : op T) (u : out),
    reached p w h st ops m -> In (n, KInsert) (live_anchors ops) ->
    ~ moves_points o n ->
    step_op fuel m o = Ok (m', u) ->
    anchor_point m n <> None /\ anchor_point m' n = anchor_point m n.
Proof. exact @inserted_reached. Qed.
Print Assumptions C52_simulation_never_moves_inserted_points.

Example C52_case :
  exists m, reached (pt 0 0) (nof 90) (nof 90) usual [OpInsert (pt 40 0); OpMoveAnchor 0 (pt 8 8)] m /\
    In (0%nat, KInsert) (live_anchors [OpInsert (pt 40 0); OpMoveAnchor 0 (pt 8 8)]) /\
    ~ moves_points (OpStep 48 : op f64) 0 /\
    (exists m', step_op 1 m (OpStep 48) = Ok (m', OMore true)).
Proof.
  destruct (verdict_reached usual [OpInsert (pt 40 0); OpMoveAnchor 0 (pt 8 8)]
    (fun m _ => match step_op 1 m (OpStep 48) with Ok (_, OMore true) => true | _ => false end)) as (m & Hr & us & C);
    [vm_compute; reflexivity|].
  exists m. split; [exact Hr|]. split; [left; reflexivity|]. split; [exact (fun x => x)|].
  destruct (step_op 1 m (OpStep 48)) as [[m1 [|? |[]]]|]; try discriminate C. eauto.
Qed.
