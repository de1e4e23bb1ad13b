(** * C23, C27 and C28 in [double] arithmetic *)

From Coq Require Import ZArith Reals Bool List Lra Lia.
From Flocq Require Import Core IEEE754.BinarySingleNaN.
From Verif Require Import Num Geometry Outcome Wobbly Spec SpecDouble SpecMotion SpecHold SpecMesh Cases LemHistory LemDouble LemStall64 LemRange64 LemDeform64 PropDeform.
Import ListNotations.
Local Open Scope R_scope.

(** One live anchor, one integration, in the arithmetic the library computes in.
    The range, the point and its rest position are at most [2^j]; the range is
    not below [2^-400].  The point is first confined to the range around its rest
    position, up to an error of [2^(j-45)] per axis (a point nearer by one part
    in [2^48] is not touched at all), then moved by half its new velocity.  So it
    ends no farther from its rest position than the range plus half its speed
    plus [2^(j-43)]. *)
Theorem C23_constrainment_in_double :
  forall (p : vec f64) (w h : f64) (st : settings f64) (ops : list (op f64)) (m m' : model f64) (b : bool) (t : Z) (i : nat)
         (y z : vec f64) (j : Z) (fuel : nat),
    reached p w h st ops m -> (Z.of_nat (length ops) < two32)%Z -> length (live_anchors ops) = 1%nat ->
    (-400 <= j <= 500)%Z -> within j (st_range (mset m)) -> bpow radix2 (-400) <= B2R (st_range (mset m)) ->
    (0 < t <= 16)%Z -> step_op fuel m (OpStep t) = Ok (m', OMore b) ->
    nth_error (mpos m) i = Some y -> nth_error (mtargets m) i = Some z -> point_within j y -> point_within j z ->
    exists z' v' c q, nth_error (mtargets m') i = Some z /\ nth_error (mpos m') i = Some z' /\ nth_error (mvel m') i = Some v' /\
      confined (B2R (st_range (mset m))) (real_point z) (real_point y) q /\ near_point (bpow radix2 (j - 45)) c q /\
      (euclid (real_point z) (real_point y) <= (1 - bpow radix2 (-48)) * B2R (st_range (mset m)) -> c = y) /\
      (b = true -> (z' = c /\ v' = vzero) \/
         z' = rounded_sum c (mkV (nmul (vx v') (ndiv (nof 1) (nof 2))) (nmul (vy v') (ndiv (nof 1) (nof 2))))) /\
      (b = false -> z' = z) /\
      (point_within j z' ->
         euclid (real_point z) (real_point z') <= B2R (st_range (mset m)) + magnitude (real_point v') / 2 + bpow radix2 (j - 43)).
Proof. exact constrained_step64. Qed.
Print Assumptions C23_constrainment_in_double.

(** A corner pulled by 600 with range 500: the second point is 600 from its rest
    position before the step, and closer than 502 after it (the allowed error
    is [2^-33]). *)
Example C23_double_case :
  let pulled := [OpGrab (pt 0 0); OpMoveAnchor 0 (pt 600 0)] in
  exists m m' z' : _, exists b,
    reached (pt 0 0) (nof 90) (nof 90) usual pulled m /\ length (live_anchors pulled) = 1%nat /\
    st_range (mset m) = nof 500 /\ within 10 (nof 500 : f64) /\ step_op 0 m (OpStep 16) = Ok (m', OMore b) /\
    nth_error (mpos m) 1 = Some (pt 30 0) /\ nth_error (mtargets m) 1 = Some (pt 630 0) /\
    point_within 10 (pt 30 0) /\ point_within 10 (pt 630 0) /\
    nth_error (mpos m') 1 = Some z' /\ nltb (vdist (pt 630 0) z') (nof 502) = true.
Proof.
  cbv zeta.
  match goal with |- context [reached _ _ _ ?st ?ops _] =>
    destruct (verdict_reached st ops (fun m _ =>
      match nth_error (mpos m) 1, nth_error (mtargets m) 1 with
      | Some y, Some z => same_v64 y (pt 30 0) && same_v64 z (pt 630 0) && same_f64 (st_range (mset m)) (nof 500)
      | _, _ => false
      end &&
      match step_op 0 m (OpStep 16) with
      | Ok (m', OMore b) => match nth_error (mpos m') 1 with Some z' => nltb (vdist (pt 630 0) z') (nof 502) | None => false end
      | _ => false
      end)%bool) as (m & Hr & us & C) end;
    [vm_compute; reflexivity|].
  apply andb_prop in C. destruct C as (C1 & C2).
  destruct (nth_error (mpos m) 1) as [y|] eqn:Ey; [|discriminate C1]. destruct (nth_error (mtargets m) 1) as [z|] eqn:Ez; [|discriminate C1].
  apply andb_prop in C1. destruct C1 as (C1 & C3). apply andb_prop in C1. destruct C1 as (C1 & C4).
  apply same_v64_eq in C1. apply same_v64_eq in C4. apply same_f64_eq in C3. subst y z.
  remember (step_op 0 m (OpStep 16)) as r eqn:Er. destruct r as [[m' u]|]; [|discriminate C2]. destruct u as [| |b]; try discriminate C2.
  destruct (nth_error (mpos m') 1) as [z'|] eqn:Ez'; [|discriminate C2].
  assert (W : forall n, (Z.abs n <= 1024)%Z -> within 10 (nof n : f64)).
  { intros n Hn. destruct (of_ok n ltac:(lia)) as (F & V). split; [exact F|]. rewrite V, <- abs_IZR. change (bpow radix2 10) with 1024. apply IZR_le. lia. }
  exists m, m', z', b. split; [exact Hr|]. split; [reflexivity|]. split; [exact C3|]. split; [apply W; lia|]. split; [symmetry; exact Er|].
  split; [exact Ey|]. split; [exact Ez|]. split; [split; apply W; cbn; lia|]. split; [split; apply W; cbn; lia|]. split; [exact Ez'|exact C2].
Qed.

(** ** C27 *)

(** The deformed point is, up to [2^(j-43)] on each axis, the combination of the
    mesh points with the weights of the cubic Bezier surface, which are not
    negative and add up to one. *)
Theorem C27_convex_combination_in_double :
  forall (p : vec f64) (w h : f64) (st : settings f64) (ops : list (op f64)) (m : model f64) (j : Z) (u v : f64),
    reached p w h st ops m -> (-400 <= j <= 900)%Z -> (forall q, In q (mpos m) -> point_within j q) ->
    is_finite u = true -> is_finite v = true -> 0 <= B2R u <= 1 -> 0 <= B2R v <= 1 ->
    convex_weights (bezier_weights (B2R u) (B2R v)) /\
    near_point (bpow radix2 (j - 43)) (deform_texcoords (L:=f80) m (mkV u v))
      (combination (bezier_weights (B2R u) (B2R v)) (map real_point (mpos m))).
Proof. exact deform_double. Qed.
Print Assumptions C27_convex_combination_in_double.

(** So it lies in every half-plane that contains the mesh, up to that error. *)
Theorem C27_inside_every_half_plane_in_double :
  forall (p : vec f64) (w h : f64) (st : settings f64) (ops : list (op f64)) (m : model f64) (j : Z) (u v : f64) (a b c : R),
    reached p w h st ops m -> (-400 <= j <= 900)%Z -> (forall q, In q (mpos m) -> point_within j q) ->
    is_finite u = true -> is_finite v = true -> 0 <= B2R u <= 1 -> 0 <= B2R v <= 1 ->
    (forall q, In q (mpos m) -> a * B2R (vx q) + b * B2R (vy q) <= c) ->
    a * B2R (vx (deform_texcoords (L:=f80) m (mkV u v))) + b * B2R (vy (deform_texcoords (L:=f80) m (mkV u v)))
      <= c + (Rabs a + Rabs b) * bpow radix2 (j - 43).
Proof. exact half_plane_double. Qed.
Print Assumptions C27_inside_every_half_plane_in_double.

(** A deformed mesh whose coordinates are below 1024, and a texture coordinate
    that is rounded (one third). *)
Example C27_double_case :
  let pulled := [OpGrab (pt 0 0); OpMoveAnchor 0 (pt 7 5); OpStep 16] in
  exists m : model f64,
    reached (pt 0 0) (nof 90) (nof 90) usual pulled m /\ (forall q, In q (mpos m) -> point_within 10 q) /\
    is_finite (ndiv (nof 1) (nof 3) : f64) = true /\ 0 <= B2R (ndiv (nof 1) (nof 3) : f64) <= 1 /\
    exists q, nth_error (mpos m) 0 = Some q /\ nltb (nof 2) (vx q) = true.
Proof.
  cbv zeta.
  match goal with |- context [reached _ _ _ ?st ?ops _] =>
    destruct (verdict_reached st ops (fun m _ =>
      forallb (fun q => nltb (nabs (vx q)) (nof 1024) && nltb (nabs (vy q)) (nof 1024)) (mpos m) &&
      match nth_error (mpos m) 0 with Some q => nltb (nof 2) (vx q) | None => false end)%bool) as (m & Hr & us & C) end;
    [vm_compute; reflexivity|].
  apply andb_prop in C. destruct C as (C1 & C2).
  assert (W : forall x : f64, nltb (nabs x) (nof 1024) = true -> within 10 x).
  { intros x E. destruct (of_ok 1024) as (F & V); [reflexivity|].
    assert (Fx : is_finite x = true) by (destruct x as [s|s| |s mx e Hb]; auto; discriminate E).
    split; [exact Fx|]. destruct (abs_ok x Fx) as (Fa & Va). rewrite (ltb_ok _ _ Fa F) in E. rewrite Va, V in E.
    change (bpow radix2 10) with 1024. destruct (Rlt_bool_spec (Rabs (B2R x)) 1024); [lra|discriminate E]. }
  exists m. split; [exact Hr|]. split.
  { intros q Hq. rewrite forallb_forall in C1. apply C1 in Hq. apply andb_prop in Hq. destruct Hq. split; apply W; assumption. }
  split; [vm_compute; reflexivity|]. split.
  { destruct (of_ok 0) as (F0 & V0); [reflexivity|]. destruct (of_ok 1) as (F1 & V1); [reflexivity|].
    assert (F : is_finite (ndiv (nof 1) (nof 3) : f64) = true) by (vm_compute; reflexivity).
    assert (A : nleb (nof 0) (ndiv (nof 1) (nof 3) : f64) = true) by (vm_compute; reflexivity).
    assert (B : nleb (ndiv (nof 1) (nof 3) : f64) (nof 1) = true) by (vm_compute; reflexivity).
    rewrite (leb_ok _ _ F0 F) in A. rewrite (leb_ok _ _ F F1) in B. rewrite V0 in A. rewrite V1 in B.
    set (x := B2R (ndiv (nof 1) (nof 3) : f64)) in *. destruct (Rle_bool_spec 0 x); [|discriminate A]. destruct (Rle_bool_spec x 1); [|discriminate B]. lra. }
  destruct (nth_error (mpos m) 0) as [q|] eqn:E; [|discriminate C2]. exists q. split; [reflexivity|exact C2].
Qed.

(** ** C28 *)

(** On a new model the texture coordinates map linearly to the rectangle the
    model was made for, up to [2^(j-40)] on each axis. *)
Theorem C28_linear_on_a_resting_mesh_in_double :
  forall (p : vec f64) (w h : f64) (st : settings f64) (next : Z) (j : Z) (u v : f64),
    (-400 <= j <= 800)%Z -> point_within j p -> within j w -> within j h ->
    is_finite u = true -> is_finite v = true -> 0 <= B2R u <= 1 -> 0 <= B2R v <= 1 ->
    near_point (bpow radix2 (j - 40)) (deform_texcoords (L:=f80) (model_init p w h st next) (mkV u v))
      (mkV (B2R (vx p) + B2R v * B2R w) (B2R (vy p) + B2R u * B2R h)).
Proof. exact deform_grid_double. Qed.
Print Assumptions C28_linear_on_a_resting_mesh_in_double.

(** A window of 1920 by 1080 at (100, 50): the error is below [2^-29]. *)
Example C28_double_case : point_within 11 (pt 100 50) /\ within 11 (nof 1920 : f64) /\ within 11 (nof 1080 : f64).
Proof.
  assert (W : forall n, (Z.abs n <= 2048)%Z -> within 11 (nof n : f64)).
  { intros n Hn. destruct (of_ok n ltac:(lia)) as (F & V). split; [exact F|]. rewrite V, <- abs_IZR. change (bpow radix2 11) with 2048. apply IZR_le. lia. }
  split; [split; apply W; cbn; lia|]. split; apply W; cbn; lia.
Qed.
