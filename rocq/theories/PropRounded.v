(** * Nearest points and spring forces in [double] arithmetic *)

From Coq Require Import ZArith Reals Bool List Lia Lra.
From Flocq Require Import Core IEEE754.BinarySingleNaN.
From Verif Require Import Num Geometry Outcome Wobbly Spec SpecMotion SpecDouble Cases LemBasic LemHistory LemAnchors LemDouble LemHang LemQuiet LemSearch LemRounded LemSafe64 LemBox64 SpecMesh PropDeform PropDouble.
Import ListNotations.
Local Open Scope R_scope.

(** ** C04 *)

(** [GrabAnchor] in [double]: while coordinates are at most [2^500] in size it
    never fails for want of a nearest point, and takes one that no other point
    is closer than, up to rounding. *)
Theorem C04_grab_takes_nearest_in_double :
  forall (p : vec f64) (w h : f64) (st : settings f64) (ops : list (op f64)) (m : model f64) (q : vec f64) (fuel : nat),
    reached p w h st ops m -> point_within 500 q -> (forall r, In r (mpos m) -> point_within 500 r) ->
    step_op fuel m (OpGrab q) <> Err AssertFailed /\
    forall m' n, step_op fuel m (OpGrab q) = Ok (m', OHandle n) ->
      exists i r, nth_error (mpos m) i = Some r /\ lookup_handle (mhandles m') n = Some (HGrab i) /\
        (forall j s, nth_error (mpos m) j = Some s -> about_le (euclid (real_point q) (real_point r)) (euclid (real_point q) (real_point s))) /\
        mpos m' = mpos m /\ mvel m' = mvel m.
Proof. exact grab_double. Qed.
Print Assumptions C04_grab_takes_nearest_in_double.

Definition placedb (m : model f64) : bool :=
  forallb small_pointb (mpos m) && forallb (fun b => match b with Some (q, _) => small_pointb q | None => true end) (mheap m).

Lemma placedb_ok m : placedb m = true ->
  (forall r, In r (mpos m) -> point_within 500 r) /\ (forall l r, place m l = Some r -> point_within 500 r).
Proof.
  intros H. apply andb_prop in H. destruct H as (A & B). rewrite forallb_forall in A, B.
  assert (Up : forall q, small_pointb q = true -> point_within 500 q).
  { intros q Q. apply small_pointb_ok in Q. destruct Q as (Q1 & Q2). split; eapply within_le; eauto; lia. }
  split; [auto|]. intros [i|b] r E; cbn [place] in E.
  - apply nth_error_In in E. auto.
  - destruct (nth_error (mheap m) b) as [[[q f]|]|] eqn:X; try discriminate E. injection E as <-.
    apply nth_error_In in X. apply B in X. auto.
Qed.

Example C04_double_case :
  exists (m m' : model f64),
    reached (pt 0 0) (nof 90) (nof 90) usual [OpGrab (pt 0 0); OpMoveAnchor 0 (pt 40 5); OpStep 48] m /\
    point_within 500 (pt 31 (-2)) /\ (forall r, In r (mpos m) -> point_within 500 r) /\
    step_op 60 m (OpGrab (pt 31 (-2))) = Ok (m', OHandle 1).
Proof.
  destruct (verdict_reached usual [OpGrab (pt 0 0); OpMoveAnchor 0 (pt 40 5); OpStep 48]
    (fun m _ => placedb m && match step_op 60 m (OpGrab (pt 31 (-2))) with Ok (_, OHandle 1) => true | _ => false end)) as (m & Hr & us & C);
    [vm_compute; reflexivity|].
  apply andb_prop in C. destruct C as (C & D). apply placedb_ok in C. destruct C as (C & _).
  destruct (step_op 60 m (OpGrab (pt 31 (-2)))) as [[m' [ |n| ]]|] eqn:E; try discriminate D. destruct n as [|[|]]; try discriminate D.
  exists m, m'. split; [exact Hr|]. split; [|split; [exact C|exact E]].
  assert (S : small_pointb (pt 31 (-2)) = true) by (vm_compute; reflexivity).
  apply small_pointb_ok in S. destruct S as (S1 & S2). split; eapply within_le; eauto; lia.
Qed.

(** ** C05 *)

(** [InsertAnchor] in [double] splits a spring whose first end is nearest, and
    among those with that first end the second end is nearest, up to rounding. *)
Theorem C05_insert_splits_nearest_spring_in_double :
  forall (p : vec f64) (w h : f64) (st : settings f64) (ops : list (op f64)) (m m' : model f64) (q : vec f64) (fuel n : nat),
    reached p w h st ops m -> lifo_history ops -> point_within 500 q ->
    (forall l r, place m l = Some r -> point_within 500 r) ->
    step_op fuel m (OpInsert q) = Ok (m', OHandle n) ->
    exists idx s pa pb s1 s2 blk,
      nth_error (msprings m) idx = Some s /\ place m (s_pa s) = Some pa /\ place m (s_pb s) = Some pb /\
      (forall j r ra rb, nth_error (msprings m) j = Some r -> place m (s_pa r) = Some ra -> place m (s_pb r) = Some rb ->
         about_le (euclid (real_point pa) (real_point q)) (euclid (real_point ra) (real_point q)) /\
         (ra = pa -> about_le (euclid (real_point pb) (real_point q)) (euclid (real_point rb) (real_point q)))) /\
      msprings m' = list_del idx (msprings m) ++ [s1; s2] /\
      s_pa s1 = LBlk blk /\ s_pb s1 = s_pa s /\ s_fa s1 = LBlk blk /\ s_fb s1 = s_fa s /\
      s_pa s2 = LBlk blk /\ s_pb s2 = s_pb s /\ s_fa s2 = LBlk blk /\ s_fb s2 = s_fb s /\
      place m (LBlk blk) = None /\ place m' (LBlk blk) = Some q /\ anchor_point m' n = Some q /\
      mpos m' = mpos m /\ mvel m' = mvel m /\
      (live_anchors ops <> [] -> s_len s1 = vsub pa q /\ s_len s2 = vsub pb q) /\
      (live_anchors ops = [] -> exists i j ra rb ta tb,
         nth_error (mpos m) i = Some ra /\ same_point_value pa ra /\ nth_error (mtargets m') i = Some ta /\ s_len s1 = vsub ta q /\
         nth_error (mpos m) j = Some rb /\ same_point_value pb rb /\ nth_error (mtargets m') j = Some tb /\ s_len s2 = vsub tb q).
Proof. intros. eapply insert_double; eauto. Qed.
Print Assumptions C05_insert_splits_nearest_spring_in_double.

Definition drag_one : list (op f64) := [OpGrab (pt 0 0); OpMoveAnchor 0 (pt 40 5); OpStep 48].
Example C05_double_case :
  exists (m m' : model f64),
    reached (pt 0 0) (nof 90) (nof 90) usual drag_one m /\ lifo_history drag_one /\
    point_within 500 (pt 31 (-2)) /\ (forall l r, place m l = Some r -> point_within 500 r) /\
    step_op 60 m (OpInsert (pt 31 (-2))) = Ok (m', OHandle 1).
Proof.
  destruct (verdict_reached usual drag_one
    (fun m _ => placedb m && match step_op 60 m (OpInsert (pt 31 (-2))) with Ok (_, OHandle 1) => true | _ => false end)) as (m & Hr & us & C);
    [vm_compute; reflexivity|].
  apply andb_prop in C. destruct C as (C & D). apply placedb_ok in C. destruct C as (_ & C).
  destruct (step_op 60 m (OpInsert (pt 31 (-2)))) as [[m' [ |n| ]]|] eqn:E; try discriminate D. destruct n as [|[|]]; try discriminate D.
  exists m, m'. split; [exact Hr|]. split; [unfold lifo_history, drag_one; cbn; repeat split|]. split; [|split; [exact C|exact E]].
  assert (S : small_pointb (pt 31 (-2)) = true) by (vm_compute; reflexivity).
  apply small_pointb_ok in S. destruct S as (S1 & S2). split; eapply within_le; eauto; lia.
Qed.

(** ** C16 *)

(** One spring in [double]: the forces on its two ends are exactly opposite, and
    are what the rest vector asks for up to rounding. *)
Theorem C16_one_spring_in_double :
  forall (j : Z) (k : f64) (s : spring f64) (mm : mem f64) (pa pb : vec f64),
    (0 <= j <= 50)%Z -> within 10 k ->
    rd_pos mm (s_pa s) = Ok pa -> rd_pos mm (s_pb s) = Ok pb ->
    point_within j pa -> point_within j pb -> point_within j (s_len s) ->
    exists (fa fb : vec f64) (more : bool),
      apply_forces k s mm =
        bind (add_force mm (s_fa s) fa) (fun m1 => bind (add_force m1 (s_fb s) fb) (fun m2 => Ok (m2, more))) /\
      finite_point fa /\ finite_point fb /\ real_point fb = vneg (real_point fa) /\
      rounded_pull (bpow radix2 (j - 40)) (B2R k) (offset_x pa pb (s_len s)) (B2R (vx fa)) /\
      rounded_pull (bpow radix2 (j - 40)) (B2R k) (offset_y pa pb (s_len s)) (B2R (vy fa)) /\
      (Rabs (offset_x pa pb (s_len s)) <= 1 / 2 -> Rabs (offset_y pa pb (s_len s)) <= 1 / 2 -> more = false) /\
      (2 <= Rabs (offset_x pa pb (s_len s)) \/ 2 <= Rabs (offset_y pa pb (s_len s)) -> more = true).
Proof.
  intros j k s mm pa pb Hj Hk Ra Rb (Pax & Pay) (Pbx & Pby) (Plx & Ply).
  destruct (axis_force j _ _ _ k Hj Pax Pbx Plx Hk) as (X1 & X2 & X3 & X4 & X5).
  destruct (axis_force j _ _ _ k Hj Pay Pby Ply Hk) as (Y1 & Y2 & Y3 & Y4 & Y5).
  exists (vscale (fst (spring_deltas pa pb (s_len s))) k), (vscale (snd (spring_deltas pa pb (s_len s))) k), (pulls pa pb (s_len s)).
  assert (U : forall x, within j x -> within 50 x) by (intros x Hx; apply (within_le j); [lia|exact Hx]).
  split; [unfold apply_forces; rewrite Ra, Rb; reflexivity|].
  split; [split; [exact X1|exact Y1]|]. split; [split; [exact X2|exact Y2]|].
  split; [unfold real_point, vneg; cbn [vx vy]; f_equal; [exact X3|exact Y3]|].
  split; [split; [exact X4|exact X5]|]. split; [split; [exact Y4|exact Y5]|]. split.
  - intros A B. apply pulls_near; auto; split; auto.
  - intros A. apply pulls_far; auto; split; auto.
Qed.
Print Assumptions C16_one_spring_in_double.

(** A spring pulled to three times its length, on both axes. *)
Example C16_double_case :
  let mm := mkMem [pt 0 0; pt 90 (-30)] [vzero; vzero] [] in
  let s := mkSpring (LMesh 0) (LMesh 1) (LMesh 0) (LMesh 1) (pt 30 0) 1 in
  within 10 (nof 8) /\ rd_pos mm (s_pa s) = Ok (pt 0 0) /\ rd_pos mm (s_pb s) = Ok (pt 90 (-30)) /\
  point_within 50 (pt 0 0) /\ point_within 50 (pt 90 (-30)) /\ point_within 50 (s_len s).
Proof.
  cbv zeta. split; [|split; [reflexivity|split; [reflexivity|]]].
  - destruct (of_ok 8) as (F & E); [reflexivity|]. split; [exact F|]. rewrite E, Rabs_right by lra. cbn. lra.
  - split; [|split]; apply small_pointb_ok; vm_compute; reflexivity.
Qed.

(** ** C53 *)

(** In [double]: while coordinates are at most [2^500] in size, a call of a
    client that uses its handles properly and releases inserted anchors newest
    first can only fail by not finishing a prediction: it touches no freed
    storage, leaves no array, meets no failed assertion and throws nothing. *)
Theorem C53_well_formed_histories_do_not_fail_in_double :
  forall (p : vec f64) (w h : f64) (st : settings f64) (ops : list (op f64)) (m : model f64) (o : op f64) (fuel : nat) (e : err),
    reached p w h st ops m -> careful_history (ops ++ [o]) -> lifo_history ops -> in_double_range m o ->
    step_op fuel m o = Err e -> e = NoFuel.
Proof. exact safe_reached64. Qed.
Print Assumptions C53_well_formed_histories_do_not_fail_in_double.

(** A dragged model that satisfies the hypotheses of an insertion, which succeeds. *)
Example C53_double_case :
  exists m : model f64,
    reached (pt 0 0) (nof 90) (nof 90) usual drag_one m /\ careful_history (drag_one ++ [OpInsert (pt 31 (-2))]) /\
    lifo_history drag_one /\ in_double_range m (OpInsert (pt 31 (-2))) /\
    exists m' n, step_op 60 m (OpInsert (pt 31 (-2))) = Ok (m', OHandle n).
Proof.
  destruct C05_double_case as (m & m' & Hr & L & Q & W & E). exists m. split; [exact Hr|].
  split; [unfold careful_history, drag_one; cbn; repeat split; left; reflexivity|]. split; [exact L|]. split; [split; [exact Q|exact W]|].
  exists m', 1%nat. exact E.
Qed.

(** ** C29 *)

(** In [double], for every reachable model whose mesh is finite: the four corners
    are those of the bounding box of the mesh, rounded to whole numbers, without
    any further rounding error. *)
Theorem C29_rounded_bounding_box_in_double :
  forall (p : vec f64) (w h : f64) (st : settings f64) (ops : list (op f64)) (m : model f64),
    reached p w h st ops m -> (forall q, In q (mpos m) -> finite_point q) ->
    exists x0 x1 y0 y1 (a b c d : Z),
      least (map (fun q => B2R (vx q)) (mpos m)) x0 /\ greatest (map (fun q => B2R (vx q)) (mpos m)) x1 /\
      least (map (fun q => B2R (vy q)) (mpos m)) y0 /\ greatest (map (fun q => B2R (vy q)) (mpos m)) y1 /\
      rounds_to x0 a /\ rounds_to x1 b /\ rounds_to y0 c /\ rounds_to y1 d /\
      let '(tl, tr, bl, br) := extremes m in
      (finite_point tl /\ finite_point tr /\ finite_point bl /\ finite_point br) /\
      real_point tl = mkV (IZR a) (IZR c) /\ real_point tr = mkV (IZR b) (IZR c) /\
      real_point bl = mkV (IZR a) (IZR d) /\ real_point br = mkV (IZR b) (IZR d).
Proof. exact extremes_double. Qed.
Print Assumptions C29_rounded_bounding_box_in_double.

(** No mesh point is missed by more than half a unit. *)
Theorem C29_misses_by_at_most_half_in_double :
  forall (m : model f64) (q : vec f64),
    (forall q, In q (mpos m) -> finite_point q) -> In q (mpos m) ->
    let '(tl, tr, bl, br) := extremes m in
    B2R (vx tl) - 1 / 2 <= B2R (vx q) <= B2R (vx br) + 1 / 2 /\ B2R (vy tl) - 1 / 2 <= B2R (vy q) <= B2R (vy br) + 1 / 2.
Proof. exact extremes_near_double. Qed.
Print Assumptions C29_misses_by_at_most_half_in_double.

Example C29_double_case :
  exists m : model f64,
    reached (pt 0 0) (nof 90) (nof 90) usual [OpGrab (pt 0 0); OpMoveAnchor 0 (pt 7 5); OpStep 16] m /\
    (forall q, In q (mpos m) -> finite_point q) /\ exists q, In q (mpos m).
Proof.
  destruct C26_case as (m & Hr & F & N). exists m. split; [exact Hr|]. split; [exact F|].
  destruct (nth_error (mpos m) 15) as [q|] eqn:E; [|congruence]. exists q. eapply nth_error_In; exact E.
Qed.
