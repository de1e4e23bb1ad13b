(** * Movements of the whole model in the arithmetic of the code (C09, C10, C11) *)

From Coq Require Import ZArith Reals Bool List Lia Lra.
From Flocq Require Import Core IEEE754.BinarySingleNaN.
From Verif Require Import Num Geometry Outcome Wobbly Spec SpecShift Cases LemDouble LemShift.
Import ListNotations.

(** C10, whatever the arithmetic: [MoveModelBy] adds the same vector to
    everything that has a position, and changes nothing else. *)
Theorem C10_same_for_all :
  forall (T : Type) (N : Num T) (p : vec T) (w h : T) (st : settings T) (ops : list (op T)) (m : model T) (d : vec T) (fuel : nat),
    reached p w h st ops m -> malive m = true ->
    exists m', step_op fuel m (OpMoveBy d) = Ok (m', ONone) /\ shifted d m m'.
Proof. intros. eapply shift_any; eauto. Qed.
Print Assumptions C10_same_for_all.

(** In [double] each coordinate is the sum up to a relative error of 2^-53 ... *)
Theorem C10_nearly_rigid_double :
  forall (p : vec f64) (w h : f64) (st : settings f64) (ops : list (op f64)) (m : model f64) (d : vec f64) (fuel : nat) (i : nat) (q : vec f64),
    reached p w h st ops m -> malive m = true -> nth_error (mpos m) i = Some q -> moderate_pt q -> moderate_pt d ->
    exists m' q', step_op fuel m (OpMoveBy d) = Ok (m', ONone) /\ nth_error (mpos m') i = Some q' /\
      near_sum (vx q') (vx q) (vx d) /\ near_sum (vy q') (vy q) (vy d).
Proof.
  intros p w h st ops m d fuel i q Hr Al Hq (Mx & My) (Dx & Dy).
  destruct (shift_any p w h st ops m d fuel Hr Al) as (m' & E & S).
  exists m', (vadd q d). split; [exact E|]. split; [rewrite (proj1 S), nth_error_map, Hq; reflexivity|].
  split; apply moderate_sum; auto.
Qed.
Print Assumptions C10_nearly_rigid_double.

(** ... and exactly the sum when both are whole numbers of pixels. *)
Theorem C10_rigid_on_pixels_double :
  forall (p : vec f64) (w h : f64) (st : settings f64) (ops : list (op f64)) (m : model f64) (d : vec f64) (fuel : nat) (i : nat) (q : vec f64),
    reached p w h st ops m -> malive m = true -> nth_error (mpos m) i = Some q -> pixel_pt q -> pixel_pt d ->
    exists m' q', step_op fuel m (OpMoveBy d) = Ok (m', ONone) /\ nth_error (mpos m') i = Some q' /\
      exact_sum (vx q') (vx q) (vx d) /\ exact_sum (vy q') (vy q) (vy d).
Proof.
  intros p w h st ops m d fuel i q Hr Al Hq (Mx & My) (Dx & Dy).
  destruct (shift_any p w h st ops m d fuel Hr Al) as (m' & E & S).
  exists m', (vadd q d). split; [exact E|]. split; [rewrite (proj1 S), nth_error_map, Hq; reflexivity|].
  split; apply pixel_sum; auto.
Qed.
Print Assumptions C10_rigid_on_pixels_double.

(** A model with an anchor held and moved; its second point lies at (30, 0). *)
Example C10_double_case :
  exists (m : model f64) (q : vec f64),
    reached (pt 0 0) (nof 90) (nof 90) usual [OpGrab (pt 0 0); OpMoveAnchor 0 (pt 10 0)] m /\ malive m = true /\
    nth_error (mpos m) 1 = Some q /\ moderate_pt q /\ pixel_pt q /\ moderate_pt (pt 7 5) /\ pixel_pt (pt 7 5).
Proof.
  assert (P : forall n, (Z.abs n < 2 ^ 52)%Z -> pixel (nof n) /\ moderate (nof n)).
  { intros n Hn. destruct (of_ok n ltac:(lia)) as (F & V). split; [split; [exact F|exists n; split; [exact V|exact Hn]]|].
    split; [exact F|]. rewrite V, <- abs_IZR. apply Rle_trans with (IZR (2 ^ 52)); [apply IZR_le; lia|].
    change (IZR (2 ^ 52)) with (bpow radix2 52). apply bpow_le. lia. }
  destruct (verdict_run usual [OpGrab (pt 0 0); OpMoveAnchor 0 (pt 10 0)] (fun m _ => malive m && mesh_at m 1 (pt 30 0))) as (m & us & E & C);
    [vm_compute; reflexivity|].
  apply andb_prop in C. destruct C as (Al & At). unfold mesh_at in At.
  destruct (nth_error (mpos m) 1) as [q|] eqn:Q; [|discriminate].
  exists m, q. split; [exists 60%nat, 0%Z, us; exact E|]. split; [exact Al|]. split; [exact Q|].
  unfold same_pt, vequals in At. apply andb_prop in At. destruct At as (Ay & Ax). cbn [andb] in Ay.
  assert (V : forall (x : f64) n, (Z.abs n < 2 ^ 52)%Z -> neqb x (nof n) = true -> pixel x /\ moderate x).
  { intros x n Hn Hx. destruct (of_ok n ltac:(lia)) as (F & W).
    assert (Fx : is_finite x = true).
    { exact (eqb_finite _ _ F Hx). }
    rewrite eqb_ok in Hx by auto. revert Hx. case Req_bool_spec; [intros Ex _|discriminate].
    destruct (P n Hn) as ((_ & k & Ek & Lk) & (_ & M)).
    split; [split; [exact Fx|exists k; split; [congruence|exact Lk]]|split; [exact Fx|rewrite Ex; exact M]]. }
  pose proof (V _ 30%Z ltac:(lia) Ax) as (X1 & X2). pose proof (V _ 0%Z ltac:(lia) Ay) as (Y1 & Y2).
  destruct (P 7%Z ltac:(lia)) as (A1 & A2). destruct (P 5%Z ltac:(lia)) as (B1 & B2).
  repeat split; try apply X1; try apply X2; try apply Y1; try apply Y2; try apply A1; try apply A2; try apply B1; try apply B2.
Qed.

(** It is not exact in general: a model at x = 1/10 that is moved by one pixel and
    back is not where it was. *)
Theorem C10_rigid_double_refuted :
  exists (p d e : vec f64) (m m' : model f64) (q q' : vec f64),
    B2R (vx e) = (- B2R (vx d))%R /\ B2R (vy e) = (- B2R (vy d))%R /\
    reached p (nof 90) (nof 90) usual [] m /\ run 1 m [OpMoveBy d; OpMoveBy e] = Ok (m', [ONone; ONone]) /\
    nth_error (mpos m) 0 = Some q /\ nth_error (mpos m') 0 = Some q' /\ neqb (vx q) (vx q) = true /\ neqb (vx q') (vx q) = false.
Proof.
  set (p := mkV (ndiv (nof 1) (nof 10) : f64) (nof 0 : f64)).
  set (m := model_init p (nof 90) (nof 90) usual 0).
  assert (C : match run 1 m [OpMoveBy (pt 1 0); OpMoveBy (pt (-1) 0)] with
              | Ok (m', [ONone; ONone]) =>
                  match nth_error (mpos m) 0, nth_error (mpos m') 0 with
                  | Some q, Some q' => neqb (vx q) (vx q) && negb (neqb (vx q') (vx q))
                  | _, _ => false
                  end
              | _ => false
              end = true) by (vm_compute; reflexivity).
  destruct (run 1 m [OpMoveBy (pt 1 0); OpMoveBy (pt (-1) 0)]) as [[m' us]|e] eqn:E; [|discriminate C].
  destruct us as [|[| |] [|[| |] [|]]]; try discriminate.
  destruct (nth_error (mpos m) 0) as [q|] eqn:Q; [|discriminate]. destruct (nth_error (mpos m') 0) as [q'|] eqn:Q'; [|discriminate].
  apply andb_prop in C. destruct C as (C1 & C2). apply negb_true_iff in C2.
  exists p, (pt 1 0), (pt (-1) 0), m, m', q, q'.
  split; [|split].
  - change (vx (pt (-1) 0)) with (nof (-1) : f64). change (vx (pt 1 0)) with (nof 1 : f64).
    rewrite (proj2 (of_ok (-1) ltac:(lia))), (proj2 (of_ok 1 ltac:(lia))). lra.
  - change (vy (pt (-1) 0)) with (nof 0 : f64). change (vy (pt 1 0)) with (nof 0 : f64). rewrite (proj2 (of_ok 0 ltac:(lia))). lra.
  - split; [exists 1%nat, 0%Z, []; reflexivity|]. auto.
Qed.
Print Assumptions C10_rigid_double_refuted.

(** C09 is not exact in [double] either: a new model of width 90 at x = 1/10 + 3/10
    is not the new model at x = 1/10 displaced by 3/10. *)
Theorem C09_translation_double_refuted :
  exists (p d : vec f64) (q q' : vec f64),
    nth_error (mpos (model_init p (nof 90) (nof 90) usual 0)) 1 = Some q /\
    nth_error (mpos (model_init (vadd p d) (nof 90) (nof 90) usual 0)) 1 = Some q' /\
    neqb (vx q') (vx q') = true /\ neqb (vx q') (nadd (vx q) (vx d)) = false.
Proof.
  set (p := mkV (ndiv (nof 1) (nof 10) : f64) (nof 0 : f64)). set (d := mkV (ndiv (nof 3) (nof 10) : f64) (nof 0 : f64)).
  assert (C : match nth_error (mpos (model_init p (nof 90) (nof 90) usual 0)) 1, nth_error (mpos (model_init (vadd p d) (nof 90) (nof 90) usual 0)) 1 with
              | Some q, Some q' => neqb (vx q') (vx q') && negb (neqb (vx q') (nadd (vx q) (vx d)))
              | _, _ => false end = true) by (vm_compute; reflexivity).
  destruct (nth_error (mpos (model_init p (nof 90) (nof 90) usual 0)) 1) as [q|] eqn:Q; [|discriminate].
  destruct (nth_error (mpos (model_init (vadd p d) (nof 90) (nof 90) usual 0)) 1) as [q'|] eqn:Q'; [|discriminate].
  apply andb_prop in C. destruct C as (C1 & C2). apply negb_true_iff in C2.
  exists p, d, q, q'. auto.
Qed.
Print Assumptions C09_translation_double_refuted.

(** Nor is C11: a new model at x = 1.7 that is moved to x = 0.6 expects to rest
    somewhere else, one unit in the last place away. *)
Theorem C11_target_double_refuted :
  exists (p q t : vec f64) (m m' m'' : model f64) (u : out),
    reached p (nof 90) (nof 90) usual [] m /\ step_op 10 m (OpMoveTo q) = Ok (m', u) /\
    target_position 10 m' = Ok (t, m'') /\ neqb (vx t) (vx t) = true /\ neqb (vx t) (vx q) = false.
Proof.
  set (p := mkV (ndiv (nof 17) (nof 10) : f64) (nof 0 : f64)). set (q := mkV (ndiv (nof 6) (nof 10) : f64) (nof 0 : f64)).
  set (m := model_init p (nof 90) (nof 90) usual 0).
  assert (C : match step_op 10 m (OpMoveTo q) with
              | Ok (m', u) => match target_position 10 m' with
                              | Ok (t, m'') => neqb (vx t) (vx t) && negb (neqb (vx t) (vx q)) | Err _ => false end
              | Err _ => false end = true) by (vm_compute; reflexivity).
  destruct (step_op 10 m (OpMoveTo q)) as [[m' u]|e] eqn:E; [|discriminate].
  destruct (target_position 10 m') as [[t m'']|e] eqn:E'; [|discriminate].
  apply andb_prop in C. destruct C as (C1 & C2). apply negb_true_iff in C2.
  exists p, q, t, m, m', m'', u. split; [exists 10%nat, 0%Z, []; reflexivity|]. auto.
Qed.
Print Assumptions C11_target_double_refuted.
