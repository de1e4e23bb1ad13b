(** * The last frame of the magic lamp, in [float] and [double] (C42) *)

From Coq Require Import ZArith Reals Bool List Lia Lra.
From Flocq Require Import Core IEEE754.BinarySingleNaN.
From Verif Require Import Num Geometry Outcome Steppers Transforms MagicLamp Program SpecAnim SpecPixel SpecDouble SpecFinal LemReal LemDouble LemFloat LemFinal LemZoom32 LemLamp LemGrid32 LemLampEnd PropGrid.
Import ListNotations.
Local Open Scope R_scope.

(** ** C42 *)

(** After any history that ends with a [Step] to progress 1, every texture
    coordinate is shown at most 2^(k-16) from its place on the target box, for
    boxes with coordinates up to 2^k: a quarter of a pixel on screens of 16384
    pixels. *)
Theorem C42_ends_on_target_float :
  forall (L : Libm f64) (St : Type) (call : St -> Z -> f32 * St) q r s ops ms (a : lamp f32 f64 St) (uv : vec f64) (k : Z),
    (2 <= MagicLamp.rw r <= 2 ^ 16)%Z -> (2 <= MagicLamp.rh r <= 2 ^ 16)%Z -> same_resolution ops -> stepped_lamp call q r s ops ms a ->
    rough_exp L -> (0 <= k <= 20)%Z -> lamp_fit k (ml_params a) -> neqb (ml_progress a) (nof 1) = true ->
    finite_point uv -> in_square (real_point uv) ->
    exists p, lamp_deform a uv = Ok p /\
      near_point (bpow radix2 (k - 16)) p (in_box (real_box (lp_target (ml_params a))) (B2R (vx uv)) (B2R (vy uv))).
Proof.
  intros L St call q r s ops ms a uv k Hw Hh Sr Sl Rx Hk Fit P1 Fuv Suv.
  assert (B64 : (rw r * MagicLamp.rh r < 2 ^ 64)%Z) by (apply Z.le_lt_trans with (2 ^ 16 * 2 ^ 16)%Z; [apply Z.mul_le_mono_nonneg; lia|reflexivity]).
  assert (Ft : LemLamp.fits r) by (unfold LemLamp.fits; split; [lia|]; split; [lia|exact B64]).
  destruct (stepped_full call q r s ops ms a Ft Sr Sl) as (Er & Eg). apply one_of_eqb in P1.
  set (t := lp_target (ml_params a)) in *. pose proof (bpow_gt_0 radix2 k) as M0. set (M := bpow radix2 k) in *.
  set (X i := B2R (vx (b_tl t)) + IZR i / IZR (rw r - 1) * (B2R (vx (b_br t)) - B2R (vx (b_tl t)))).
  set (Y j := B2R (vy (b_tl t)) + IZR j / IZR (MagicLamp.rh r - 1) * (B2R (vy (b_br t)) - B2R (vy (b_tl t)))).
  assert (Box : Rabs (B2R (vx (b_tl t))) <= M /\ Rabs (B2R (vy (b_tl t))) <= M /\ Rabs (B2R (vx (b_br t))) <= M /\ Rabs (B2R (vy (b_br t))) <= M).
  { unfold lamp_fit in Fit. cbv zeta in Fit. destruct Fit as (_ & _ & ((_ & A) & (_ & B)) & ((_ & C) & (_ & D)) & _). repeat split; assumption. }
  destruct Box as (Bx & By & Bx' & By').
  assert (V : forall i j v, (0 <= i < rw r)%Z -> (0 <= j < MagicLamp.rh r)%Z -> vertex r (ml_grid a) i j = Some v ->
    point_within (k + 1) v /\ Rabs (B2R (vx v) - X i) <= M * / 2097152 /\ Rabs (B2R (vy v) - Y j) <= M * / 2097152).
  { intros i j v Hi Hj Vv. unfold vertex in Vv. rewrite Eg, full_nth in Vv by auto. injection Vv as <-.
    destruct (lamp_end_point L k (ml_params a) r (ml_progress a) i j Hk Rx Fit P1 Hw Hh Hi Hj) as (x & y & (Fx & Vx) & (Fy & Vy) & Ex & Ey).
    fold M in Ex, Ey. rewrite Vx, Vy. fold t in Ex, Ey. fold (X i) in Ex. fold (Y j) in Ey. split; [|split; assumption].
    assert (Fr : forall b n, (0 <= b <= n)%Z -> (1 <= n)%Z -> 0 <= IZR b / IZR n <= 1).
    { intros b n Hb Hn. assert (1 <= IZR n) by (apply IZR_le; lia). assert (0 <= IZR b <= IZR n) by (split; apply IZR_le; lia).
      assert (In : 0 < / IZR n) by (apply Rinv_0_lt_compat; lra).
      split; [apply Rmult_le_pos; lra|]. apply Rle_trans with (IZR n * / IZR n); [apply Rmult_le_compat_r; lra|right; apply Rinv_r; lra]. }
    assert (AX : Rabs (X i) <= M) by (apply in_line; [apply Fr; lia|exact Bx|exact Bx']).
    assert (AY : Rabs (Y j) <= M) by (apply in_line; [apply Fr; lia|exact By|exact By']).
    assert (P : bpow radix2 (k + 1) = M * 2) by (rewrite bpow_plus; reflexivity).
    pose proof (near_size _ _ _ _ Ex AX). pose proof (near_size _ _ _ _ Ey AY).
    split; (split; [assumption|]); [rewrite Vx|rewrite Vy]; lra. }
  set (dh := 2 * M / IZR (rw r - 1) + M * / 1048576). set (dv := 2 * M / IZR (MagicLamp.rh r - 1) + M * / 1048576).
  assert (Nw : 1 <= IZR (rw r - 1) <= 65536) by (split; apply IZR_le; lia). assert (Nh : 1 <= IZR (MagicLamp.rh r - 1) <= 65536) by (split; apply IZR_le; lia).
  assert (Diff : forall T B n b b', Rabs T <= M -> Rabs B <= M -> 1 <= IZR n -> (Z.abs (b' - b) <= 1)%Z ->
    Rabs ((T + IZR b / IZR n * (B - T)) - (T + IZR b' / IZR n * (B - T))) <= 2 * M / IZR n).
  { intros T B n b b' HT HB Hn Hb. assert (In : 0 < / IZR n) by (apply Rinv_0_lt_compat; lra).
    replace (T + IZR b / IZR n * (B - T) - (T + IZR b' / IZR n * (B - T))) with ((B - T) * (IZR b - IZR b') * / IZR n) by (field; lra).
    unfold Rdiv. rewrite Rabs_mult, (Rabs_pos_eq (/ IZR n)) by lra. apply Rmult_le_compat_r; [lra|].
    rewrite Rabs_mult. replace (2 * M) with (2 * M * 1) by ring. apply Rmult_le_compat; try apply Rabs_pos.
    - apply Rabs_le_inv in HT. apply Rabs_le_inv in HB. apply Rabs_le. lra.
    - rewrite <- minus_IZR, <- abs_IZR. apply IZR_le. lia. }
  assert (Sp : spaced dh dv r (ml_grid a)).
  { intros i j i' j' v v' Hi Hi' Hj Hj' Vv Vv'. destruct (V i j v Hi Hj Vv) as (_ & Ex & Ey). destruct (V i' j' v' Hi' Hj' Vv') as (_ & Ex' & Ey').
    assert (Dw : 0 <= 2 * M / IZR (rw r - 1)) by (apply Rmult_le_pos; [lra|left; apply Rinv_0_lt_compat; lra]).
    assert (Dh : 0 <= 2 * M / IZR (MagicLamp.rh r - 1)) by (apply Rmult_le_pos; [lra|left; apply Rinv_0_lt_compat; lra]).
    assert (Far : forall x x' E E' d, Rabs (x - E) <= M * / 2097152 -> Rabs (x' - E') <= M * / 2097152 -> Rabs (E - E') <= d -> Rabs (x - x') <= d + M * / 1048576).
    { intros x x' E E' d A B C. apply Rabs_le_inv in A. apply Rabs_le_inv in B. apply Rabs_le_inv in C. apply Rabs_le. lra. }
    split.
    - intros Ni ->. split; (eapply Far; [eassumption|eassumption|]); [apply (Diff _ _ _ _ _ Bx Bx' (proj1 Nw) Ni)|]. rewrite Rminus_eq_0, Rabs_R0. exact Dw.
    - intros -> Nj. split; (eapply Far; [eassumption|eassumption|]); [|apply (Diff _ _ _ _ _ By By' (proj1 Nh) Nj)]. rewrite Rminus_eq_0, Rabs_R0. exact Dh. }
  assert (Iw : 0 < / IZR (rw r - 1) <= 1) by (split; [apply Rinv_0_lt_compat; lra|rewrite <- Rinv_1; apply Rinv_le; lra]).
  assert (Ih : 0 < / IZR (MagicLamp.rh r - 1) <= 1) by (split; [apply Rinv_0_lt_compat; lra|rewrite <- Rinv_1; apply Rinv_le; lra]).
  assert (P1' : bpow radix2 (k + 1) = M * 2) by (rewrite bpow_plus; reflexivity).
  assert (Small : forall n, 0 < / n <= 1 -> 2 * M / n + M * / 1048576 <= 2 * bpow radix2 (k + 1)).
  { intros n Hn. assert (2 * M * / n <= 2 * M * 1) by (apply Rmult_le_compat_l; lra). unfold Rdiv. lra. }
  assert (Total : forall z, (2 <= z <= 2 ^ 16)%Z -> IZR z * (2 * M / IZR (z - 1) + M * / 1048576) <= M * (4 + / 16)).
  { intros z Hz. assert (N : 1 <= IZR (z - 1)) by (apply IZR_le; lia). assert (Nz : IZR z <= 65536) by (apply IZR_le; lia). assert (Z0 : 2 <= IZR z) by (apply IZR_le; lia).
    assert (Ez : IZR z = IZR (z - 1) + 1) by (rewrite <- plus_IZR; f_equal; lia).
    assert (A : IZR z * (2 * M / IZR (z - 1)) <= M * 4).
    { rewrite Ez at 1. replace ((IZR (z - 1) + 1) * (2 * M / IZR (z - 1))) with (2 * M + 2 * M * / IZR (z - 1)) by (field; lra).
      assert (/ IZR (z - 1) <= 1) by (rewrite <- Rinv_1; apply Rinv_le; lra).
      assert (2 * M * / IZR (z - 1) <= 2 * M * 1) by (apply Rmult_le_compat_l; lra). lra. }
    assert (B : IZR z * (M * / 1048576) <= 65536 * (M * / 1048576)) by (apply Rmult_le_compat_r; lra).
    rewrite Rmult_plus_distr_l. lra. }
  subst r. set (r := ml_res a) in *.
  assert (Len : length (ml_grid a) = Z.to_nat (rw r * MagicLamp.rh r)) by (rewrite Eg; apply full_length).
  assert (Fa : Forall (point_within (k + 1)) (ml_grid a)).
  { apply Forall_forall. intros v Iv. apply In_nth_error in Iv. destruct Iv as (m & Nm).
    assert (Lm : (m < Z.to_nat (rw r * MagicLamp.rh r))%nat) by (rewrite <- Len; apply nth_error_Some; rewrite Nm; discriminate).
    apply (V (Z.of_nat m mod rw r)%Z (Z.of_nat m / rw r)%Z); [apply Z.mod_pos_bound; lia|split; [apply Z.div_pos; lia|apply Z.div_lt_upper_bound; lia]|].
    unfold vertex. rewrite (Z.mul_comm _ (rw r)), <- Z_div_mod_eq_full, Nat2Z.id. exact Nm. }
  destruct (C43_bilinear_float St a uv (k + 1) dh dv Hw Hh Len ltac:(lia) Fa Sp (Small _ Iw) (Small _ Ih) Fuv Suv) as (i & j & v1 & v2 & v3 & v4 & p & Hi & Hj & Hs & Ht & V1 & V2 & V3 & V4 & E & (Fp & Ex & Ey)).
  fold r in Hi, Hj, Hs, Ht, V1, V2, V3, V4, Ex, Ey.
  set (i' := Z.min (rw r - 1) (i + 1)) in *. set (j' := Z.min (MagicLamp.rh r - 1) (j + 1)) in *.
  destruct (V _ _ _ Hi Hj V1) as (_ & X1 & Y1). destruct (V i' j _ ltac:(lia) Hj V2) as (_ & X2 & Y2).
  destruct (V i j' _ Hi ltac:(lia) V3) as (_ & X3 & Y3). destruct (V i' j' _ ltac:(lia) ltac:(lia) V4) as (_ & X4 & Y4).
  exists p. split; [exact E|]. split; [exact Fp|]. destruct Suv as (Ux & Uy). cbn [real_point vx vy] in Ux, Uy.
  assert (P38 : bpow radix2 (-38) = / 274877906944) by reflexivity.
  set (s' := B2R (vx uv) * IZR (rw r - 1) - IZR i) in *. set (t' := B2R (vy uv) * IZR (MagicLamp.rh r - 1) - IZR j) in *.
  pose proof (line_cell (rw r - 1) i s' (B2R (vx uv)) (B2R (vx (b_tl t))) (B2R (vx (b_br t)) - B2R (vx (b_tl t))) ltac:(lia) ltac:(lia) eq_refl Hs (proj2 Ux)) as Lx.
  pose proof (line_cell (MagicLamp.rh r - 1) j t' (B2R (vy uv)) (B2R (vy (b_tl t))) (B2R (vy (b_br t)) - B2R (vy (b_tl t))) ltac:(lia) ltac:(lia) eq_refl Ht (proj2 Uy)) as Ly.
  fold i' in Lx. fold j' in Ly. fold (X i) (X i') in Lx. fold (Y j) (Y j') in Ly.
  pose proof (mean_near s' t' _ _ _ _ _ _ _ _ _ ltac:(lra) ltac:(lra) X1 X2 X3 X4) as Mx.
  pose proof (mean_near s' t' _ _ _ _ _ _ _ _ _ ltac:(lra) ltac:(lra) Y1 Y2 Y3 Y4) as My.
  assert (Err : bpow radix2 (k + 1 - 19) + (IZR (rw r) * dh + IZR (MagicLamp.rh r) * dv) * bpow radix2 (-20) <= M * (/ 262144 + (8 + / 8) * / 1048576)).
  { replace (k + 1 - 19)%Z with (k + -18)%Z by lia. rewrite bpow_plus. fold M. change (bpow radix2 (-18)) with (/ 262144). change (bpow radix2 (-20)) with (/ 1048576).
    pose proof (Total _ Hw). pose proof (Total _ Hh). unfold dh, dv. lra. }
  assert (Goal16 : bpow radix2 (k - 16) = M * / 65536) by (unfold Zminus; rewrite bpow_plus; reflexivity). rewrite Goal16.
  assert (Wx : Rabs (B2R (vx (b_br t)) - B2R (vx (b_tl t))) <= 2 * M) by (apply Rabs_le_inv in Bx; apply Rabs_le_inv in Bx'; apply Rabs_le; lra).
  assert (Wy : Rabs (B2R (vy (b_br t)) - B2R (vy (b_tl t))) <= 2 * M) by (apply Rabs_le_inv in By; apply Rabs_le_inv in By'; apply Rabs_le; lra).
  rewrite P38 in Lx, Ly. unfold bilinear, real_point in Ex, Ey. cbn [vx vy] in Ex, Ey. unfold in_box, real_box, real_point. cbn [b_tl b_br vx vy].
  match type of Lx with Rabs (?l - _) <= _ => match type of Mx with Rabs (_ - ?m) <= _ => replace m with l in Mx by ring end end.
  match type of Ly with Rabs (?l - _) <= _ => match type of My with Rabs (_ - ?m) <= _ => replace m with l in My by ring end end.
  split.
  - pose proof (tri _ _ _ _ _ Ex (tri _ _ _ _ _ Mx Lx)). lra.
  - pose proof (tri _ _ _ _ _ Ey (tri _ _ _ _ _ My Ly)). lra.
Qed.
Print Assumptions C42_ends_on_target_float.

(** An instance: a rough exponential, and a surface of 100 x 80 that moves up into
    an icon of 20 x 10 with the default settings of the GObject binding. *)
Definition stairs : Libm f64 :=
  {| tsin := fun _ => nof 0; tcos := fun _ => nof 1; tpi := nof 3;
     texp := fun y => if nleb (nof 0) y then (if nleb y (nof 0) then nof 1 else nof 2) else nlit 1 2 |}.

Lemma stairs_rough : rough_exp stairs.
Proof.
  intros y Fy _. destruct (of_ok 0 ltac:(lia)) as (F0 & V0). destruct (of_ok 1 ltac:(lia)) as (F1 & V1). destruct (of_ok 2 ltac:(lia)) as (F2 & V2).
  assert (Fh : is_finite (nlit 1 2 : f64) = true) by reflexivity. assert (Vh : B2R (nlit 1 2 : f64) = / 2) by (vm_compute; lra).
  assert (B : 2 <= bpow radix2 1000) by (apply Rle_trans with (bpow radix2 1); [right; reflexivity|apply bpow_le; lia]).
  assert (Q1 : nleb (nof 0) y = Rle_bool (B2R (nof 0 : f64)) (B2R y)) by (apply Bleb_correct; assumption).
  assert (Q2 : nleb y (nof 0) = Rle_bool (B2R y) (B2R (nof 0 : f64))) by (apply Bleb_correct; assumption).
  rewrite V0 in Q1, Q2. unfold texp, stairs. rewrite Q1, Q2.
  case Rle_bool_spec; intros K1; [case Rle_bool_spec; intros K2|]; rewrite ?V1, ?V2, ?Vh; (split; [assumption|]); lra.
Qed.

Definition icon_lamp : lamp_params f32 f64 :=
  mkLamp (mkB (mkV (nof 100) (nof 200)) (mkV (nof 200) (nof 280))) (mkB (mkV (nof 0) (nof 0)) (mkV (nof 20) (nof 10)))
    (nof 10) (nlit 5 10) (nlit 45 100) (nlit 23 10).

Example C42_float_case : exists a : lamp f32 f64 f32,
  let L := stairs in
  rough_exp stairs /\ stepped_lamp (fun s _ => (s, s)) icon_lamp (mkRes 3 4) (nof 1) [MlStep 30; MlSetParams icon_lamp] 120 a /\
  lamp_fit 9 (ml_params a) /\ neqb (ml_progress a) (nof 1) = true /\
  finite_point (mkV (nlit 1 3) (nlit 1 2)) /\ in_square (real_point (mkV (nlit 1 3) (nlit 1 2))).
Proof.
  assert (Ft : LemLamp.fits (mkRes 3 4)) by (unfold LemLamp.fits; cbn; lia).
  set (call := fun (s : f32) (_ : Z) => (s, s)).
  assert (Sr : same_resolution [MlStep (F := f32) (D := f64) (St := f32) 30; MlSetParams icon_lamp]) by (repeat constructor).
  destruct (@lamp_history f32 f64 _ _ _ stairs f32 call icon_lamp (mkRes 3 4) (nof 1) [MlStep 30; MlSetParams icon_lamp] 120 Ft Sr) as (a0 & a & E0 & E & Er & Eg & b & Eb & Ep).
  exists a. cbv zeta. split; [exact stairs_rough|]. split; [exists a0; split; [exact E0|exact E]|].
  assert (P : ml_params a = icon_lamp /\ ml_progress a = clamp_progress (nof 1)).
  { rewrite lamp_new_full in E0 by exact Ft. injection E0 as <-.
    rewrite lamp_run_app, Eb in E. cbn [bind] in E. cbn [lamp_run lamp_do] in Eb, E.
    rewrite lamp_step_full in Eb; [|exact Ft|apply full_length]. cbn [bind fst] in Eb. injection Eb as <-.
    rewrite lamp_step_full in E; [|exact Ft|apply full_length]. cbn [bind fst] in E. injection E as <-. split; reflexivity. }
  destruct P as (P1 & P2). rewrite P1, P2.
  assert (I : forall z, (0 <= z <= 300)%Z -> is_finite (nof z : f64) = true /\ B2R (nof z : f64) = IZR z) by (intros z Hz; apply of_ok; lia).
  assert (W : forall z, (0 <= z <= 300)%Z -> within 9 (nof z : f64)).
  { intros z Hz. destruct (I z Hz) as (F & V). split; [exact F|]. rewrite V. change (bpow radix2 9) with 512. assert (0 <= IZR z <= 300) by (split; apply IZR_le; lia). rewrite Rabs_pos_eq; lra. }
  split; [|split; [vm_compute; reflexivity|split; [split; reflexivity|]]].
  - unfold lamp_fit. cbv zeta. cbn [icon_lamp lp_source lp_target lp_bend lp_offset lp_stretch lp_speed b_tl b_br vx vy].
    do 4 (split; [split; apply W; lia|]). split.
    { rewrite (proj2 (I 200%Z ltac:(lia))), (proj2 (I 0%Z ltac:(lia))). rewrite Rabs_pos_eq; lra. }
    split; [reflexivity|]. split; [vm_compute; lra|]. split; [reflexivity|]. split; [vm_compute; lra|]. split; [reflexivity|]. split; [vm_compute; lra|reflexivity].
  - unfold in_square, real_point. cbn [vx vy]. split; vm_compute; lra.
Qed.
