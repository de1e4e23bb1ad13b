(** The limit on distances in [double]. *)

From Coq Require Import ZArith Reals Bool List Lia Lra.
From Flocq Require Import Core IEEE754.BinarySingleNaN.
From Verif Require Import Num Geometry Outcome Wobbly Spec SpecDouble SpecMotion SpecHold LemBasic LemInv LemHistory LemLifo LemAnchors LemMoves LemAnchorFacts LemReal LemSettle LemPin LemDouble LemRounded LemBox64 LemQuiet LemHold64.
Import ListNotations.
Local Open Scope R_scope.

Lemma ratio_err u dx dx' D rr : 0 < u <= 1 / 1000 -> 0 < D -> Rabs dx <= D -> Rabs (dx' - dx) <= u * D -> Rabs (rr - D) <= 2 * u * D ->
  0 < rr /\ Rabs (dx' / rr - dx / D) <= 6 * u.
Proof.
  intros Hu HD Hx E1 E2. assert (UD : 0 < u * D) by nra. assert (U2 : u * D <= 1 / 1000 * D) by nra.
  assert (P : D / 2 <= rr) by (apply Rabs_le_inv in E2; lra). split; [lra|].
  replace (dx' / rr - dx / D) with (((dx' - dx) * D - dx * (rr - D)) / (rr * D)) by (field; lra).
  assert (N : Rabs ((dx' - dx) * D - dx * (rr - D)) <= 3 * u * D * D).
  { unfold Rminus at 1. eapply Rle_trans; [apply Rabs_triang|]. rewrite Rabs_Ropp, !Rabs_mult, (Rabs_right D) by lra.
    assert (Rabs (dx' - dx) * D <= u * D * D) by (apply Rmult_le_compat_r; lra).
    assert (Rabs dx * Rabs (rr - D) <= D * (2 * u * D)) by (apply Rmult_le_compat; auto using Rabs_pos). lra. }
  unfold Rdiv. rewrite Rabs_mult, Rabs_inv, (Rabs_right (rr * D)) by nra.
  apply Rmult_le_reg_r with (rr * D); [nra|]. rewrite Rmult_assoc, Rinv_l, Rmult_1_r by nra.
  eapply Rle_trans; [exact N|]. nra.
Qed.

Lemma bp1 k : bpow radix2 (k + 1) = 2 * bpow radix2 k.
Proof. rewrite bpow_plus. change (bpow radix2 1) with 2. lra. Qed.
Lemma bpd k n : (0 < n)%Z -> bpow radix2 (k + n) = bpow radix2 n * bpow radix2 k.
Proof. intros _. rewrite bpow_plus. lra. Qed.

Lemma axis_confined j (tx px rg mr : f64) D : (-400 <= j <= 500)%Z -> within j tx -> within j px -> Rabs (B2R tx - B2R px) <= D ->
  is_finite rg = true -> Rabs (B2R rg - D) <= bpow radix2 (-50) * D + bpow radix2 (-528) ->
  within j mr -> bpow radix2 (-400) <= B2R mr -> B2R mr <= B2R rg ->
  is_finite (nsub tx (nmul mr (ndiv (nsub tx px) rg))) = true /\
  Rabs (B2R (nsub tx (nmul mr (ndiv (nsub tx px) rg))) - (B2R tx - B2R mr * ((B2R tx - B2R px) / D))) <= bpow radix2 (j - 46).
Proof.
  intros Hj (Ft & Lt) (Fp & Lp) Hd Fg Eg (Fm & Lm) Mm Mg.
  set (u := bpow radix2 (-50)) in *. set (t := bpow radix2 (-528)) in *. set (R := B2R mr) in *. set (rr := B2R rg) in *.
  assert (Hu0 : 0 < u) by apply bpow_gt_0.
  assert (Hu : u <= 1 / 1000) by (unfold u; eapply Rle_trans; [apply (bpow_le radix2 (-50) (-10)); lia|cbn; lra]).
  assert (Ht0 : 0 < t) by apply bpow_gt_0.
  assert (Ht : t <= u * u * R).
  { assert (t <= u * u * bpow radix2 (-400)) by (unfold t, u; rewrite <- !bpow_plus; apply bpow_le; lia).
    eapply Rle_trans; [eassumption|]. apply Rmult_le_compat_l; [nra|auto]. }
  assert (R0 : 0 < R) by (eapply Rlt_le_trans; [apply (bpow_gt_0 radix2 (-400))|auto]).
  assert (D0 : 0 <= D) by (eapply Rle_trans; [apply Rabs_pos|exact Hd]).
  assert (UR : u * u * R <= u * (1 / 1000) * R) by (apply Rmult_le_compat_r; [lra|]; apply Rmult_le_compat_l; lra).
  assert (uR : u * R <= 1 / 1000 * R) by (apply Rmult_le_compat_r; lra).
  assert (uD : u * D <= 1 / 1000 * D) by (apply Rmult_le_compat_r; lra).
  assert (D1 : R / 2 <= D) by (apply Rabs_le_inv in Eg; lra).
  assert (uRD : u * (R / 2) <= u * D) by (apply Rmult_le_compat_l; lra).
  assert (Eg' : Rabs (rr - D) <= 2 * u * D) by (eapply Rle_trans; [exact Eg|]; lra).
  assert (S1 : Rabs (B2R tx - B2R px) <= bpow radix2 (j + 1)).
  { rewrite bp1. apply Rabs_le_inv in Lt, Lp. apply Rabs_le. lra. }
  destruct (sub_ok (j + 1) ltac:(lia) tx px Ft Fp S1) as (F1 & V1).
  pose proof (rd_rel (B2R tx - B2R px)) as E1. rewrite <- V1 in E1. set (dx := nsub tx px) in *. set (x := B2R tx - B2R px) in *.
  assert (u53 : bpow radix2 (-53) = u / 8) by (unfold u; change (-53)%Z with (-50 + -3)%Z; rewrite bpow_plus; cbn; lra).
  assert (t1075 : bpow radix2 (-1075) <= u * u * R).
  { eapply Rle_trans; [|exact Ht]. unfold t. apply bpow_le; lia. }
  assert (E1' : Rabs (B2R dx - x) <= u * D).
  { eapply Rle_trans; [exact E1|]. rewrite u53. assert (u / 8 * Rabs x <= u / 8 * D) by (apply Rmult_le_compat_l; lra). lra. }
  destruct (ratio_err u x (B2R dx) D rr ltac:(lra) ltac:(lra) Hd E1' Eg') as (rr0 & E2).
  assert (XD : Rabs (x / D) <= 1).
  { unfold Rdiv. rewrite Rabs_mult, Rabs_inv, (Rabs_right D) by lra. apply Rmult_le_reg_r with D; [lra|]. rewrite Rmult_assoc, Rinv_l, Rmult_1_r by lra. lra. }
  assert (C0 : Rabs (B2R dx / rr) <= bpow radix2 1).
  { change (bpow radix2 1) with 2. apply Rabs_le_inv in XD, E2. apply Rabs_le. lra. }
  destruct (div_ok 1 ltac:(lia) dx rg F1 ltac:(fold rr; lra) C0) as (F2 & V2). fold rr in V2.
  pose proof (rd_err 1 _ ltac:(lia) C0) as E3. pose proof (rd_bound 1 _ ltac:(lia) C0) as C1. rewrite <- V2 in E3, C1.
  replace (1 - 54)%Z with (-53)%Z in E3 by reflexivity. rewrite u53 in E3. change (bpow radix2 1) with 2 in C1.
  set (c := ndiv dx rg) in *.
  assert (E4 : Rabs (B2R c - x / D) <= 7 * u) by (apply Rabs_le_inv in E2, E3; apply Rabs_le; lra).
  assert (Rj : R <= bpow radix2 j) by (rewrite Rabs_right in Lm; lra).
  assert (M0 : Rabs (R * B2R c) <= bpow radix2 (j + 1)).
  { rewrite bp1, Rabs_mult, (Rabs_right R) by lra. rewrite (Rmult_comm 2). apply Rmult_le_compat; auto using Rabs_pos; lra. }
  destruct (mul_ok (j + 1) ltac:(lia) mr c Fm F2 M0) as (F3 & V3). fold R in V3.
  pose proof (rd_rel (R * B2R c)) as E5. pose proof (rd_bound (j + 1) _ ltac:(lia) M0) as M1. rewrite <- V3 in E5, M1. set (d := nmul mr c) in *.
  assert (M2 : Rabs (R * B2R c) <= R * 2) by (rewrite Rabs_mult, (Rabs_right R) by lra; apply Rmult_le_compat_l; lra).
  assert (E6 : Rabs (B2R d - R * B2R c) <= u * R).
  { eapply Rle_trans; [exact E5|]. rewrite u53. assert (u / 8 * Rabs (R * B2R c) <= u / 8 * (R * 2)) by (apply Rmult_le_compat_l; lra). lra. }
  assert (E7 : Rabs (R * B2R c - R * (x / D)) <= R * (7 * u)).
  { rewrite <- Rmult_minus_distr_l, Rabs_mult, (Rabs_right R) by lra. apply Rmult_le_compat_l; lra. }
  assert (S2 : Rabs (B2R tx - B2R d) <= bpow radix2 (j + 2)).
  { replace (j + 2)%Z with (j + 1 + 1)%Z by lia. rewrite bp1. rewrite bp1 in M1 |- *. pose proof (bpow_ge_0 radix2 j). apply Rabs_le_inv in Lt, M1. apply Rabs_le. lra. }
  destruct (sub_ok (j + 2) ltac:(lia) tx d Ft F3 S2) as (F4 & V4). split; [exact F4|].
  pose proof (rd_err (j + 2) _ ltac:(lia) S2) as E8. rewrite <- V4 in E8.
  assert (uj : u * R <= 1 / 16 * bpow radix2 (j - 46)).
  { assert (u * bpow radix2 j = 1 / 16 * bpow radix2 (j - 46)).
    { replace (j - 46)%Z with (4 + (-50 + j))%Z by lia. rewrite (bpow_plus radix2 4), (bpow_plus radix2 (-50)). fold u. change (bpow radix2 4) with 16. field. }
    rewrite <- H. apply Rmult_le_compat_l; lra. }
  assert (ej : bpow radix2 (j + 2 - 54) <= 1 / 4 * bpow radix2 (j - 46)).
  { replace (1 / 4) with (bpow radix2 (-2)) by (cbn; lra). rewrite <- bpow_plus. apply bpow_le. lia. }
  apply Rabs_le_inv in E6, E7, E8. apply Rabs_le. lra.
Qed.

Lemma axis_le_x p q : Rabs (vx p - vx q) <= euclid p q.
Proof.
  unfold euclid. rewrite <- (sqrt_pow2 (Rabs (vx p - vx q))) by apply Rabs_pos. apply sqrt_le_1_alt. rewrite pow2_abs. pose proof (pow2_ge_0 (vy p - vy q)). lra.
Qed.
Lemma axis_le_y p q : Rabs (vy p - vy q) <= euclid p q.
Proof.
  unfold euclid. rewrite <- (sqrt_pow2 (Rabs (vy p - vy q))) by apply Rabs_pos. apply sqrt_le_1_alt. rewrite pow2_abs. pose proof (pow2_ge_0 (vx p - vx q)). lra.
Qed.

Lemma scaled_err D R x e : 0 < D -> Rabs x <= D -> Rabs (D - R) <= e -> Rabs (x - R * (x / D)) <= e.
Proof.
  intros HD Hx He. replace (x - R * (x / D)) with (x / D * (D - R)) by (field; lra). rewrite Rabs_mult.
  assert (Rabs (x / D) <= 1).
  { unfold Rdiv. rewrite Rabs_mult, Rabs_inv, (Rabs_right D) by lra. apply Rmult_le_reg_r with D; [lra|]. rewrite Rmult_assoc, Rinv_l, Rmult_1_r by lra. lra. }
  pose proof (Rabs_pos (D - R)). pose proof (Rabs_pos (x / D)). nra.
Qed.

Lemma confined_moved r (t p : vec R) : 0 < r -> r <= euclid t p ->
  confined r t p (mkV (vx t - r * ((vx t - vx p) / euclid t p)) (vy t - r * ((vy t - vy p) / euclid t p))).
Proof.
  intros Rr Hd. pose proof (constrain_confined r t p Rr) as C. unfold constrain_point in C. rewrite <- euclid_vdist in *. revert C. rnum.
  destruct (Rltb_spec (vdist t p) r); [lra|]. unfold nmin2. rnum. destruct (Rltb_spec (vdist t p) r); [lra|]. cbn [fst]. unfold vsub. cbn [vx vy]. rnum. auto.
Qed.

Lemma constrain_near j (r : f64) (z y : vec f64) : (-400 <= j <= 500)%Z -> point_within j z -> point_within j y ->
  within j r -> bpow radix2 (-400) <= B2R r ->
  (exists q, confined (B2R r) (real_point z) (real_point y) q /\ near_point (bpow radix2 (j - 45)) (fst (constrain_point r z y)) q) /\
  (euclid (real_point z) (real_point y) <= (1 - bpow radix2 (-48)) * B2R r -> fst (constrain_point r z y) = y).
Proof.
  intros Hj Wz Wy Wr Lr.
  assert (Up : forall p, point_within j p -> point_within 500 p).
  { intros p ((A & B) & (C & D)). pose proof (bpow_le radix2 j 500 ltac:(lia)). repeat split; auto; lra. }
  destruct (dist_ok z y (Up _ Wz) (Up _ Wy)) as (Fg & Eg). set (D := euclid (real_point z) (real_point y)) in *.
  assert (D0 : 0 <= D) by apply sqrt_pos.
  pose proof (axis_le_x (real_point z) (real_point y)) as Ax. pose proof (axis_le_y (real_point z) (real_point y)) as Ay. fold D in Ax, Ay. cbn [real_point vx vy] in Ax, Ay.
  unfold constrain_point. rewrite (ltb_ok _ _ Fg (proj1 Wr)).
  set (u := bpow radix2 (-50)) in *. set (t := bpow radix2 (-528)) in *.
  assert (Hu0 : 0 < u) by apply bpow_gt_0.
  assert (Hu : u <= 1 / 1000) by (unfold u; eapply Rle_trans; [apply (bpow_le radix2 (-50) (-10)); lia|cbn; lra]).
  assert (Ht0 : 0 < t) by apply bpow_gt_0.
  assert (Ht : t <= u * u * B2R r).
  { assert (t <= u * u * bpow radix2 (-400)) by (unfold t, u; rewrite <- !bpow_plus; apply bpow_le; lia).
    eapply Rle_trans; [eassumption|]. apply Rmult_le_compat_l; [nra|auto]. }
  assert (R0 : 0 < B2R r) by (eapply Rlt_le_trans; [apply (bpow_gt_0 radix2 (-400))|auto]).
  assert (UR : u * u * B2R r <= u * (1 / 1000) * B2R r) by (apply Rmult_le_compat_r; [lra|]; apply Rmult_le_compat_l; lra).
  assert (uR : u * B2R r <= 1 / 1000 * B2R r) by (apply Rmult_le_compat_r; lra). assert (uR0 : 0 < u * B2R r) by nra.
  assert (uD : u * D <= 1 / 1000 * D) by (apply Rmult_le_compat_r; lra). assert (uD0 : 0 <= u * D) by nra.
  assert (u48 : bpow radix2 (-48) = 4 * u) by (unfold u; change (-48)%Z with (2 + -50)%Z; rewrite bpow_plus; reflexivity).
  assert (uj : u * B2R r <= 1 / 16 * bpow radix2 (j - 46)).
  { assert (u * bpow radix2 j = 1 / 16 * bpow radix2 (j - 46)).
    { replace (j - 46)%Z with (4 + (-50 + j))%Z by lia. rewrite (bpow_plus radix2 4), (bpow_plus radix2 (-50)). fold u. change (bpow radix2 4) with 16. field. }
    rewrite <- H. destruct Wr as (_ & W). rewrite Rabs_right in W by lra. apply Rmult_le_compat_l; lra. }
  assert (B45 : bpow radix2 (j - 45) = 2 * bpow radix2 (j - 46)) by (replace (j - 45)%Z with (j - 46 + 1)%Z by lia; apply bp1).
  assert (Fy : finite_point y) by (destruct Wy as ((A & _) & (B & _)); split; auto).
  pose proof (bpow_gt_0 radix2 (j - 46)) as B46.
  apply Rabs_le_inv in Eg.
  destruct (Rlt_bool_spec (B2R (vdist z y)) (B2R r)) as [Lt|Ge]; cbn [fst].
  - split; [|auto].
    assert (D2 : D <= 2 * B2R r) by lra. assert (u * D <= u * (2 * B2R r)) by (apply Rmult_le_compat_l; lra).
    destruct (Rlt_le_dec D (B2R r)) as [Dl|Dg].
    + exists (real_point y). split; [split; [reflexivity|intros X; fold D in X; lra]|]. split; [exact Fy|]. cbn [real_point vx vy].
      rewrite !Rminus_diag_eq, Rabs_R0 by reflexivity. lra.
    + eexists. split; [apply confined_moved; [exact R0|exact Dg]|]. split; [exact Fy|]. cbn [real_point vx vy]. fold D.
      split.
      * replace (B2R (vx y) - (B2R (vx z) - B2R r * ((B2R (vx z) - B2R (vx y)) / D))) with (- ((B2R (vx z) - B2R (vx y)) - B2R r * ((B2R (vx z) - B2R (vx y)) / D))) by ring.
        rewrite Rabs_Ropp. apply scaled_err; [lra|exact Ax|]. rewrite Rabs_right by lra. lra.
      * replace (B2R (vy y) - (B2R (vy z) - B2R r * ((B2R (vy z) - B2R (vy y)) / D))) with (- ((B2R (vy z) - B2R (vy y)) - B2R r * ((B2R (vy z) - B2R (vy y)) / D))) by ring.
        rewrite Rabs_Ropp. apply scaled_err; [lra|exact Ay|]. rewrite Rabs_right by lra. lra.
  - assert (Mn : nmin2 r (vdist z y) = r).
    { unfold nmin2. rewrite (ltb_ok _ _ Fg (proj1 Wr)). rewrite Rlt_bool_false by exact Ge. reflexivity. }
    rewrite Mn. unfold vsub. cbn [vx vy]. assert (Dp : B2R r / 2 <= D) by lra.
    split.
    2:{ intros C. exfalso. rewrite u48 in C. assert (u * D <= u * B2R r) by (apply Rmult_le_compat_l; nra). nra. }
    destruct (axis_confined j (vx z) (vx y) (vdist z y) r D Hj (proj1 Wz) (proj1 Wy) Ax Fg (Rabs_le _ _ Eg) Wr Lr Ge) as (Fx & Ex).
    destruct (axis_confined j (vy z) (vy y) (vdist z y) r D Hj (proj2 Wz) (proj2 Wy) Ay Fg (Rabs_le _ _ Eg) Wr Lr Ge) as (Fy' & Ey).
    destruct (Rlt_le_dec D (B2R r)) as [Dl|Dg].
    + exists (real_point y). split; [split; [reflexivity|intros X; fold D in X; lra]|]. split; [split; assumption|]. cbn [real_point vx vy].
      assert (Hx : Rabs ((B2R (vx z) - B2R (vx y)) - B2R r * ((B2R (vx z) - B2R (vx y)) / D)) <= 2 * (u * B2R r)).
      { apply scaled_err; [lra|exact Ax|]. assert (u * D <= u * B2R r) by (apply Rmult_le_compat_l; lra). apply Rabs_le. lra. }
      assert (Hy : Rabs ((B2R (vy z) - B2R (vy y)) - B2R r * ((B2R (vy z) - B2R (vy y)) / D)) <= 2 * (u * B2R r)).
      { apply scaled_err; [lra|exact Ay|]. assert (u * D <= u * B2R r) by (apply Rmult_le_compat_l; lra). apply Rabs_le. lra. }
      apply Rabs_le_inv in Ex, Ey, Hx, Hy. split; apply Rabs_le; lra.
    + eexists. split; [apply confined_moved; [exact R0|exact Dg]|]. split; [split; assumption|]. cbn [real_point vx vy]. fold D. split; lra.
Qed.

(** ** One integration *)

Lemma half_of (v : f64) : is_finite (nmul v (ndiv (nof 1) (nof 2))) = true ->
  is_finite v = true /\ B2R (nmul v (ndiv (nof 1) (nof 2))) = rd (B2R v * (1 / 2)).
Proof.
  intros F. destruct half_ok as (Fh & Rh). unfold nlit in Fh, Rh.
  assert (Fv : is_finite v = true).
  { destruct v as [s|s| |s m e B]; auto. }
  split; [exact Fv|]. rewrite <- Rh. destruct (mul_ok 1023 ltac:(lia) v (ndiv (nof 1) (nof 2)) Fv Fh) as (_ & E); [|exact E].
  rewrite Rh, Rabs_mult, (Rabs_right (1 / 2)) by lra. pose proof (abs_B2R_lt_emax 53 1024 v) as L.
  change 1024%Z with (1023 + 1)%Z in L at 2. rewrite bp1 in L. lra.
Qed.

Lemma half_step j (c v : f64) : (-400 <= j <= 500)%Z -> is_finite c = true -> Rabs (B2R c) <= bpow radix2 (j + 3) ->
  within j (nadd c (nmul v (ndiv (nof 1) (nof 2)))) ->
  is_finite v = true /\ Rabs (B2R (nadd c (nmul v (ndiv (nof 1) (nof 2)))) - (B2R c + B2R v / 2)) <= bpow radix2 (j - 48).
Proof.
  intros Hj Fc Lc W. pose proof (sum_error j _ _ ltac:(lia) W) as E. destruct W as (F & L).
  pose proof (add_finite _ _ F) as (_ & Fs). pose proof (add_value _ _ F) as V. rewrite V in L. apply rd_reach in L; [|lia].
  destruct (half_of v Fs) as (Fv & Vs). split; [exact Fv|]. set (s := nmul v (ndiv (nof 1) (nof 2))) in *.
  assert (P : bpow radix2 (j + 4) = 2 * bpow radix2 (j + 3)) by (replace (j + 4)%Z with (j + 3 + 1)%Z by lia; apply bp1).
  assert (Q : bpow radix2 (j + 1) <= bpow radix2 (j + 3)) by (apply bpow_le; lia).
  assert (Ls : Rabs (B2R s) <= bpow radix2 (j + 4)).
  { apply Rabs_def2 in L. apply Rabs_le_inv in Lc. apply Rabs_le. lra. }
  rewrite Vs in Ls. apply rd_reach in Ls; [|lia]. replace (j + 4 + 1)%Z with (j + 5)%Z in Ls by lia.
  pose proof (rd_err (j + 5) (B2R v * (1 / 2)) ltac:(lia) ltac:(lra)) as E2. rewrite <- Vs in E2.
  assert (A1 : bpow radix2 (j - 53) <= 1 / 4 * bpow radix2 (j - 48)).
  { replace (1 / 4) with (bpow radix2 (-2)) by (cbn; lra). rewrite <- bpow_plus. apply bpow_le. lia. }
  assert (A2 : bpow radix2 (j + 5 - 54) <= 1 / 2 * bpow radix2 (j - 48)).
  { replace (1 / 2) with (bpow radix2 (-1)) by (cbn; lra). rewrite <- bpow_plus. apply bpow_le. lia. }
  pose proof (bpow_ge_0 radix2 (j - 48)). apply Rabs_le_inv in E, E2. apply Rabs_le. lra.
Qed.

Lemma euclid_near (a b : vec R) e : Rabs (vx a - vx b) <= e -> Rabs (vy a - vy b) <= e -> euclid a b <= 2 * e.
Proof.
  intros X Y. assert (0 <= e) by (eapply Rle_trans; [apply Rabs_pos|exact X]). unfold euclid. rewrite <- (sqrt_pow2 (2 * e)) by lra. apply sqrt_le_1_alt.
  assert ((vx a - vx b) ^ 2 <= e ^ 2) by (rewrite <- pow2_abs; apply pow_incr; split; auto using Rabs_pos).
  assert ((vy a - vy b) ^ 2 <= e ^ 2) by (rewrite <- pow2_abs; apply pow_incr; split; auto using Rabs_pos).
  pose proof (pow2_ge_0 e). lra.
Qed.

Lemma constrained_step64 p w h st ops (m m' : model f64) b t i y z j fuel :
  reached p w h st ops m -> (Z.of_nat (length ops) < two32)%Z -> length (live_anchors ops) = 1%nat ->
  (-400 <= j <= 500)%Z -> within j (st_range (mset m)) -> bpow radix2 (-400) <= B2R (st_range (mset m)) ->
  (0 < t <= 16)%Z -> step_op fuel m (OpStep t) = Ok (m', OMore b) ->
  nth_error (mpos m) i = Some y -> nth_error (mtargets m) i = Some z -> point_within j y -> point_within j z ->
  exists z' v' c q, nth_error (mtargets m') i = Some z /\ nth_error (mpos m') i = Some z' /\ nth_error (mvel m') i = Some v' /\
    confined (B2R (st_range (mset m))) (real_point z) (real_point y) q /\ near_point (bpow radix2 (j - 45)) c q /\
    (euclid (real_point z) (real_point y) <= (1 - bpow radix2 (-48)) * B2R (st_range (mset m)) -> c = y) /\
    (b = true -> (z' = c /\ v' = vzero) \/ z' = rounded_sum c (mkV (nmul (vx v') (ndiv (nof 1) (nof 2))) (nmul (vy v') (ndiv (nof 1) (nof 2))))) /\
    (b = false -> z' = z) /\
    (point_within j z' -> euclid (real_point z) (real_point z') <= B2R (st_range (mset m)) + magnitude (real_point v') / 2 + bpow radix2 (j - 43)).
Proof.
  intros Hr Hb L Hj Wr Lr Ht E Hy Hz Wy Wz. pose proof (inv_reached _ _ _ _ _ _ Hr) as I.
  unfold step_op in E. destruct (needs_model _ && negb (malive m))%bool; [discriminate|]. inv_ok.
  match goal with X : model_step t m = Ok ?a |- _ => destruct a as [mm bb]; rename X into E end. cbn [fst snd] in *.
  assert (A : active m = true) by (apply (reached_active _ _ _ _ _ _ Hr); auto).
  assert (Hi : (i < 16)%nat) by (rewrite <- (inv_pos _ I); apply nth_error_Some; congruence).
  unfold model_step in E. rewrite one_integration in E by auto. cbn [integrate_n] in E. replace (t =? 0)%Z with false in E by (symmetry; apply Z.eqb_neq; lia).
  inv_ok. match goal with X : integrate_once m = Ok ?a |- _ => destruct a as [m1 b1] end. cbn [fst snd orb] in *.
  match goal with X : integrate_once m = Ok _ |- _ => rename X into E end.
  destruct (integrate_once_point m m1 b1 i I (reached_bound _ _ _ _ _ _ Hr Hb) Hi E) as (c & v & f & mm0 & fe & Hc & Hv & Hf & Hff & Hg & Hn).
  pose proof (integrate_once_shape _ _ _ E) as (pp & vv & hh & Em & _).
  assert (Cc : c = fst (constrain_point (st_range (mset m)) z y)).
  { unfold constrainment in Hc. rewrite A in Hc.
    rewrite constrain_points_map in Hc by (rewrite (inv_pos _ I), (inv_tgt _ I); auto).
    rewrite nth_error_map in Hc. rewrite (LemPin.nth_error_combine_some (mtargets m) (mpos m) i z y) in Hc; auto.
    cbn [option_map fst snd] in Hc. injection Hc as <-. reflexivity. }
  destruct (constrain_near j (st_range (mset m)) z y Hj Wz Wy Wr Lr) as ((q & Cq & Nq) & Id). rewrite <- Cc in Nq, Id.
  set (r := st_range (mset m)) in *. clearbody r. clear Cc.
  assert (R0 : 0 < B2R r) by (eapply Rlt_le_trans; [apply (bpow_gt_0 radix2 (-400))|auto]).
  pose proof (confined_near _ _ _ _ R0 Cq) as Dq.
  assert (Xm : exists z' v', nth_error (mpos m1) i = Some z' /\ nth_error (mvel m1) i = Some v' /\
     ((z' = c /\ v' = vzero) \/ z' = rounded_sum c (mkV (nmul (vx v') (ndiv (nof 1) (nof 2))) (nmul (vy v') (ndiv (nof 1) (nof 2)))))).
  { assert (G : grabbed m i \/ ~ grabbed m i).
    { destruct (Z_lt_dec 0 (grabs i (mhandles m))) as [G0|G0]; [left|right; intros G; apply G0];
        apply (grabs_pos_iff i (mhandles m) (inv_keys _ I)); auto. }
    destruct G as [G|G].
    - destruct (Hg G) as [P1 P2]. exists c, vzero. auto.
    - destruct (Hn G) as (P1 & P2). eexists; eexists. split; [exact P1|]. split; [exact P2|]. right. reflexivity. }
  destruct Xm as (z' & v' & Hz' & Hv' & Ez').
  assert (Tg : mtargets m1 = mtargets m) by (rewrite Em; reflexivity).
  assert (Ac : active m1 = true) by (rewrite Em; exact A).
  assert (Mg : 0 <= magnitude (real_point v')) by apply sqrt_pos.
  pose proof (bpow_ge_0 radix2 (j - 43)) as B43.
  cbn [negb andb].
  destruct b1; cbn [negb andb].
  - exists z', v', c, q. cbn [set_unequal mtargets mpos mvel]. rewrite Tg. do 3 (split; [assumption|]). split; [exact Cq|]. split; [exact Nq|]. split; [exact Id|].
    split; [auto|]. split; [discriminate|]. intros Wz'.
    assert (B45 : bpow radix2 (j - 43) = 4 * bpow radix2 (j - 45)) by (replace (j - 43)%Z with (2 + (j - 45))%Z by lia; rewrite bpow_plus; reflexivity).
    assert (B48 : bpow radix2 (j - 48) <= 1 / 8 * bpow radix2 (j - 45)).
    { replace (1 / 8) with (bpow radix2 (-3)) by (cbn; lra). rewrite <- bpow_plus. apply bpow_le. lia. }
    destruct Nq as ((Fx & Fy) & Nx & Ny).
    assert (Lc : Rabs (B2R (vx c)) <= bpow radix2 (j + 3) /\ Rabs (B2R (vy c)) <= bpow radix2 (j + 3)).
    { pose proof (axis_le_x (real_point z) q) as X1. pose proof (axis_le_y (real_point z) q) as X2. cbn [real_point vx vy] in X1, X2.
      assert (B3 : bpow radix2 (j + 3) = 8 * bpow radix2 j) by (rewrite bpow_plus; change (bpow radix2 3) with 8; lra).
      assert (Bn : bpow radix2 (j - 45) <= bpow radix2 j) by (apply bpow_le; lia). rewrite B3.
      destruct Wz as ((_ & Z1) & (_ & Z2)). destruct Wr as (_ & R1). rewrite Rabs_right in R1 by lra.
      assert (Y1 : Rabs (B2R (vx z) - vx q) <= bpow radix2 j) by lra. assert (Y2 : Rabs (B2R (vy z) - vy q) <= bpow radix2 j) by lra.
      apply Rabs_le_inv in Y1, Y2, Z1, Z2, Nx, Ny. split; apply Rabs_le; lra. }
    eapply Rle_trans; [apply (euclid_triangle (real_point z) q (real_point z'))|].
    eapply Rle_trans; [apply Rplus_le_compat_l; apply (euclid_triangle q (mkV (vx q + vx (real_point v') / 2) (vy q + vy (real_point v') / 2)) (real_point z'))|].
    rewrite euclid_half.
    assert (F : euclid (mkV (vx q + vx (real_point v') / 2) (vy q + vy (real_point v') / 2)) (real_point z') <= 2 * (2 * bpow radix2 (j - 45))).
    { apply euclid_near; cbn [real_point vx vy]; destruct Ez' as [(-> & ->) | ->]; cbn [rounded_sum vzero vx vy] in *.
      - rewrite (proj2 zero_ok). apply Rabs_le_inv in Nx. apply Rabs_le. lra.
      - destruct (half_step j _ _ Hj Fx (proj1 Lc) (proj1 Wz')) as (_ & S). apply Rabs_le_inv in Nx, S. apply Rabs_le. lra.
      - rewrite (proj2 zero_ok). apply Rabs_le_inv in Ny. apply Rabs_le. lra.
      - destruct (half_step j _ _ Hj Fy (proj2 Lc) (proj2 Wz')) as (_ & S). apply Rabs_le_inv in Ny, S. apply Rabs_le. lra. }
    lra.
  - change (active (set_unequal m1 false)) with (active m1). rewrite Ac.
    exists z, v', c, q. cbn [set_pos set_unequal mtargets mpos mvel]. rewrite Tg. do 3 (split; [assumption|]). split; [exact Cq|]. split; [exact Nq|]. split; [exact Id|].
    split; [discriminate|]. split; [reflexivity|]. intros _. rewrite <- euclid_vdist, vdist_same. lra.
Qed.
