(** * What the magic lamp shows, in [float] and [double] (C43) *)

From Coq Require Import ZArith Reals Bool List Lia Lra.
From Flocq Require Import Core IEEE754.BinarySingleNaN.
From Verif Require Import Num Geometry Outcome Steppers Transforms MagicLamp Program SpecAnim SpecPixel SpecDouble SpecFinal LemReal LemDouble LemFloat LemFinal LemZoom32 LemLamp LemGrid32.
Import ListNotations.
Local Open Scope R_scope.

(** ** C43 *)

(** For every grid of up to 65536 columns and rows whose coordinates are at most
    2^k and whose neighbours are at most [dh] and [dv] apart, every texture
    coordinate is shown at most 2^(k-19) + (columns * dh + rows * dv) 2^-20 from
    the bilinear mean of the corners of its cell.  (Its cell: up to 2^-38 of a
    cell.) *)
Theorem C43_bilinear_float :
  forall (St : Type) (a : lamp f32 f64 St) (uv : vec f64) (k : Z) (dh dv : R),
    let r := ml_res a in
    (2 <= rw r <= 2 ^ 16)%Z -> (2 <= rh r <= 2 ^ 16)%Z -> length (ml_grid a) = Z.to_nat (rw r * rh r) ->
    (0 <= k <= 100)%Z -> Forall (point_within k) (ml_grid a) -> spaced dh dv r (ml_grid a) ->
    dh <= 2 * bpow radix2 k -> dv <= 2 * bpow radix2 k ->
    finite_point uv -> in_square (real_point uv) ->
    exists (i j : Z) v1 v2 v3 v4 p,
      let s := B2R (vx uv) * IZR (rw r - 1) - IZR i in let t := B2R (vy uv) * IZR (rh r - 1) - IZR j in
      let i' := Z.min (rw r - 1) (i + 1) in let j' := Z.min (rh r - 1) (j + 1) in
      (0 <= i < rw r)%Z /\ (0 <= j < rh r)%Z /\ - bpow radix2 (-38) <= s <= 1 /\ - bpow radix2 (-38) <= t <= 1 /\
      vertex r (ml_grid a) i j = Some v1 /\ vertex r (ml_grid a) i' j = Some v2 /\
      vertex r (ml_grid a) i j' = Some v3 /\ vertex r (ml_grid a) i' j' = Some v4 /\
      lamp_deform a uv = Ok p /\
      near_point (bpow radix2 (k - 19) + (IZR (rw r) * dh + IZR (rh r) * dv) * bpow radix2 (-20)) p
        (bilinear s t (real_point v1) (real_point v2) (real_point v3) (real_point v4)).
Proof.
  intros St a uv k dh dv r Hw Hh Len Hk W Sp Hdh Hdv (Fu & Fv) (Uu & Uv). cbn [real_point vx vy] in Uu, Uv.
  destruct (cell_number (vx uv) (rw r - 1)) as (i & Ei & Hi & Si); [lia|exact Fu|exact Uu|].
  destruct (cell_number (vy uv) (rh r - 1)) as (j & Ej & Hj & Sj); [lia|exact Fv|exact Uv|].
  assert (B64 : (rw r * rh r < 2 ^ 64)%Z) by (apply Z.le_lt_trans with (2 ^ 16 * 2 ^ 16)%Z; [apply Z.mul_le_mono_nonneg; lia|reflexivity]).
  destruct (interpolate_ok (F := f32) uv r (ml_grid a) i j) as (tl & bl & tr & br & Ntl & Nbl & Ntr & Nbr & E); auto; try lia.
  { unfold LemLamp.fits. split; [lia|]. split; [lia|exact B64]. }
  destruct (place_near (vx uv) (rw r - 1) i ltac:(lia) Fu Uu Hi Si) as (X & IX & EX).
  destruct (place_near (vy uv) (rh r - 1) j ltac:(lia) Fv Uv Hj Sj) as (Y & IY & EY).
  set (s := B2R (vx uv) * IZR (rw r - 1) - IZR i) in *. set (t := B2R (vy uv) * IZR (rh r - 1) - IZR j) in *.
  set (i' := Z.min (rw r - 1) (i + 1)) in *. set (j' := Z.min (rh r - 1) (j + 1)) in *.
  assert (S0 : - bpow radix2 (-38) <= s <= 1 /\ - bpow radix2 (-38) <= t <= 1) by (unfold s, t; lra).
  assert (P38 : bpow radix2 (-38) <= / 1024) by (apply Rle_trans with (bpow radix2 (-10)); [apply bpow_le; lia|right; reflexivity]).
  assert (Pl : forall z, (2 <= z <= 2 ^ 16)%Z -> (IZR (z - 1) + 1) * bpow radix2 (-21) = IZR z * bpow radix2 (-21) /\ 0 <= IZR z * bpow radix2 (-21) <= / 16).
  { intros z Hz. rewrite <- plus_IZR. replace (z - 1 + 1)%Z with z by lia. split; [reflexivity|]. assert (2 <= IZR z <= 65536) by (split; apply IZR_le; lia).
    change (bpow radix2 (-21)) with (/ 2097152). lra. }
  destruct (Pl (rw r) Hw) as (Pw & He). destruct (Pl (rh r) Hh) as (Ph & He'). rewrite Pw in EX. rewrite Ph in EY.
  set (e := IZR (rw r) * bpow radix2 (-21)) in *. set (e' := IZR (rh r) * bpow radix2 (-21)) in *.
  assert (In : forall m v, nth_error (ml_grid a) m = Some v -> point_within k v).
  { intros m v Nm. rewrite Forall_forall in W. apply W. eapply nth_error_In. exact Nm. }
  destruct (In _ _ Ntl) as (W1 & W1'). destruct (In _ _ Nbl) as (W3 & W3'). destruct (In _ _ Ntr) as (W2 & W2'). destruct (In _ _ Nbr) as (W4 & W4').
  destruct (proj2 (Sp i j i j' tl bl ltac:(lia) ltac:(lia) ltac:(lia) ltac:(lia) Ntl Nbl) eq_refl ltac:(lia)) as (Dx1 & Dy1).
  destruct (proj2 (Sp i' j i' j' tr br ltac:(lia) ltac:(lia) ltac:(lia) ltac:(lia) Ntr Nbr) eq_refl ltac:(lia)) as (Dx2 & Dy2).
  destruct (proj1 (Sp i j i' j tl tr ltac:(lia) ltac:(lia) ltac:(lia) ltac:(lia) Ntl Ntr) ltac:(lia) eq_refl) as (Dx3 & Dy3).
  destruct (proj1 (Sp i j' i' j' bl br ltac:(lia) ltac:(lia) ltac:(lia) ltac:(lia) Nbl Nbr) ltac:(lia) eq_refl) as (Dx4 & Dy4).
  pose proof (Rabs_minus_sym (B2R (vx tl)) (B2R (vx tr))) as Q1. pose proof (Rabs_minus_sym (B2R (vx bl)) (B2R (vx br))) as Q2.
  pose proof (Rabs_minus_sym (B2R (vy tl)) (B2R (vy bl))) as Q3. pose proof (Rabs_minus_sym (B2R (vy tr)) (B2R (vy br))) as Q4.
  destruct (axis_near k (vx tl) (vx bl) (vx tr) (vx br) _ _ Y X t s e' e dv dh Hk W1 W3 W2 W4 IY IX EY EX He' He) as (px & (Fx & Vx) & Ex); try lra.
  destruct (axis_near k (vy tl) (vy tr) (vy bl) (vy br) _ _ X Y s t e e' dh dv Hk W1' W2' W3' W4' IX IY EX EY He He') as (py & (Fy & Vy) & Ey); try lra.
  rewrite (Rplus_comm (dv * e')) in Ex.
  exists i, j, tl, tr, bl, br, (blend uv r i j tl bl tr br). cbv zeta. fold s t i' j'.
  split; [lia|]. split; [lia|]. split; [tauto|]. split; [tauto|]. do 4 (split; [assumption|]). split; [exact E|].
  assert (Err : bpow radix2 k * / 524288 + 2 * (dh * e + dv * e') = bpow radix2 (k - 19) + (IZR (rw r) * dh + IZR (rh r) * dv) * bpow radix2 (-20)).
  { unfold e, e'. unfold Zminus. rewrite bpow_plus. change (bpow radix2 (- (19))) with (/ 524288). change (bpow radix2 (-20)) with (/ 1048576). change (bpow radix2 (-21)) with (/ 2097152). field. }
  rewrite <- Err.
  assert (Wx : is (vx (blend (F := f32) uv r i j tl bl tr br)) px) by (unfold blend; cbv zeta; cbn [vx]; apply widen_is; split; assumption).
  assert (Wy : is (vy (blend (F := f32) uv r i j tl bl tr br)) py) by (unfold blend; cbv zeta; cbn [vy]; apply widen_is; split; assumption).
  destruct Wx as (F1 & V1). destruct Wy as (F2 & V2). unfold near_point. rewrite V1, V2.
  split; [split; assumption|]. unfold bilinear, real_point. cbn [vx vy]. split.
  - match type of Ex with Rabs ?q <= _ => match goal with |- Rabs ?p <= _ => replace p with q by ring end end. exact Ex.
  - match type of Ey with Rabs ?q <= _ => match goal with |- Rabs ?p <= _ => replace p with q by ring end end. exact Ey.
Qed.
Print Assumptions C43_bilinear_float.

(** So every rectangle that contains the corners of the cell contains the point
    shown, up to 2^(k-18) + (columns * dh + rows * dv) 2^-20. *)
Theorem C43_interpolates_float :
  forall (St : Type) (a : lamp f32 f64 St) (uv : vec f64) (k : Z) (dh dv : R),
    let r := ml_res a in
    (2 <= rw r <= 2 ^ 16)%Z -> (2 <= rh r <= 2 ^ 16)%Z -> length (ml_grid a) = Z.to_nat (rw r * rh r) ->
    (0 <= k <= 100)%Z -> Forall (point_within k) (ml_grid a) -> spaced dh dv r (ml_grid a) ->
    dh <= 2 * bpow radix2 k -> dv <= 2 * bpow radix2 k ->
    finite_point uv -> in_square (real_point uv) ->
    exists (i j : Z) v1 v2 v3 v4 p,
      let i' := Z.min (rw r - 1) (i + 1) in let j' := Z.min (rh r - 1) (j + 1) in
      let e := bpow radix2 (k - 18) + (IZR (rw r) * dh + IZR (rh r) * dv) * bpow radix2 (-20) in
      (0 <= i < rw r)%Z /\ (0 <= j < rh r)%Z /\
      - bpow radix2 (-38) <= B2R (vx uv) * IZR (rw r - 1) - IZR i <= 1 /\
      - bpow radix2 (-38) <= B2R (vy uv) * IZR (rh r - 1) - IZR j <= 1 /\
      vertex r (ml_grid a) i j = Some v1 /\ vertex r (ml_grid a) i' j = Some v2 /\
      vertex r (ml_grid a) i j' = Some v3 /\ vertex r (ml_grid a) i' j' = Some v4 /\
      lamp_deform a uv = Ok p /\ finite_point p /\
      forall lo hi : vec R, Forall (fun v => SpecAnim.within lo hi (real_point v)) [v1; v2; v3; v4] ->
        SpecAnim.within (mkV (vx lo - e) (vy lo - e)) (mkV (vx hi + e) (vy hi + e)) (real_point p).
Proof.
  intros St a uv k dh dv r Hw Hh Len Hk W Sp Hdh Hdv Fu Uu.
  destruct (C43_bilinear_float St a uv k dh dv Hw Hh Len Hk W Sp Hdh Hdv Fu Uu)
    as (i & j & v1 & v2 & v3 & v4 & p & Hi & Hj & Hs & Ht & V1 & V2 & V3 & V4 & E & (Fp & Nx & Ny)).
  exists i, j, v1, v2, v3, v4, p. cbv zeta. do 10 (split; [assumption|]).
  intros lo hi C. inversion C as [|? ? C1 D1]; subst. inversion D1 as [|? ? C2 D2]; subst.
  inversion D2 as [|? ? C3 D3]; subst. inversion D3 as [|? ? C4 _]; subst.
  assert (In : forall m v, nth_error (ml_grid a) m = Some v -> point_within k v).
  { intros m v Nm. rewrite Forall_forall in W. apply W. eapply nth_error_In. exact Nm. }
  destruct (In _ _ V1) as ((_ & X1) & (_ & Y1)). destruct (In _ _ V2) as ((_ & X2) & (_ & Y2)).
  destruct (In _ _ V3) as ((_ & X3) & (_ & Y3)). destruct (In _ _ V4) as ((_ & X4) & (_ & Y4)).
  set (s := B2R (vx uv) * IZR (rw (ml_res a) - 1) - IZR i) in *. set (t := B2R (vy uv) * IZR (rh (ml_res a) - 1) - IZR j) in *.
  assert (D : 0 <= bpow radix2 (-38) <= / 8).
  { split; [apply bpow_ge_0|]. change (/ 8) with (bpow radix2 (-3)). apply bpow_le. lia. }
  unfold SpecAnim.within, real_point in *. cbn [vx vy bilinear] in *.
  destruct C1 as (C1x & C1y), C2 as (C2x & C2y), C3 as (C3x & C3y), C4 as (C4x & C4y).
  pose proof (bilinear_hull _ _ _ _ _ _ s t _ _ D Hs Ht C1x C2x C3x C4x X1 X2 X3 X4) as Bx.
  pose proof (bilinear_hull _ _ _ _ _ _ s t _ _ D Hs Ht C1y C2y C3y C4y Y1 Y2 Y3 Y4) as By.
  assert (Ek : 5 * (bpow radix2 (-38) * bpow radix2 k) <= bpow radix2 (k - 19)).
  { unfold Zminus. rewrite bpow_plus. pose proof (bpow_gt_0 radix2 k).
    assert (5 * bpow radix2 (-38) <= bpow radix2 (- (19))).
    { apply Rle_trans with (8 * bpow radix2 (-38)); [pose proof (bpow_gt_0 radix2 (-38)); lra|].
      change 8 with (bpow radix2 3). rewrite <- bpow_plus. apply bpow_le. lia. }
    rewrite <- Rmult_assoc, (Rmult_comm (bpow radix2 k)). apply Rmult_le_compat_r; lra. }
  assert (E2 : bpow radix2 (k - 18) = 2 * bpow radix2 (k - 19)).
  { replace (k - 18)%Z with (1 + (k - 19))%Z by lia. rewrite bpow_plus. reflexivity. }
  apply Rabs_le_inv in Nx, Ny. rewrite E2. fold r in Nx, Ny. lra.
Qed.
Print Assumptions C43_interpolates_float.

(** A lamp of 2 x 2 vertices half way down. *)
Example C43_float_case : exists (a : lamp f32 f64 f32) (uv : vec f64),
  (2 <= rw (ml_res a) <= 2 ^ 16)%Z /\ (2 <= rh (ml_res a) <= 2 ^ 16)%Z /\ length (ml_grid a) = Z.to_nat (rw (ml_res a) * rh (ml_res a)) /\
  Forall (point_within 7) (ml_grid a) /\ spaced 100 100 (ml_res a) (ml_grid a) /\ 100 <= 2 * bpow radix2 7 /\
  finite_point uv /\ in_square (real_point uv).
Proof.
  assert (I : forall z, (0 <= z <= 100)%Z -> is_finite (nof z : f64) = true /\ B2R (nof z : f64) = IZR z) by (intros z Hz; apply of_ok; lia).
  exists (mkLampAnim (mkLamp (mkB (mkV (nof 0) (nof 0)) (mkV (nof 100) (nof 80))) (mkB (mkV (nof 0) (nof 0)) (mkV (nof 10) (nof 10))) (nof 10) (nlit 1 2) (nlit 1 2) (nof 2))
    [mkV (nof 0) (nof 5); mkV (nof 100) (nof 7); mkV (nof 20) (nof 80); mkV (nof 60) (nof 80)] (mkRes 2 2) (nlit 1 2) (nof 0)), (mkV (nof 1) (nof 0)).
  cbn [ml_res ml_grid rw rh]. split; [lia|]. split; [lia|]. split; [reflexivity|].
  assert (B7 : bpow radix2 7 = 128) by reflexivity.
  assert (Wi : forall z, (0 <= z <= 100)%Z -> within 7 (nof z : f64)).
  { intros z Hz. destruct (I z Hz) as (F & V). split; [exact F|]. rewrite V, B7. assert (0 <= IZR z <= 100) by (split; apply IZR_le; lia). rewrite Rabs_pos_eq; lra. }
  split; [repeat (apply Forall_cons; [split; apply Wi; lia|]); apply Forall_nil|].
  split.
  { intros i j i' j' v v' _ _ _ _ V V'.
    assert (Q : forall x : vec f64, In x [mkV (nof 0) (nof 5); mkV (nof 100) (nof 7); mkV (nof 20) (nof 80); mkV (nof 60) (nof 80)] -> 0 <= B2R (vx x) <= 100 /\ 0 <= B2R (vy x) <= 100).
    { intros x Hx. pose proof (proj2 (I 0%Z ltac:(lia))). pose proof (proj2 (I 5%Z ltac:(lia))). pose proof (proj2 (I 100%Z ltac:(lia))). pose proof (proj2 (I 7%Z ltac:(lia))).
      pose proof (proj2 (I 20%Z ltac:(lia))). pose proof (proj2 (I 80%Z ltac:(lia))). pose proof (proj2 (I 60%Z ltac:(lia))).
      cbn [In] in Hx. destruct Hx as [<-|[<-|[<-|[<-|[]]]]]; cbn [vx vy]; lra. }
    apply nth_error_In in V, V'. apply Q in V, V'. split; intros _ _; split; apply Rabs_le; lra. }
  split; [rewrite B7; lra|]. split; [split; apply I; lia|]. unfold in_square, real_point. cbn [vx vy].
  pose proof (proj2 (I 0%Z ltac:(lia))). pose proof (proj2 (I 1%Z ltac:(lia))). lra.
Qed.
