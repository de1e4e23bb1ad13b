(** [Extremes] in [double] arithmetic. *)

From Coq Require Import ZArith Reals Bool List Lia Lra.
From Flocq Require Import Core IEEE754.BinarySingleNaN.
From Verif Require Import Num Geometry Outcome Wobbly Spec SpecMesh SpecDouble LemBasic LemReal LemInv LemHistory LemAnchors LemBezier LemDouble LemHang.
Import ListNotations.
Local Open Scope R_scope.

Lemma round_ok (x : f64) : is_finite x = true ->
  is_finite (nround x) = true /\ B2R (nround x) = nround (B2R x).
Proof.
  intros F. destruct (Bnearbyint_correct 53 1024 Hemax64 mode_NA x) as (E & G & _).
  split; [exact (eq_trans G F)|]. refine (eq_trans E _). rewrite round_FIX_IZR. reflexivity.
Qed.

Lemma min_ok (x y : f64) : is_finite x = true -> is_finite y = true ->
  is_finite (nmin2 x y) = true /\ B2R (nmin2 x y) = nmin2 (B2R x) (B2R y).
Proof.
  intros Fx Fy. unfold nmin2. rewrite ltb_ok by assumption.
  change (nltb (B2R y) (B2R x)) with (Rltb (B2R y) (B2R x)). unfold Rltb.
  destruct (Rlt_bool_spec (B2R y) (B2R x)); destruct (Rlt_dec (B2R y) (B2R x)); auto; lra.
Qed.
Lemma max_ok (x y : f64) : is_finite x = true -> is_finite y = true ->
  is_finite (nmax2 x y) = true /\ B2R (nmax2 x y) = nmax2 (B2R x) (B2R y).
Proof.
  intros Fx Fy. unfold nmax2. rewrite ltb_ok by assumption.
  change (nltb (B2R x) (B2R y)) with (Rltb (B2R x) (B2R y)). unfold Rltb.
  destruct (Rlt_bool_spec (B2R x) (B2R y)); destruct (Rlt_dec (B2R x) (B2R y)); auto; lra.
Qed.

Definition corners4 (c : vec f64 * vec f64 * vec f64 * vec f64) : vec R * vec R * vec R * vec R :=
  let '(a, b, c, d) := c in (real_point a, real_point b, real_point c, real_point d).
Definition finite4 (c : vec f64 * vec f64 * vec f64 * vec f64) : Prop :=
  let '(a, b, c, d) := c in finite_point a /\ finite_point b /\ finite_point c /\ finite_point d.

Lemma round_point (x y : f64) (a b : R) :
  is_finite x = true /\ B2R x = a -> is_finite y = true /\ B2R y = b ->
  finite_point (point_round (mkV x y)) /\ real_point (point_round (mkV x y)) = point_round (mkV a b).
Proof.
  intros (Fx & <-) (Fy & <-). unfold point_round, vmap, finite_point, real_point. cbn [vx vy].
  destruct (round_ok x Fx) as (A & ->). destruct (round_ok y Fy) as (B & ->). split; [split; assumption|reflexivity].
Qed.

Lemma ext_step_ok acc p : finite4 acc -> finite_point p ->
  finite4 (ext_step acc p) /\ corners4 (ext_step acc p) = ext_step (corners4 acc) (real_point p).
Proof.
  destruct acc as [[[a b] c] d]. intros ((Ax & Ay) & (Bx & By) & (Cx & Cy) & (Dx & Dy)) (Px & Py).
  unfold ext_step, corners4, finite4.
  destruct (round_point _ _ _ _ (min_ok _ _ Ax Px) (min_ok _ _ Ay Py)) as (F1 & E1).
  destruct (round_point _ _ _ _ (max_ok _ _ Bx Px) (min_ok _ _ By Py)) as (F2 & E2).
  destruct (round_point _ _ _ _ (min_ok _ _ Cx Px) (max_ok _ _ Cy Py)) as (F3 & E3).
  destruct (round_point _ _ _ _ (max_ok _ _ Dx Px) (max_ok _ _ Dy Py)) as (F4 & E4).
  rewrite E1, E2, E3, E4. split; [repeat split; try apply F1; try apply F2; try apply F3; apply F4|reflexivity].
Qed.

Lemma ext_fold_ok pts : forall acc, finite4 acc -> (forall p, In p pts -> finite_point p) ->
  finite4 (fold_left ext_step pts acc) /\
  corners4 (fold_left ext_step pts acc) = fold_left ext_step (map real_point pts) (corners4 acc).
Proof.
  induction pts as [|p l IH]; intros acc Fa Fp; [split; [exact Fa|reflexivity]|]. cbn [fold_left map].
  destruct (ext_step_ok acc p Fa (Fp p (or_introl eq_refl))) as (F & <-).
  apply IH; [exact F|]. intros q Hq. apply Fp. right. exact Hq.
Qed.

Lemma nmax_real : B2R (nmax : f64) = Rmaxv.
Proof.
  assert (E : B2SF (nmax : f64) = SpecFloat.S754_finite false 9007199254740991 971) by (vm_compute; reflexivity).
  rewrite <- SF2R_B2SF, E. unfold SF2R, F2R. cbn [Fnum Fexp cond_Zopp]. rewrite <- IZR_Zpower by lia. rewrite <- mult_IZR.
  unfold Rmaxv. apply f_equal. vm_compute. reflexivity.
Qed.

Lemma finite_below_max (x : f64) : is_finite x = true -> Rabs (B2R x) <= Rmaxv.
Proof.
  intros _. pose proof (abs_B2R_le_emax_minus_prec 53 1024 Hprec64 x) as L. unfold Rmaxv.
  refine (Rle_trans _ _ _ L _).
  rewrite <- (IZR_Zpower radix2) by lia. rewrite <- (IZR_Zpower radix2) by lia.
  rewrite <- minus_IZR. apply IZR_le. apply Z.leb_le. vm_compute. reflexivity.
Qed.

Lemma extremes_ok (pts : list (vec f64)) : (forall p, In p pts -> finite_point p) ->
  finite4 (extremes_of pts) /\ corners4 (extremes_of pts) = extremes_of (map real_point pts).
Proof.
  intros F. unfold extremes_of.
  assert (Fm : is_finite (nmax : f64) = true) by reflexivity.
  assert (Fn : is_finite (nopp nmax : f64) = true) by reflexivity.
  assert (En : B2R (nopp nmax : f64) = - Rmaxv) by (rewrite <- nmax_real; apply B2R_Bopp).
  destruct (ext_fold_ok pts (mkV nmax nmax, mkV (nopp nmax) nmax, mkV nmax (nopp nmax), mkV (nopp nmax) (nopp nmax))) as (A & B);
    [repeat split; assumption|exact F|]. split; [exact A|].
  refine (eq_trans B _). unfold corners4, real_point. cbn [vx vy]. rewrite En, nmax_real. reflexivity.
Qed.

Lemma finite_points_below (pts : list (vec f64)) : (forall p, In p pts -> finite_point p) ->
  forall q, In q (map real_point pts) -> Rabs (vx q) <= Rmaxv /\ Rabs (vy q) <= Rmaxv.
Proof.
  intros F q Hq. apply in_map_iff in Hq. destruct Hq as (p & <- & Hp). destruct (F p Hp) as (Fx & Fy).
  split; apply finite_below_max; assumption.
Qed.

Lemma extremes_double p w h st ops (m : model f64) :
  reached p w h st ops m -> (forall q, In q (mpos m) -> finite_point q) ->
  exists x0 x1 y0 y1 (a b c d : Z),
    least (map (fun q => B2R (vx q)) (mpos m)) x0 /\ greatest (map (fun q => B2R (vx q)) (mpos m)) x1 /\
    least (map (fun q => B2R (vy q)) (mpos m)) y0 /\ greatest (map (fun q => B2R (vy q)) (mpos m)) y1 /\
    rounds_to x0 a /\ rounds_to x1 b /\ rounds_to y0 c /\ rounds_to y1 d /\
    let '(tl, tr, bl, br) := extremes m in
    (finite_point tl /\ finite_point tr /\ finite_point bl /\ finite_point br) /\
    real_point tl = mkV (IZR a) (IZR c) /\ real_point tr = mkV (IZR b) (IZR c) /\
    real_point bl = mkV (IZR a) (IZR d) /\ real_point br = mkV (IZR b) (IZR d).
Proof.
  intros Hr F. pose proof (inv_pos _ (inv_reached _ _ _ _ _ _ Hr)) as L.
  destruct (extremes_box (map real_point (mpos m))) as (x0 & x1 & y0 & y1 & a & b & c & d & L1 & G1 & L2 & G2 & R1 & R2 & R3 & R4 & E).
  { intros X. apply map_eq_nil in X. rewrite X in L. discriminate L. }
  { apply finite_points_below. exact F. }
  rewrite !map_map in L1, G1, L2, G2. cbn [real_point vx vy] in L1, G1, L2, G2.
  exists x0, x1, y0, y1, a, b, c, d. do 8 (split; [assumption|]).
  destruct (extremes_ok (mpos m) F) as (F4 & E4). unfold extremes. rewrite E in E4.
  destruct (extremes_of (mpos m)) as [[[tl tr] bl] br]. split; [exact F4|]. unfold corners4 in E4.
  apply pair_equal_spec in E4. destruct E4 as (E4 & ->). apply pair_equal_spec in E4. destruct E4 as (E4 & ->).
  apply pair_equal_spec in E4. destruct E4 as (-> & ->). auto.
Qed.

Lemma extremes_near_double (m : model f64) q :
  (forall q, In q (mpos m) -> finite_point q) -> In q (mpos m) ->
  let '(tl, tr, bl, br) := extremes m in
  B2R (vx tl) - 1 / 2 <= B2R (vx q) <= B2R (vx br) + 1 / 2 /\ B2R (vy tl) - 1 / 2 <= B2R (vy q) <= B2R (vy br) + 1 / 2.
Proof.
  intros F Hq. destruct (extremes_ok (mpos m) F) as (F4 & E4).
  pose proof (extremes_near (map real_point (mpos m)) (real_point q) (finite_points_below _ F) (in_map _ _ _ Hq)) as N.
  rewrite <- E4 in N. unfold extremes. destruct (extremes_of (mpos m)) as [[[tl tr] bl] br]. exact N.
Qed.
