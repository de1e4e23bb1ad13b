(** Reading the magic lamp's grid in [float] and [double]: error of the shown point. *)

From Coq Require Import ZArith Reals Bool List Lia Lra.
From Flocq Require Import Core IEEE754.BinarySingleNaN.
From Verif Require Import Num Geometry Outcome Steppers Transforms MagicLamp SpecAnim SpecPixel SpecDouble SpecFinal LemReal LemDouble LemFloat LemLinear32 LemProcess LemFinal LemZoom32 LemLamp.
Import ListNotations.
Local Open Scope R_scope.

(** ** Rounding *)

Lemma rnd_half j x : (-100 <= j)%Z -> Rabs x < bpow radix2 j -> Rabs (rnd32 x - x) <= bpow radix2 (j - 25).
Proof.
  intros Hj L. eapply Rle_trans; [apply error_le_half_ulp; apply fexp_correct; reflexivity|].
  assert (U : ulp radix2 (SpecFloat.fexp 24 128) x <= bpow radix2 (j - 24)).
  { destruct (Req_dec x 0) as [->|Nz].
    - apply Rle_trans with (bpow radix2 (-149)); [|apply bpow_le; lia].
      rewrite <- (ulp_FLT_0 radix2 (-149) 24). apply Rle_refl.
    - rewrite ulp_neq_0 by auto. apply bpow_le. unfold cexp, SpecFloat.fexp, SpecFloat.emin.
      pose proof (mag_le_bpow radix2 x j Nz L). lia. }
  replace (j - 24)%Z with (j - 25 + 1)%Z in U by lia. rewrite bpow_plus in U. cbn in U. lra.
Qed.

Lemma is_div_r (x y : f32) a b : is x a -> is y b -> b <> 0 -> LemZoom32.fits (a / b) -> is (ndiv x y) (rnd32 (a / b)).
Proof.
  intros (Fx & <-) (Fy & <-) N L. pose proof (Bdiv_correct 24 128 _ _ mode_NE x y N) as C.
  rewrite Rlt_bool_true in C by exact L. destruct C as (C1 & C2 & _). split; [rewrite <- Fx; exact C2|exact C1].
Qed.

Lemma small_int32 z : (0 <= z <= 2 ^ 16)%Z -> is (nof z : f32) (IZR z).
Proof.
  intros Hz. destruct (of_u32 z) as (_ & F & E); [lia|]. split; [exact F|]. rewrite E. apply round_generic; [apply valid_rnd_round_mode|].
  apply generic_format_FLT with (emin := (-149)%Z) (prec := 24%Z).
  exists (Float radix2 z 0); [unfold F2R; symmetry; apply Rmult_1_r|cbn [Fnum]; change (Zpower radix2 24) with (2 ^ 24)%Z; lia|cbn; lia].
Qed.

(** ** The cell and the place in it *)

Lemma cell_number (u : f64) n : (1 <= n <= 2 ^ 16)%Z -> is_finite u = true -> 0 <= B2R u <= 1 ->
  exists i, to_size (nmul u (nof n)) = Ok i /\ (0 <= i <= n)%Z /\ IZR i - bpow radix2 (-38) <= B2R u * IZR n <= IZR i + 1.
Proof.
  intros Hn Fu U. destruct (of_ok n) as (Fn & Rn); [lia|].
  assert (N : 1 <= IZR n <= 65536) by (split; apply IZR_le; lia).
  assert (Pr : 0 <= B2R u * IZR n <= IZR n) by (split; [apply Rmult_le_pos; lra|rewrite <- (Rmult_1_l (IZR n)) at 2; apply Rmult_le_compat_r; lra]).
  assert (P : Rabs (B2R u * IZR n) <= bpow radix2 16) by (rewrite Rabs_pos_eq by lra; cbn; lra).
  destruct (mul_ok 16 ltac:(lia) u (nof n) Fu Fn) as (G & E); [rewrite Rn; exact P|]. rewrite Rn in E.
  pose proof (rd_err 16 _ ltac:(lia) P) as Er. change (16 - 54)%Z with (-38)%Z in Er. apply Rabs_le_inv in Er.
  assert (Gi : forall z, (0 <= z <= 2 ^ 16 + 1)%Z -> rd (IZR z) = IZR z).
  { intros z Hz. apply rd_gen. replace (IZR z) with (IZR z * bpow radix2 0) by (cbn; lra). apply gen_scaled; lia. }
  assert (Lo : 0 <= rd (B2R u * IZR n)) by (rewrite <- (Gi 0%Z) by lia; apply rd_mono; cbn; lra).
  assert (Hi : rd (B2R u * IZR n) <= IZR n) by (rewrite <- (Gi n) at 2 by lia; apply rd_mono; lra).
  assert (T : ntrunc (nmul u (nof n)) = Some (Btrunc (nmul u (nof n) : f64))).
  { cbn [ntrunc Num_f64 Num_IEEE]. unfold ieee_trunc. destruct (nmul u (nof n)); try discriminate G; reflexivity. }
  assert (C : Btrunc (nmul u (nof n) : f64) = Zfloor (rd (B2R u * IZR n))).
  { pose proof (Btrunc_correct 53 1024 Hemax64 (nmul u (nof n))) as C. unfold round in C. cbn in C.
    unfold F2R, scaled_mantissa, cexp, FIX_exp in C. cbn in C. rewrite !Rmult_1_r in C. apply eq_IZR in C.
    rewrite <- Ztrunc_floor by exact Lo. rewrite <- E. exact C. }
  exists (Zfloor (rd (B2R u * IZR n))). unfold to_size. rewrite T, C.
  assert (K0 : (0 <= Zfloor (rd (B2R u * IZR n)))%Z) by (apply Zfloor_lub; exact Lo).
  assert (Kn : (Zfloor (rd (B2R u * IZR n)) <= n)%Z) by (apply le_IZR; eapply Rle_trans; [apply Zfloor_lb|exact Hi]).
  rewrite (proj2 (Z.leb_le _ _)) by lia. rewrite (proj2 (Z.ltb_lt _ _)) by lia. split; [reflexivity|]. split; [lia|].
  pose proof (Zfloor_lb (rd (B2R u * IZR n))) as F1. pose proof (Zfloor_ub (rd (B2R u * IZR n))) as F2. split; [lra|].
  apply Rnot_lt_le. intros K. apply (Rlt_not_le _ _ F2). rewrite <- plus_IZR. rewrite <- (Gi (Zfloor (rd (B2R u * IZR n)) + 1)%Z) at 1 by lia.
  apply rd_mono. rewrite plus_IZR. lra.
Qed.

(** Real numbers. *)
Lemma place_real N U l c m d : 1 <= N <= 65536 -> 0 <= U <= 1 -> 0 <= l <= N ->
  Rabs (c - 1 / N) <= bpow radix2 (-24) * Rabs (1 / N) + bpow radix2 (-150) ->
  Rabs (m - c * l) <= bpow radix2 (-24) * Rabs (c * l) + bpow radix2 (-150) ->
  Rabs (d - (U - m)) <= bpow radix2 (-53) ->
  0 < c /\ Rabs (d / c - (U * N - l)) <= N * (7 / 8 * bpow radix2 (-21)).
Proof.
  intros Hn Hu Hl Ec Em Ed.
  assert (Z : bpow radix2 (-150) <= bpow radix2 (-60)) by (apply bpow_le; lia).
  assert (V60 : bpow radix2 (-60) = / 1152921504606846976) by reflexivity.
  assert (V53 : bpow radix2 (-53) = / 9007199254740992) by reflexivity.
  assert (V24 : bpow radix2 (-24) = / 16777216) by reflexivity.
  assert (V21 : bpow radix2 (-21) = / 2097152) by reflexivity.
  rewrite V24 in Ec, Em. pose proof (bpow_gt_0 radix2 (-150)) as Z0. set (z := bpow radix2 (-150)) in *.
  assert (I0 : 0 < / N) by (apply Rinv_0_lt_compat; lra). assert (In : N * / N = 1) by (apply Rinv_r; lra).
  assert (I1 : / 65536 <= / N) by (apply Rinv_le_contravar; lra).
  assert (I2 : / N <= 1) by (rewrite <- Rinv_1; apply Rinv_le_contravar; lra).
  unfold Rdiv in Ec. rewrite Rmult_1_l in Ec. rewrite (Rabs_pos_eq (/ N)) in Ec by lra. apply Rabs_le_inv in Ec.
  (* c is the inverse of N, up to 2^-23 *)
  assert (zN : z <= / 1099511627776 * / N).
  { apply Rle_trans with (/ 1099511627776 * / 65536); [lra|apply Rmult_le_compat_l; lra]. }
  assert (Ec' : - (/ 8388608 * / N) <= c - / N <= / 8388608 * / N) by lra.
  assert (C0 : / 2 * / N <= c) by lra. assert (Cp : 0 < c) by lra.
  assert (Ic : 0 < / c) by (apply Rinv_0_lt_compat; exact Cp).
  assert (Ic2 : / c <= 2 * N).
  { replace (2 * N) with (/ (/ 2 * / N)) by (field; lra). apply Rinv_le_contravar; lra. }
  assert (cI : c * / c = 1) by (apply Rinv_r; lra).
  assert (cN : - / 8388608 <= 1 - c * N <= / 8388608).
  { replace (1 - c * N) with (- (c - / N) * N) by (rewrite <- In; ring).
    replace (/ 8388608) with (/ 8388608 * / N * N) by (field; lra). split.
    - rewrite <- Ropp_mult_distr_l. apply Ropp_le_contravar. apply Rmult_le_compat_r; lra.
    - apply Rmult_le_compat_r; lra. }
  split; [exact Cp|].
  replace (d / c - (U * N - l)) with ((d - (U - m)) * / c + U * ((1 - c * N) * / c) - (m - c * l) * / c) by (field; lra).
  (* the three parts *)
  assert (T1 : Rabs ((d - (U - m)) * / c) <= N * (2 * bpow radix2 (-53))).
  { rewrite Rabs_mult, (Rabs_pos_eq (/ c)) by lra. replace (N * (2 * bpow radix2 (-53))) with (bpow radix2 (-53) * (2 * N)) by ring.
    apply Rmult_le_compat; try apply Rabs_pos; lra. }
  assert (T2 : Rabs (U * ((1 - c * N) * / c)) <= N * / 4194304).
  { rewrite !Rabs_mult, (Rabs_pos_eq (/ c)) by lra. rewrite (Rabs_pos_eq U) by lra.
    replace (N * / 4194304) with (1 * (/ 8388608 * (2 * N))) by field.
    apply Rmult_le_compat; [lra|apply Rmult_le_pos; [apply Rabs_pos|lra]|lra|]. apply Rmult_le_compat; [apply Rabs_pos|lra|apply Rabs_le; lra|lra]. }
  assert (T3 : Rabs ((m - c * l) * / c) <= N * (/ 16777216 + 2 * z)).
  { rewrite Rabs_mult, (Rabs_pos_eq (/ c)) by lra. rewrite (Rabs_pos_eq (c * l)) in Em by (apply Rmult_le_pos; lra).
    apply Rle_trans with ((/ 16777216 * (c * l) + z) * / c); [apply Rmult_le_compat_r; lra|].
    replace ((/ 16777216 * (c * l) + z) * / c) with (/ 16777216 * l + z * / c) by (field; lra).
    replace (N * (/ 16777216 + 2 * z)) with (/ 16777216 * N + z * (2 * N)) by ring.
    apply Rplus_le_compat; apply Rmult_le_compat_l; lra. }
  apply Rabs_le_inv in T1, T2, T3.
  assert (S : N * (2 * bpow radix2 (-53)) + N * / 4194304 + N * (/ 16777216 + 2 * z) <= N * (7 / 8 * bpow radix2 (-21))).
  { rewrite <- !Rmult_plus_distr_l. apply Rmult_le_compat_l; lra. }
  apply Rabs_le. lra.
Qed.

(** The place in the cell as the code computes it. *)
Definition place (u : f64) (n i : Z) : f32 :=
  narrow (ndiv (nsub u (widen (nmul (ndiv (nof 1) (nof n)) (nof i) : f32))) (widen (ndiv (nof 1) (nof n) : f32))).

Lemma place_near (u : f64) n i : (1 <= n <= 2 ^ 16)%Z -> is_finite u = true -> 0 <= B2R u <= 1 -> (0 <= i <= n)%Z ->
  IZR i - bpow radix2 (-38) <= B2R u * IZR n <= IZR i + 1 ->
  exists x, is (place u n i) x /\ Rabs (x - (B2R u * IZR n - IZR i)) <= (IZR n + 1) * bpow radix2 (-21).
Proof.
  intros Hn Fu U Hi S. assert (N : 1 <= IZR n <= 65536) by (split; apply IZR_le; lia). assert (I : 0 <= IZR i <= IZR n) by (split; apply IZR_le; lia).
  assert (Q1 : Rabs (1 / IZR n) <= 1).
  { unfold Rdiv. rewrite Rmult_1_l, Rabs_pos_eq by (apply Rlt_le, Rinv_0_lt_compat; lra). rewrite <- Rinv_1. apply Rinv_le_contravar; lra. }
  assert (B120 : 65536 * 4 <= bpow radix2 120) by (apply Rle_trans with (bpow radix2 18); [cbn; lra|apply bpow_le; lia]).
  assert (Cw : is (ndiv (nof 1) (nof n) : f32) (rnd32 (1 / IZR n))).
  { apply is_div_r; [apply LemFinal.one32|apply small_int32; lia|lra|apply fits_small; lra]. }
  pose proof (rnd_rel (1 / IZR n)) as Ec. set (c := rnd32 (1 / IZR n)) in *.
  assert (C2 : Rabs c <= 2).
  { pose proof (bpow_le radix2 (-150) (-1) ltac:(lia)) as Z. change (bpow radix2 (-1)) with (/ 2) in Z. change (bpow radix2 (-24)) with (/ 16777216) in Ec.
    eapply Rle_trans; [apply (near_size c (1 / IZR n) (/ 16777216 * 1 + / 2) 1); [|exact Q1]|lra].
    eapply Rle_trans; [exact Ec|]. apply Rplus_le_compat; [apply Rmult_le_compat_l; lra|exact Z]. }
  assert (Cm : is (nmul (ndiv (nof 1) (nof n)) (nof i) : f32) (rnd32 (c * IZR i))).
  { apply is_mul_r; [exact Cw|apply small_int32; lia|]. apply fits_small. rewrite Rabs_mult, (Rabs_pos_eq (IZR i)) by lra.
    apply Rle_trans with (2 * 65536); [apply Rmult_le_compat; try apply Rabs_pos; lra|lra]. }
  pose proof (rnd_rel (c * IZR i)) as Em. set (m := rnd32 (c * IZR i)) in *.
  (* sizes, with the difference still exact *)
  destruct (place_real (IZR n) (B2R u) (IZR i) c m (B2R u - m) N U I Ec Em) as (Cp & D1).
  { replace (B2R u - m - (B2R u - m)) with 0 by ring. rewrite Rabs_R0. apply bpow_ge_0. }
  assert (NS : IZR n * (7 / 8 * bpow radix2 (-21)) <= / 32 * (7 / 8)).
  { change (bpow radix2 (-21)) with (/ 2097152). apply Rle_trans with (65536 * (7 / 8 * / 2097152)); [apply Rmult_le_compat_r; lra|lra]. }
  assert (P38 : bpow radix2 (-38) <= / 1024) by (apply Rle_trans with (bpow radix2 (-10)); [apply bpow_le; lia|right; reflexivity]).
  assert (Um : Rabs (B2R u - m) <= bpow radix2 2).
  { apply Rabs_le_inv in D1. assert (Dc : Rabs ((B2R u - m) / c) <= 2) by (apply Rabs_le; lra).
    replace (B2R u - m) with ((B2R u - m) / c * c) by (field; lra). rewrite Rabs_mult. change (bpow radix2 2) with 4.
    replace 4 with (2 * 2) by ring. apply Rmult_le_compat; try apply Rabs_pos; lra. }
  pose proof (widen_is _ _ Cm) as (Fm & Rm). pose proof (widen_is _ _ Cw) as (Fc & Rc).
  destruct (sub_ok 2 ltac:(lia) u _ Fu Fm) as (Fd & Rd); [rewrite Rm; exact Um|]. rewrite Rm in Rd.
  assert (Ed : Rabs (rd (B2R u - m) - (B2R u - m)) <= bpow radix2 (-52)) by (apply (rd_err 2); [lia|exact Um]).
  destruct (place_real (IZR n) (B2R u) (IZR i) c m (rd (B2R u - m)) N U I Ec Em) as (_ & D2).
  { (* the difference is below 2, so one bit better *)
    assert (U2 : Rabs (B2R u - m) <= bpow radix2 1).
    { assert (M2 : Rabs (m - B2R u) <= 2); [|rewrite Rabs_minus_sym; exact M2].
      assert (Cn : c <= 2 * / IZR n).
      { change (bpow radix2 (-24)) with (/ 16777216) in Ec. unfold Rdiv in Ec. rewrite Rmult_1_l in Ec.
        assert (In : / 65536 <= / IZR n) by (apply Rinv_le_contravar; lra).
        rewrite (Rabs_pos_eq (/ IZR n)) in Ec by lra. apply Rabs_le_inv in Ec.
        assert (Z : bpow radix2 (-150) <= / 131072) by (apply Rle_trans with (bpow radix2 (-17)); [apply bpow_le; lia|right; reflexivity]). lra. }
      apply Rabs_le_inv in D1. assert (Dc : Rabs ((B2R u - m) / c) <= 65536 / 32768 ) by (apply Rabs_le; lra).
      rewrite Rabs_minus_sym. replace (B2R u - m) with ((B2R u - m) / c * c) by (field; lra). rewrite Rabs_mult, (Rabs_pos_eq c) by lra.
      assert (c <= 1 + / 16777216 + / 16777216).
      { change (bpow radix2 (-24)) with (/ 16777216) in Ec. assert (Z : bpow radix2 (-150) <= / 16777216) by (apply (bpow_le radix2 (-150) (-24)); lia).
        apply Rabs_le_inv in Ec. apply Rabs_le_inv in Q1. assert (Rabs (1 / IZR n) <= 1) by (apply Rabs_le; lra). lra. }
      assert (Rabs ((B2R u - m) / c) <= 5 / 4) by (apply Rabs_le; lra).
      apply Rle_trans with (5 / 4 * (1 + / 16777216 + / 16777216)); [apply Rmult_le_compat; try apply Rabs_pos; lra|lra]. }
    exact (rd_err 1 _ ltac:(lia) U2). }
  set (d := rd (B2R u - m)) in *.
  assert (Dc : Rabs (d / c) < bpow radix2 1) by (change (bpow radix2 1) with 2; apply Rabs_le_inv in D2; apply Rabs_def1; lra).
  destruct (div_ok 1 ltac:(lia) (nsub u (widen (nmul (ndiv (nof 1) (nof n)) (nof i) : f32))) (widen (ndiv (nof 1) (nof n) : f32)) Fd) as (Fq & Rq).
  { rewrite Rc. lra. } { rewrite Rd, Rc. lra. }
  rewrite Rd, Rc in Rq. pose proof (rd_err 1 _ ltac:(lia) (Rlt_le _ _ Dc)) as Eq. pose proof (rd_bound 1 _ ltac:(lia) (Rlt_le _ _ Dc)) as Bq.
  set (q := rd (d / c)) in *.
  exists (rnd32 q). split.
  - unfold place. rewrite <- Rq. apply narrow_is. split; [exact Fq|]. rewrite Rq. eapply Rle_trans; [exact Bq|apply bpow_le; lia].
  - assert (Ex : Rabs (rnd32 q - q) <= bpow radix2 (2 - 25)) by (apply rnd_half; [lia|change (bpow radix2 1) with 2 in Bq; change (bpow radix2 2) with 4; lra]).
    change (2 - 25)%Z with (-23)%Z in Ex. change (1 - 54)%Z with (-53)%Z in Eq.
    change (bpow radix2 (-23)) with (/ 8388608) in Ex. change (bpow radix2 (-53)) with (/ 9007199254740992) in Eq.
    change (bpow radix2 (-21)) with (/ 2097152) in D2 |- *. apply Rabs_le_inv in Ex, Eq, D2. apply Rabs_le. lra.
Qed.

(** ** Mixing two numbers *)

(** Real numbers: every step is off by one rounding. *)
Lemma lerp_real M A B X s e D r1 p1 p2 S v : 0 < M -> Rabs A <= M -> Rabs B <= M -> Rabs (A - B) <= D ->
  Rabs (X - s) <= e -> e <= / 16 -> - / 8 <= s <= 9 / 8 ->
  Rabs (r1 - (1 - X)) <= / 16777216 -> Rabs (p1 - A * r1) <= M * / 9007199254740992 -> Rabs (p2 - B * X) <= M * / 9007199254740992 ->
  Rabs (S - (p1 + p2)) <= M * / 4503599627370496 -> Rabs (v - S) <= M * / 8388608 ->
  Rabs (v - (A * (1 - s) + B * s)) <= M * / 4194304 + D * e.
Proof.
  intros M0 HA HB HD Hx He Hs E1 E2 E3 E4 E5.
  replace (v - (A * (1 - s) + B * s)) with ((v - S) + (S - (p1 + p2)) + (p1 - A * r1) + (p2 - B * X) + A * (r1 - (1 - X)) + (B - A) * (X - s)) by ring.
  assert (T1 : Rabs (A * (r1 - (1 - X))) <= M * / 16777216) by (rewrite Rabs_mult; apply Rmult_le_compat; try apply Rabs_pos; assumption).
  assert (T2 : Rabs ((B - A) * (X - s)) <= D * e) by (rewrite Rabs_mult, (Rabs_minus_sym B A); apply Rmult_le_compat; try apply Rabs_pos; assumption).
  apply Rabs_le_inv in E2, E3, E4, E5, T1, T2. apply Rabs_le. lra.
Qed.

Lemma lerp_near k (a b : f64) (t : f32) X s e D : (0 <= k <= 100)%Z -> within k a -> within k b -> is t X ->
  Rabs (X - s) <= e -> e <= / 16 -> - / 8 <= s <= 9 / 8 -> Rabs (B2R a - B2R b) <= D ->
  exists v, is (lerp2 a b t : f32) v /\ Rabs (v - (B2R a * (1 - s) + B2R b * s)) <= bpow radix2 k * / 4194304 + D * e.
Proof.
  intros Hk (Fa & Ba) (Fb & Bb) It Hx He Hs HD. set (M := bpow radix2 k) in *. assert (M0 : 0 < M) by apply bpow_gt_0.
  assert (Pk : forall c, bpow radix2 (k + c) = M * bpow radix2 c) by (intros; apply bpow_plus).
  assert (BX : Rabs X <= 5 / 4 /\ Rabs (1 - X) <= 5 / 4) by (apply Rabs_le_inv in Hx; split; apply Rabs_le; lra). destruct BX as (BX & BX1).
  assert (R1 : is (nsub (nof 1) t) (rnd32 (1 - X))).
  { apply sub32; [apply LemFinal.one32|exact It|]. apply Rle_trans with (bpow radix2 1); [cbn; lra|apply bpow_le; lia]. }
  assert (E1 : Rabs (rnd32 (1 - X) - (1 - X)) <= bpow radix2 (1 - 25)) by (apply rnd_half; [lia|cbn; lra]).
  change (bpow radix2 (1 - 25)) with (/ 16777216) in E1. set (r1 := rnd32 (1 - X)) in *.
  assert (Br : Rabs r1 <= 3 / 2) by (eapply Rle_trans; [apply (near_size _ _ _ _ E1 BX1)|lra]).
  pose proof (widen_is _ _ R1) as (F1 & V1). pose proof (widen_is _ _ It) as (F2 & V2).
  assert (P1 : Rabs (B2R a * r1) <= M * (3 / 2)) by (rewrite Rabs_mult; apply Rmult_le_compat; try apply Rabs_pos; assumption).
  assert (P2 : Rabs (B2R b * X) <= M * (5 / 4)) by (rewrite Rabs_mult; apply Rmult_le_compat; try apply Rabs_pos; assumption).
  assert (K1 : bpow radix2 (k + 1) = M * 2) by (rewrite Pk; reflexivity). assert (K2 : bpow radix2 (k + 2) = M * 4) by (rewrite Pk; reflexivity).
  destruct (mul_ok (k + 1) ltac:(lia) a (widen (nsub (nof 1) t)) Fa F1) as (G1 & W1); [rewrite V1, K1; lra|]. rewrite V1 in W1.
  destruct (mul_ok (k + 1) ltac:(lia) b (widen t) Fb F2) as (G2 & W2); [rewrite V2, K1; lra|]. rewrite V2 in W2.
  assert (E2 : Rabs (rd (B2R a * r1) - B2R a * r1) <= M * / 9007199254740992).
  { replace (M * / 9007199254740992) with (bpow radix2 (k + 1 - 54)); [apply rd_err; [lia|rewrite K1; lra]|]. replace (k + 1 - 54)%Z with (k + -53)%Z by lia. rewrite Pk. reflexivity. }
  assert (E3 : Rabs (rd (B2R b * X) - B2R b * X) <= M * / 9007199254740992).
  { replace (M * / 9007199254740992) with (bpow radix2 (k + 1 - 54)); [apply rd_err; [lia|rewrite K1; lra]|]. replace (k + 1 - 54)%Z with (k + -53)%Z by lia. rewrite Pk. reflexivity. }
  set (p1 := rd (B2R a * r1)) in *. set (p2 := rd (B2R b * X)) in *.
  pose proof (near_size _ _ _ _ E2 P1) as Q1. pose proof (near_size _ _ _ _ E3 P2) as Q2.
  assert (Q : Rabs (p1 + p2) <= M * 3) by (eapply Rle_trans; [apply Rabs_triang|lra]).
  destruct (add_ok (k + 2) ltac:(lia) (nmul a (widen (nsub (nof 1) t))) (nmul b (widen t)) G1 G2) as (G3 & W3); [rewrite W1, W2, K2; lra|]. rewrite W1, W2 in W3.
  assert (E4 : Rabs (rd (p1 + p2) - (p1 + p2)) <= M * / 4503599627370496).
  { replace (M * / 4503599627370496) with (bpow radix2 (k + 2 - 54)); [apply rd_err; [lia|rewrite K2; lra]|]. replace (k + 2 - 54)%Z with (k + -52)%Z by lia. rewrite Pk. reflexivity. }
  set (S := rd (p1 + p2)) in *. pose proof (near_size _ _ _ _ E4 Q) as Q3.
  exists (rnd32 S). split.
  - unfold lerp2. rewrite <- W3. apply narrow_is. split; [exact G3|]. rewrite W3. apply Rle_trans with (bpow radix2 (k + 2)); [rewrite K2; lra|apply bpow_le; lia].
  - assert (E5 : Rabs (rnd32 S - S) <= M * / 8388608).
    { replace (M * / 8388608) with (bpow radix2 (k + 2 - 25)); [apply rnd_half; [lia|rewrite K2; lra]|]. replace (k + 2 - 25)%Z with (k + -23)%Z by lia. rewrite Pk. reflexivity. }
    exact (lerp_real M _ _ X s e D r1 p1 p2 S _ M0 Ba Bb HD Hx He Hs E1 E2 E3 E4 E5).
Qed.

Lemma mix_near k (xl xr t : f32) vl vr XL XR X s a e D : (0 <= k <= 100)%Z -> is xl vl -> is xr vr -> is t X ->
  Rabs (vl - XL) <= a -> Rabs (vr - XR) <= a -> a <= bpow radix2 k * / 4 ->
  Rabs XL <= bpow radix2 k * (5 / 4) -> Rabs XR <= bpow radix2 k * (5 / 4) -> Rabs (XR - XL) <= D * (5 / 4) ->
  Rabs (X - s) <= e -> e <= / 16 -> - / 8 <= s <= 9 / 8 ->
  exists v, is (nadd xl (nmul (nsub xr xl) t)) v /\
    Rabs (v - (XL * (1 - s) + XR * s)) <= bpow radix2 k * (3 * / 4194304) + 3 / 2 * a + 5 / 4 * (D * e).
Proof.
  intros Hk Il Ir It El Er Ha BL BR BD Hx He Hs. set (M := bpow radix2 k) in *. assert (M0 : 0 < M) by apply bpow_gt_0.
  assert (Pk : forall c, bpow radix2 (k + c) = M * bpow radix2 c) by (intros; apply bpow_plus).
  assert (BX : Rabs X <= 5 / 4 /\ Rabs (1 - X) + Rabs X <= 3 / 2).
  { apply Rabs_le_inv in Hx. split; [apply Rabs_le; lra|]. unfold Rabs. destruct (Rcase_abs (1 - X)), (Rcase_abs X); lra. } destruct BX as (BX & BX1).
  assert (K2 : bpow radix2 (k + 2) = M * 4) by (rewrite Pk; reflexivity). assert (K3 : bpow radix2 (k + 3) = M * 8) by (rewrite Pk; reflexivity).
  pose proof (near_size _ _ _ _ El BL) as Bl. pose proof (near_size _ _ _ _ Er BR) as Br.
  assert (B1 : Rabs (vr - vl) <= M * 3) by (apply Rabs_le_inv in Bl, Br; apply Rabs_le; lra).
  assert (B120 : M * 8 <= bpow radix2 120) by (rewrite <- K3; apply bpow_le; lia).
  assert (G : is (nsub xr xl) (rnd32 (vr - vl))).
  { apply sub32; auto. apply Rle_trans with (bpow radix2 120); [lra|apply bpow_le; lia]. }
  assert (E1 : Rabs (rnd32 (vr - vl) - (vr - vl)) <= M * / 8388608).
  { replace (M * / 8388608) with (bpow radix2 (k + 2 - 25)); [apply rnd_half; [lia|rewrite K2; lra]|]. replace (k + 2 - 25)%Z with (k + -23)%Z by lia. rewrite Pk. reflexivity. }
  set (g := rnd32 (vr - vl)) in *. pose proof (near_size _ _ _ _ E1 B1) as Bg.
  assert (BgX : Rabs (g * X) <= M * 5).
  { rewrite Rabs_mult. replace (M * 5) with (M * 4 * (5 / 4)) by field. apply Rmult_le_compat; try apply Rabs_pos; lra. }
  assert (Hm : is (nmul (nsub xr xl) t) (rnd32 (g * X))) by (apply is_mul_r; auto; apply fits_small; lra).
  assert (E2 : Rabs (rnd32 (g * X) - g * X) <= M * / 4194304).
  { replace (M * / 4194304) with (bpow radix2 (k + 3 - 25)); [apply rnd_half; [lia|rewrite K3; lra]|]. replace (k + 3 - 25)%Z with (k + -22)%Z by lia. rewrite Pk. reflexivity. }
  set (h := rnd32 (g * X)) in *. pose proof (near_size _ _ _ _ E2 BgX) as Bh.
  assert (Bs : Rabs (vl + h) <= M * 7) by (eapply Rle_trans; [apply Rabs_triang|lra]).
  exists (rnd32 (vl + h)). split.
  - apply add32; auto. apply Rle_trans with (bpow radix2 120); [lra|apply bpow_le; lia].
  - assert (E3 : Rabs (rnd32 (vl + h) - (vl + h)) <= M * / 4194304).
    { replace (M * / 4194304) with (bpow radix2 (k + 3 - 25)); [apply rnd_half; [lia|rewrite K3; lra]|]. replace (k + 3 - 25)%Z with (k + -22)%Z by lia. rewrite Pk. reflexivity. }
    replace (rnd32 (vl + h) - (XL * (1 - s) + XR * s)) with
      ((rnd32 (vl + h) - (vl + h)) + (h - g * X) + (g - (vr - vl)) * X + ((vl - XL) * (1 - X) + (vr - XR) * X) + (XR - XL) * (X - s)) by ring.
    assert (T1 : Rabs ((g - (vr - vl)) * X) <= M * / 8388608 * (5 / 4)) by (rewrite Rabs_mult; apply Rmult_le_compat; try apply Rabs_pos; lra).
    assert (A0 : 0 <= a) by (eapply Rle_trans; [apply Rabs_pos|exact El]).
    assert (T2 : Rabs ((vl - XL) * (1 - X) + (vr - XR) * X) <= 3 / 2 * a).
    { eapply Rle_trans; [apply Rabs_triang|]. rewrite !Rabs_mult. apply Rle_trans with (a * Rabs (1 - X) + a * Rabs X).
      - apply Rplus_le_compat; apply Rmult_le_compat_r; try apply Rabs_pos; assumption.
      - rewrite <- Rmult_plus_distr_l, Rmult_comm. apply Rmult_le_compat_r; assumption. }
    assert (T3 : Rabs ((XR - XL) * (X - s)) <= D * (5 / 4) * e) by (rewrite Rabs_mult; apply Rmult_le_compat; try apply Rabs_pos; assumption).
    apply Rabs_le_inv in E2, E3, T1, T2, T3. apply Rabs_le. lra.
Qed.

(** A mixture of two numbers is about as large as they are. *)
Lemma mix_size A B s c : Rabs A <= c -> Rabs B <= c -> - / 8 <= s <= 9 / 8 -> Rabs (A * (1 - s) + B * s) <= c * (5 / 4).
Proof.
  intros HA HB Hs. eapply Rle_trans; [apply Rabs_triang|]. rewrite !Rabs_mult.
  assert (W : Rabs (1 - s) + Rabs s <= 5 / 4) by (unfold Rabs; destruct (Rcase_abs (1 - s)), (Rcase_abs s); lra).
  assert (c0 : 0 <= c) by (eapply Rle_trans; [apply Rabs_pos|exact HA]).
  apply Rle_trans with (c * Rabs (1 - s) + c * Rabs s).
  - apply Rplus_le_compat; apply Rmult_le_compat_r; try apply Rabs_pos; assumption.
  - rewrite <- Rmult_plus_distr_l. apply Rmult_le_compat_l; assumption.
Qed.

(** One axis of the shown point. *)
Lemma axis_near k (a b a' b' : f64) (t t' : f32) X X' s s' e e' D D' : (0 <= k <= 100)%Z ->
  within k a -> within k b -> within k a' -> within k b' -> is t X -> is t' X' ->
  Rabs (X - s) <= e -> Rabs (X' - s') <= e' -> 0 <= e <= / 16 -> 0 <= e' <= / 16 -> - / 8 <= s <= 9 / 8 -> - / 8 <= s' <= 9 / 8 ->
  Rabs (B2R a - B2R b) <= D -> Rabs (B2R a' - B2R b') <= D -> D <= 2 * bpow radix2 k ->
  Rabs (B2R a' - B2R a) <= D' -> Rabs (B2R b' - B2R b) <= D' -> D' <= 2 * bpow radix2 k ->
  exists v, is (nadd (lerp2 a b t : f32) (nmul (nsub (lerp2 a' b' t) (lerp2 a b t)) t')) v /\
    Rabs (v - ((B2R a * (1 - s) + B2R b * s) * (1 - s') + (B2R a' * (1 - s) + B2R b' * s) * s')) <= bpow radix2 k * / 524288 + 2 * (D * e + D' * e').
Proof.
  intros Hk Wa Wb Wa' Wb' It It' Hx Hx' He He' Hs Hs' D1 D2 DM D3 D4 DM'.
  destruct (lerp_near k a b t X s e D Hk Wa Wb It Hx (proj2 He) Hs D1) as (vl & Il & El).
  destruct (lerp_near k a' b' t X s e D Hk Wa' Wb' It Hx (proj2 He) Hs D2) as (vr & Ir & Er).
  assert (M0 : 0 < bpow radix2 k) by apply bpow_gt_0. assert (D0 : 0 <= D) by (eapply Rle_trans; [apply Rabs_pos|exact D1]).
  assert (D0' : 0 <= D') by (eapply Rle_trans; [apply Rabs_pos|exact D3]).
  assert (De0 : 0 <= D * e) by (apply Rmult_le_pos; lra). assert (De0' : 0 <= D' * e') by (apply Rmult_le_pos; lra).
  assert (De : D * e <= bpow radix2 k * 2 * / 16) by (apply Rmult_le_compat; lra).
  destruct (mix_near k _ _ t' vl vr _ _ X' s' (bpow radix2 k * / 4194304 + D * e) e' D' Hk Il Ir It' El Er) as (v & Iv & Ev); auto; try lra.
  - apply mix_size; [exact (proj2 Wa)|exact (proj2 Wb)|exact Hs].
  - apply mix_size; [exact (proj2 Wa')|exact (proj2 Wb')|exact Hs].
  - replace (B2R a' * (1 - s) + B2R b' * s - (B2R a * (1 - s) + B2R b * s)) with ((B2R a' - B2R a) * (1 - s) + (B2R b' - B2R b) * s) by ring.
    apply mix_size; assumption.
  - exists v. split; [exact Iv|]. eapply Rle_trans; [exact Ev|]. lra.
Qed.

(** ** A mean with a weight that may fall short of 0 by [d] *)

Lemma mean_hull lo hi x y s d W :
  0 <= d -> - d <= s <= 1 -> lo <= x <= hi -> lo <= y <= hi -> Rabs (x - y) <= W ->
  lo - d * W <= (1 - s) * x + s * y <= hi + d * W.
Proof.
  intros D S X Y Wd. apply Rabs_le_inv in Wd. destruct (Rle_dec 0 s) as [P|P].
  - assert (0 <= W) by lra. assert (0 <= d * W) by (apply Rmult_le_pos; lra).
    assert (s * lo <= s * y <= s * hi) by (split; apply Rmult_le_compat_l; lra).
    assert ((1 - s) * lo <= (1 - s) * x <= (1 - s) * hi) by (split; apply Rmult_le_compat_l; lra). lra.
  - assert (0 <= W) by lra. replace ((1 - s) * x + s * y) with (x + - s * (x - y)) by ring.
    assert (- s * - W <= - s * (x - y) <= - s * W) by (split; apply Rmult_le_compat_l; lra).
    assert (- s * W <= d * W) by (apply Rmult_le_compat_r; lra). lra.
Qed.

Lemma bilinear_hull lo hi x1 x2 x3 x4 s t d M :
  0 <= d <= / 8 -> - d <= s <= 1 -> - d <= t <= 1 ->
  lo <= x1 <= hi -> lo <= x2 <= hi -> lo <= x3 <= hi -> lo <= x4 <= hi ->
  Rabs x1 <= M -> Rabs x2 <= M -> Rabs x3 <= M -> Rabs x4 <= M ->
  lo - 5 * (d * M) <= (1 - s) * (1 - t) * x1 + s * (1 - t) * x2 + (1 - s) * t * x3 + s * t * x4 <= hi + 5 * (d * M).
Proof.
  intros D S T X1 X2 X3 X4 M1 M2 M3 M4. apply Rabs_le_inv in M1, M2, M3, M4.
  assert (0 <= d * M <= / 8 * M) by (split; [apply Rmult_le_pos|apply Rmult_le_compat_r]; lra).
  assert (A1 : Rabs (x1 - x2) <= 2 * M) by (apply Rabs_le; lra). assert (A2 : Rabs (x3 - x4) <= 2 * M) by (apply Rabs_le; lra).
  pose proof (mean_hull lo hi x1 x2 s d (2 * M) (proj1 D) S X1 X2 A1) as P. pose proof (mean_hull lo hi x3 x4 s d (2 * M) (proj1 D) S X3 X4 A2) as Q.
  pose proof (mean_hull (- M) M x1 x2 s d (2 * M) (proj1 D) S M1 M2 A1) as P'. pose proof (mean_hull (- M) M x3 x4 s d (2 * M) (proj1 D) S M3 M4 A2) as Q'.
  assert (A3 : Rabs (((1 - s) * x1 + s * x2) - ((1 - s) * x3 + s * x4)) <= 3 * M) by (apply Rabs_le; lra).
  pose proof (mean_hull (lo - d * (2 * M)) (hi + d * (2 * M)) _ _ t d (3 * M) (proj1 D) T P Q A3) as F. lra.
Qed.
