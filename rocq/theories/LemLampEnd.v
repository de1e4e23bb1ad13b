(** The last frame of the magic lamp in [float] and [double]. *)

From Coq Require Import ZArith Reals Bool List Lia Lra.
From Flocq Require Import Core Plus_error IEEE754.BinarySingleNaN.
From Verif Require Import Num Geometry Outcome Steppers Transforms MagicLamp SpecAnim SpecPixel SpecDouble SpecFinal LemReal LemDouble LemFloat LemLinear32 LemProcess LemFinal LemZoom32 LemLamp LemGrid32.
Import ListNotations.
Local Open Scope R_scope.

Lemma min_is (x y : f32) a b : is x a -> is y b -> exists c, is (nmin2 x y) c /\ (a <= b -> c = a).
Proof.
  intros (Fx & Vx) (Fy & Vy). unfold nmin2.
  assert (C : nltb y x = Rlt_bool (B2R y) (B2R x)) by (apply Bltb_correct; assumption).
  rewrite C, Vx, Vy. case Rlt_bool_spec; intros K; eexists; (split; [split; eassumption|lra]).
Qed.

Lemma edge_real M TL W l d w m q t : 0 < M -> bpow radix2 (-150) <= M * / 1000000000 -> Rabs TL <= M -> Rabs (TL + W) <= M -> 0 <= l <= 1 ->
  Rabs (d - W) <= M * / 1000000000 -> Rabs (w - d) <= bpow radix2 (-24) * Rabs d + bpow radix2 (-150) ->
  Rabs (m - l * w) <= bpow radix2 (-24) * Rabs (l * w) + bpow radix2 (-150) ->
  Rabs (q - m) <= bpow radix2 (-24) * Rabs m + bpow radix2 (-150) ->
  Rabs q <= 3 * M /\ (Rabs (t - (TL + q)) <= M * / 1000000000 -> Rabs (t - (TL + l * W)) <= M * (7 / 16777216)).
Proof.
  intros M0 Z T1 T2 L Ed Ew Em Eq. change (bpow radix2 (-24)) with (/ 16777216) in *. set (z := bpow radix2 (-150)) in *.
  assert (Aw : Rabs W <= 2 * M) by (apply Rabs_le_inv in T1; apply Rabs_le_inv in T2; apply Rabs_le; lra).
  pose proof (near_size _ _ _ _ Ed Aw) as Ad.
  assert (Ew' : Rabs (w - d) <= M * (21 / 10 * / 16777216)) by lra.
  pose proof (near_size _ _ _ _ Ew' Ad) as Aw'.
  assert (Al : Rabs (l * w) <= M * (21 / 10)).
  { rewrite Rabs_mult, (Rabs_pos_eq l) by lra. apply Rle_trans with (1 * Rabs w); [apply Rmult_le_compat_r; [apply Rabs_pos|lra]|lra]. }
  assert (Em' : Rabs (m - l * w) <= M * (22 / 10 * / 16777216)) by lra.
  pose proof (near_size _ _ _ _ Em' Al) as Am. assert (Eq' : Rabs (q - m) <= M * (23 / 10 * / 16777216)) by lra.
  split; [pose proof (near_size _ _ _ _ Eq' Am); lra|]. intros Et.
  assert (Elw : Rabs (l * w - l * W) <= M * (22 / 10 * / 16777216)).
  { replace (l * w - l * W) with (l * ((w - d) + (d - W))) by ring. rewrite Rabs_mult, (Rabs_pos_eq l) by lra.
    apply Rle_trans with (1 * Rabs ((w - d) + (d - W))); [apply Rmult_le_compat_r; [apply Rabs_pos|lra]|].
    rewrite Rmult_1_l. eapply Rle_trans; [apply Rabs_triang|]. lra. }
  apply Rabs_le_inv in Et. apply Rabs_le_inv in Eq'. apply Rabs_le_inv in Em'. apply Rabs_le_inv in Elw. apply Rabs_le. lra.
Qed.

(** The place of a vertex in a box. *)
Lemma edge_near k (tl br : f64) (i n : Z) : (0 <= k <= 100)%Z -> within k tl -> within k br -> (1 <= n <= 2 ^ 16)%Z -> (0 <= i <= n)%Z ->
  exists v, is (nadd tl (widen (ndiv (nmul (nof i) (narrow (nsub br tl))) (nof n : f32)))) v /\
    Rabs (v - (B2R tl + IZR i / IZR n * (B2R br - B2R tl))) <= bpow radix2 k * (7 / 16777216).
Proof.
  intros Hk (Ft & Lt) (Fb & Lb) Hn Hi. pose proof (bpow_gt_0 radix2 k) as M0.
  assert (P2 : bpow radix2 (k + 2) = bpow radix2 k * 4) by (rewrite bpow_plus; reflexivity).
  assert (Big : 16 * 65536 * bpow radix2 k <= bpow radix2 120).
  { apply Rle_trans with (bpow radix2 (20 + k)); [rewrite bpow_plus; change (bpow radix2 20) with 1048576; lra|apply bpow_le; lia]. }
  assert (Up : bpow radix2 120 <= bpow radix2 126) by (apply bpow_le; lia).
  assert (Sm : bpow radix2 (k + 2 - 54) <= bpow radix2 k * / 1000000000).
  { replace (k + 2 - 54)%Z with (k + -52)%Z by lia. rewrite bpow_plus. apply Rmult_le_compat_l; [lra|]. change (bpow radix2 (-52)) with (/ 4503599627370496). lra. }
  assert (Z : bpow radix2 (-150) <= bpow radix2 k * / 1000000000) by (eapply Rle_trans; [|exact Sm]; apply bpow_le; lia).
  set (TL := B2R tl) in *. set (W := B2R br - TL) in *. assert (TW : TL + W = B2R br) by (unfold W; ring).
  assert (Aw : Rabs W <= 2 * bpow radix2 k) by (apply Rabs_le_inv in Lt; apply Rabs_le_inv in Lb; apply Rabs_le; unfold W; lra).
  destruct (sub_ok (k + 2) ltac:(lia) br tl Fb Ft) as (Fd & Vd); [fold TL W; lra|]. fold TL W in Vd.
  pose proof (rd_err (k + 2) W ltac:(lia) ltac:(lra)) as Ed. set (d := rd W) in *.
  assert (Ed' : Rabs (d - W) <= bpow radix2 k * / 1000000000) by lra. pose proof (near_size _ _ _ _ Ed' Aw) as Ad.
  assert (Iw : is (narrow (nsub br tl) : f32) (rnd32 d)).
  { rewrite <- Vd. apply narrow_is. split; [exact Fd|rewrite Vd; lra]. }
  pose proof (rnd_rel d) as Ew. set (w := rnd32 d) in *.
  assert (Z1 : bpow radix2 (-24) * Rabs d + bpow radix2 (-150) <= bpow radix2 k * / 10) by (change (bpow radix2 (-24)) with (/ 16777216); lra).
  pose proof (near_size _ _ _ _ (Rle_trans _ _ _ Ew Z1) Ad) as Aw'.
  assert (N : 1 <= IZR n <= 65536) by (split; apply IZR_le; lia). assert (I : 0 <= IZR i <= IZR n) by (split; apply IZR_le; lia).
  assert (In : 0 < / IZR n <= 1) by (split; [apply Rinv_0_lt_compat; lra|rewrite <- Rinv_1; apply Rinv_le; lra]).
  assert (L : 0 <= IZR i / IZR n <= 1).
  { split; [apply Rmult_le_pos; lra|]. apply Rle_trans with (IZR n * / IZR n); [apply Rmult_le_compat_r; lra|right; apply Rinv_r; lra]. }
  assert (Ai : Rabs (IZR i * w) <= 65536 * (3 * bpow radix2 k)).
  { rewrite Rabs_mult, (Rabs_pos_eq (IZR i)) by lra. apply Rmult_le_compat; try lra. apply Rabs_pos. }
  assert (Im : is (nmul (nof i) (narrow (nsub br tl)) : f32) (rnd32 (IZR i * w))).
  { apply is_mul_r; [apply small_int32; lia|exact Iw|apply fits_small; lra]. }
  pose proof (rnd_rel (IZR i * w)) as Em. set (m := rnd32 (IZR i * w)) in *.
  assert (Z2 : bpow radix2 (-24) * Rabs (IZR i * w) + bpow radix2 (-150) <= 65536 * bpow radix2 k) by (change (bpow radix2 (-24)) with (/ 16777216); lra).
  pose proof (near_size _ _ _ _ (Rle_trans _ _ _ Em Z2) Ai) as Am.
  assert (Em' : Rabs (m / IZR n - IZR i / IZR n * w) <= bpow radix2 (-24) * Rabs (IZR i / IZR n * w) + bpow radix2 (-150)).
  { replace (m / IZR n - IZR i / IZR n * w) with ((m - IZR i * w) * / IZR n) by (field; lra).
    replace (IZR i / IZR n * w) with (IZR i * w * / IZR n) by (field; lra). rewrite !Rabs_mult, (Rabs_pos_eq (/ IZR n)) by lra.
    apply Rle_trans with ((bpow radix2 (-24) * Rabs (IZR i * w) + bpow radix2 (-150)) * / IZR n); [apply Rmult_le_compat_r; lra|].
    rewrite Rabs_mult. pose proof (bpow_gt_0 radix2 (-150)) as Z0.
    assert (bpow radix2 (-150) * / IZR n <= bpow radix2 (-150)) by (rewrite <- (Rmult_1_r (bpow radix2 (-150))) at 2; apply Rmult_le_compat_l; lra). lra. }
  assert (Aq : Rabs (m / IZR n) <= 65536 * (4 * bpow radix2 k)).
  { unfold Rdiv. rewrite Rabs_mult, (Rabs_pos_eq (/ IZR n)) by lra. apply Rle_trans with (Rabs m * 1); [apply Rmult_le_compat_l; [apply Rabs_pos|lra]|lra]. }
  assert (Iq : is (ndiv (nmul (nof i) (narrow (nsub br tl))) (nof n : f32)) (rnd32 (m / IZR n))).
  { apply is_div_r; [exact Im|apply small_int32; lia|lra|apply fits_small; lra]. }
  pose proof (rnd_rel (m / IZR n)) as Eq. set (q := rnd32 (m / IZR n)) in *. apply widen_is in Iq. destruct Iq as (Fq & Vq).
  destruct (edge_real (bpow radix2 k) TL W (IZR i / IZR n) d w (m / IZR n) q (rd (TL + q)) M0 Z Lt ltac:(rewrite TW; exact Lb) L Ed' Ew Em' Eq) as (A3 & K).
  assert (A4 : Rabs (TL + q) <= bpow radix2 (k + 2)) by (eapply Rle_trans; [apply Rabs_triang|]; lra).
  destruct (add_ok (k + 2) ltac:(lia) tl (widen (ndiv (nmul (nof i) (narrow (nsub br tl))) (nof n : f32))) Ft Fq) as (Fs & Vs); [rewrite Vq; exact A4|].
  rewrite Vq in Vs. fold TL in Vs. exists (rd (TL + q)). split; [split; [exact Fs|exact Vs]|]. apply K.
  pose proof (rd_err (k + 2) _ ltac:(lia) A4). lra.
Qed.

(** A coordinate as it is stored. *)
Lemma stored k (d : f64) v e : (0 <= k <= 100)%Z -> is d v -> Rabs (v - e) <= bpow radix2 k * (7 / 16777216) -> Rabs e <= bpow radix2 k ->
  is (narrow d : f32) (rnd32 v) /\ Rabs (rnd32 v - e) <= bpow radix2 k * / 2097152.
Proof.
  intros Hk (F & V) E A. pose proof (near_size _ _ _ _ E A) as Av. pose proof (bpow_gt_0 radix2 k) as M0.
  assert (P1 : bpow radix2 (k + 1) = bpow radix2 k * 2) by (rewrite bpow_plus; reflexivity).
  assert (Up : bpow radix2 (k + 1) <= bpow radix2 126) by (apply bpow_le; lia).
  split; [rewrite <- V; apply narrow_is; split; [exact F|rewrite V; lra]|].
  pose proof (rnd_half (k + 1) v ltac:(lia) ltac:(lra)) as R. replace (k + 1 - 25)%Z with (k + -24)%Z in R by lia.
  rewrite bpow_plus in R. change (bpow radix2 (-24)) with (/ 16777216) in R. pose proof (tri _ _ _ _ _ R E). lra.
Qed.

Lemma rep32_half : rep32 (/ 2).
Proof.
  exists (nlit 1 2). unfold is. split; [reflexivity|]. change (nlit 1 2 : f32) with (Bldexp mode_NE (nof 1 : f32) (-1)) || idtac.
  vm_compute. lra.
Qed.

Lemma rnd_ge b x : rep32 b -> b <= x -> b <= rnd32 x.
Proof. intros Rb L. rewrite <- (rnd32_rep b Rb). apply rnd32_mono. exact L. Qed.
Lemma rnd_le b x : rep32 b -> x <= b -> rnd32 x <= b.
Proof. intros Rb L. rewrite <- (rnd32_rep b Rb). apply rnd32_mono. exact L. Qed.

(** Below one: at least 2^-24 below. *)
Lemma below_one (x : f32) a : is x a -> a < 1 -> a <= 1 - bpow radix2 (-24).
Proof.
  intros (F & <-) L. pose proof (generic_format_B2R 24 128 x) as G.
  assert (V : Valid_exp (SpecFloat.fexp 24 128)) by (apply fexp_correct; reflexivity).
  assert (G1 : generic_format radix2 (SpecFloat.fexp 24 128) (bpow radix2 0)) by (apply generic_format_bpow; cbn; lia).
  pose proof (pred_ge_gt radix2 _ _ _ G G1 L) as K. rewrite pred_bpow in K. exact K.
Qed.

(** The stretch of a row is a number. *)
Lemma stretch_number (st : f32) j n : is_finite st = true -> 0 <= B2R st < 1 -> (1 <= n <= 2 ^ 16)%Z -> (0 <= j <= n)%Z ->
  exists s, is (ndiv (nof 1) (nsub (nof 1) (nmul (ndiv (nof j) (nof n)) st))) s.
Proof.
  intros F S Hn Hj. assert (N : 1 <= IZR n <= 65536) by (split; apply IZR_le; lia). assert (I : 0 <= IZR j <= IZR n) by (split; apply IZR_le; lia).
  assert (L : 0 <= IZR j / IZR n <= 1).
  { assert (In : 0 < / IZR n) by (apply Rinv_0_lt_compat; lra).
    split; [apply Rmult_le_pos; lra|]. apply Rle_trans with (IZR n * / IZR n); [apply Rmult_le_compat_r; lra|right; apply Rinv_r; lra]. }
  assert (Big : forall x, Rabs x <= 16777216 -> Rabs x <= bpow radix2 120).
  { intros x Hx. eapply Rle_trans; [exact Hx|]. apply Rle_trans with (bpow radix2 24); [right; reflexivity|apply bpow_le; lia]. }
  assert (V : is (ndiv (nof j) (nof n) : f32) (rnd32 (IZR j / IZR n))).
  { apply is_div_r; [apply small_int32; lia|apply small_int32; lia|lra|]. apply fits_small, Big. rewrite Rabs_pos_eq; lra. }
  assert (V1 : 0 <= rnd32 (IZR j / IZR n) <= 1) by (split; [apply rnd_ge; [apply rep_0|lra]|apply rnd_le; [apply rep32_1|lra]]).
  set (v := rnd32 (IZR j / IZR n)) in *. set (s := B2R st) in *. assert (Is : is st s) by (split; auto).
  assert (Pv : 0 <= v * s <= s) by (split; [apply Rmult_le_pos; lra|rewrite <- (Rmult_1_l s) at 2; apply Rmult_le_compat_r; lra]).
  assert (Ip : is (nmul (ndiv (nof j) (nof n)) st) (rnd32 (v * s))).
  { apply is_mul_r; auto. apply fits_small, Big. rewrite Rabs_pos_eq; lra. }
  assert (P1 : 0 <= rnd32 (v * s) <= s) by (split; [apply rnd_ge; [apply rep_0|lra]|apply rnd_le; [exists st; exact Is|lra]]).
  pose proof (below_one st s Is (proj2 S)) as B. set (p := rnd32 (v * s)) in *.
  assert (B24 : bpow radix2 (-24) = / 16777216) by reflexivity.
  assert (Ic : is (nsub (nof 1) (nmul (ndiv (nof j) (nof n)) st)) (rnd32 (1 - p))).
  { apply sub32; [exact LemFinal.one32|exact Ip|]. eapply Rle_trans; [apply Big|apply bpow_le; lia]. rewrite Rabs_pos_eq; lra. }
  assert (C : bpow radix2 (-24) <= rnd32 (1 - p)).
  { rewrite <- (round_generic radix2 (SpecFloat.fexp 24 128) (round_mode mode_NE) (bpow radix2 (-24))) at 1; [apply rnd32_mono; lra|]. apply generic_format_bpow. cbn. lia. }
  eexists. apply is_div_r; [exact LemFinal.one32|exact Ic|lra|]. apply fits_small, Big.
  assert (0 < / rnd32 (1 - p) <= 16777216).
  { split; [apply Rinv_0_lt_compat; lra|]. rewrite <- (Rinv_inv 16777216). apply Rinv_le; lra. }
  unfold Rdiv. rewrite Rmult_1_l, Rabs_pos_eq; lra.
Qed.

Lemma in_line TL BR l M : 0 <= l <= 1 -> Rabs TL <= M -> Rabs BR <= M -> Rabs (TL + l * (BR - TL)) <= M.
Proof.
  intros L A B. apply Rabs_le_inv in A. apply Rabs_le_inv in B. replace (TL + l * (BR - TL)) with ((1 - l) * TL + l * BR) by ring.
  apply Rabs_le. assert (0 <= (1 - l) * (M - TL)) by (apply Rmult_le_pos; lra). assert (0 <= (1 - l) * (M + TL)) by (apply Rmult_le_pos; lra).
  assert (0 <= l * (M - BR)) by (apply Rmult_le_pos; lra). assert (0 <= l * (M + BR)) by (apply Rmult_le_pos; lra). lra.
Qed.

Lemma sigmoid_zero `{Libm f64} (z b o : f32) : is z 0 -> is_finite o = true -> B2R o <> 0 -> sigmoid z b o = sigmoid (nof 0) b o.
Proof.
  intros Iz Fo No. assert (Io : is o (B2R o)) by (split; auto).
  assert (Q : nsub z o = nsub (nof 0) o); [|unfold sigmoid; rewrite Q; reflexivity].
  assert (A : is (nsub z o) (- B2R o)) by (eapply is_sub; [exact Iz|exact Io|lra|apply rep_opp; exists o; exact Io]).
  assert (B : is (nsub (nof 0) o) (- B2R o)) by (eapply is_sub; [exact zero32'|exact Io|lra|apply rep_opp; exists o; exact Io]).
  destruct A as (_ & A). destruct B as (_ & B).
  apply B2R_inj; [apply is_finite_strict_B2R; rewrite A; lra|apply is_finite_strict_B2R; rewrite B; lra|congruence].
Qed.

(** The curve. *)
Lemma g32 m e : (Z.abs m < 2 ^ 24)%Z -> (-100 <= e)%Z -> rnd32 (IZR m * bpow radix2 e) = IZR m * bpow radix2 e.
Proof.
  intros Hm He. apply round_generic; [apply valid_rnd_round_mode|]. apply generic_format_FLT with (emin := (-149)%Z) (prec := 24%Z).
  exists (Float radix2 m e); [reflexivity|exact Hm|cbn; lia].
Qed.
Lemma g64 m e : (Z.abs m < 2 ^ 24)%Z -> (-100 <= e)%Z -> rd (IZR m * bpow radix2 e) = IZR m * bpow radix2 e.
Proof.
  intros Hm He. apply rd_gen. apply generic_format_FLT with (emin := (-1074)%Z) (prec := 53%Z).
  exists (Float radix2 m e); [reflexivity|change (Zpower radix2 53) with (2 ^ 53)%Z; cbn [Fnum]; lia|cbn; lia].
Qed.

Lemma curve_value (e : f64) E : is e E -> 0 <= E <= bpow radix2 1000 ->
  exists v, is (narrow (ndiv (nof 1) (nadd (nof 1) e)) : f32) v /\ 0 <= v <= 1 /\
    (1 <= E -> v <= / 2) /\ (3 / 2 <= E -> v <= 7 / 16) /\ (E <= 1 -> / 2 <= v) /\ (E <= 2 / 3 -> 9 / 16 <= v).
Proof.
  intros (Fe & Ve) HE.
  assert (G : forall m, (Z.abs m < 2 ^ 24)%Z -> rd (IZR m * / 16) = IZR m * / 16 /\ rnd32 (IZR m * / 16) = IZR m * / 16).
  { intros m Hm. change (/ 16) with (bpow radix2 (-4)). split; [apply g64|apply g32]; auto; lia. }
  assert (U : bpow radix2 1000 + 1 <= bpow radix2 1001).
  { change 1001%Z with (1000 + 1)%Z. rewrite bpow_plus. change (bpow radix2 1) with 2. assert (bpow radix2 0 <= bpow radix2 1000) by (apply bpow_le; lia). change (bpow radix2 0) with 1 in *. lra. }
  assert (A1 : Rabs (B2R (nof 1 : f64) + B2R e) <= bpow radix2 1001) by (rewrite Ve, (proj2 one64), Rabs_pos_eq; lra).
  destruct (add_ok 1001 ltac:(lia) (nof 1) e (proj1 one64) Fe A1) as (Fa & Va). rewrite Ve, (proj2 one64) in Va. set (w := rd (1 + E)) in *.
  assert (Wm : forall m, (Z.abs m < 2 ^ 24)%Z -> (IZR m * / 16 <= 1 + E -> IZR m * / 16 <= w) /\ (1 + E <= IZR m * / 16 -> w <= IZR m * / 16)).
  { intros m Hm. pose proof (proj1 (G m Hm)) as K. split; intros I; rewrite <- K; apply rd_mono; exact I. }
  assert (W1 : 1 <= w) by (pose proof (proj1 (Wm 16%Z ltac:(lia))); lra).
  assert (Q0 : 0 < / w <= 1) by (split; [apply Rinv_0_lt_compat; lra|rewrite <- Rinv_1; apply Rinv_le; lra]).
  destruct (div_ok 10 ltac:(lia) (nof 1) (nadd (nof 1) e) (proj1 one64)) as (Fq & Vq).
  { rewrite Va. lra. }
  { rewrite Va, (proj2 one64). unfold Rdiv. rewrite Rmult_1_l, Rabs_pos_eq by lra. change (bpow radix2 10) with 1024. lra. }
  rewrite Va, (proj2 one64) in Vq. unfold Rdiv in Vq. rewrite Rmult_1_l in Vq. set (q := rd (/ w)) in *.
  assert (Qm : forall m, (Z.abs m < 2 ^ 24)%Z -> (IZR m * / 16 <= / w -> IZR m * / 16 <= q) /\ (/ w <= IZR m * / 16 -> q <= IZR m * / 16)).
  { intros m Hm. pose proof (proj1 (G m Hm)) as K. split; intros I; rewrite <- K; apply rd_mono; exact I. }
  assert (Nm : forall m, (Z.abs m < 2 ^ 24)%Z -> (IZR m * / 16 <= q -> IZR m * / 16 <= rnd32 q) /\ (q <= IZR m * / 16 -> rnd32 q <= IZR m * / 16)).
  { intros m Hm. pose proof (proj2 (G m Hm)) as K. split; intros I; rewrite <- K; apply rnd32_mono; exact I. }
  assert (Q1 : 0 <= q <= 1) by (pose proof (proj1 (Qm 0%Z ltac:(lia))); pose proof (proj2 (Qm 16%Z ltac:(lia))); lra).
  assert (Inv : forall x y, 0 < x -> x * y <= 1 -> 0 < y -> y <= / x).
  { intros x y X XY Y'. apply Rmult_le_reg_l with x; [lra|]. rewrite Rinv_r by lra. exact XY. }
  exists (rnd32 q). split; [rewrite <- Vq; apply narrow_is; split; [exact Fq|rewrite Vq, Rabs_pos_eq by lra; apply Rle_trans with (bpow radix2 0); [change (bpow radix2 0) with 1; lra|apply bpow_le; lia]]|].
  split; [pose proof (proj1 (Nm 0%Z ltac:(lia))); pose proof (proj2 (Nm 16%Z ltac:(lia))); lra|].
  assert (Dec : forall x y, 0 < x -> x <= y -> / y <= / x) by (intros; apply Rinv_le; assumption).
  split; [|split; [|split]]; intros K.
  - pose proof (proj1 (Wm 32%Z ltac:(lia)) ltac:(lra)) as B. pose proof (Dec 2 w ltac:(lra) ltac:(lra)).
    pose proof (proj2 (Nm 8%Z ltac:(lia)) (proj2 (Qm 8%Z ltac:(lia)) ltac:(lra))). lra.
  - pose proof (proj1 (Wm 40%Z ltac:(lia)) ltac:(lra)) as B. pose proof (Dec (5 / 2) w ltac:(lra) ltac:(lra)).
    pose proof (proj2 (Nm 7%Z ltac:(lia)) (proj2 (Qm 7%Z ltac:(lia)) ltac:(lra))). lra.
  - pose proof (proj2 (Wm 32%Z ltac:(lia)) ltac:(lra)) as B. pose proof (Dec w 2 ltac:(lra) ltac:(lra)).
    pose proof (proj1 (Nm 8%Z ltac:(lia)) (proj1 (Qm 8%Z ltac:(lia)) ltac:(lra))). lra.
  - pose proof (proj2 (Wm 27%Z ltac:(lia)) ltac:(lra)) as B. pose proof (Dec w (27 / 16) ltac:(lra) ltac:(lra)).
    pose proof (proj1 (Nm 9%Z ltac:(lia)) (proj1 (Qm 9%Z ltac:(lia)) ltac:(lra))). lra.
Qed.

Lemma curve_ends (L : Libm f64) (b o : f32) : rough_exp L -> is_finite b = true -> 1 <= B2R b <= 512 -> is_finite o = true -> 0 < B2R o <= 1 ->
  exists v0 v1, is (sigmoid (nof 0) b o) v0 /\ is (sigmoid (nof 1) b o) v1 /\ 0 <= v0 <= 1 /\ 0 <= v1 <= 1 /\ v0 <> v1.
Proof.
  intros Rx Fb Hb Fo Ho. assert (Ib : is (nopp b) (- B2R b)) by (apply is_opp; split; auto). assert (Io : is o (B2R o)) by (split; auto).
  set (B := B2R b) in *. set (O := B2R o) in *.
  assert (Half : forall x, / 2 <= x -> / 2 <= rnd32 x) by (intros x Hx; apply rnd_ge; [apply rep32_half|exact Hx]).
  assert (Pos : forall x, 0 <= x -> 0 <= rnd32 x) by (intros x Hx; apply rnd_ge; [apply rep_0|exact Hx]).
  assert (H5 : rnd32 512 = 512) by (replace 512 with (IZR 1 * bpow radix2 9) by (change (bpow radix2 9) with 512; lra); apply g32; lia).
  assert (Top : forall x, x <= 512 -> rnd32 x <= 512) by (intros x Hx; apply rnd32_mono in Hx; rewrite H5 in Hx; exact Hx).
  assert (Big : forall x, Rabs x <= 512 -> Rabs x <= bpow radix2 120).
  { intros x Hx. eapply Rle_trans; [exact Hx|]. apply Rle_trans with (bpow radix2 9); [right; reflexivity|apply bpow_le; lia]. }
  (* at 0 *)
  assert (I0 : is (nsub (nof 0) o) (- O)) by (eapply is_sub; [exact zero32'|exact Io|unfold O; lra|apply rep_opp; exists o; exact Io]).
  assert (P0 : 0 <= B * O <= 512) by (split; [apply Rmult_le_pos; lra|replace 512 with (512 * 1) by ring; apply Rmult_le_compat; lra]).
  assert (Y0 : is (nmul (nopp b) (nsub (nof 0) o)) (rnd32 (B * O))).
  { replace (B * O) with (- B * - O) by ring. apply is_mul_r; auto. apply fits_small, Big. replace (- B * - O) with (B * O) by ring. rewrite Rabs_pos_eq; lra. }
  pose proof (Pos _ (proj1 P0)) as L0. pose proof (Top _ (proj2 P0)) as T0. apply widen_is in Y0. destruct Y0 as (FY & VY).
  destruct (Rx _ FY) as (F0 & R0 & A0 & A0' & _). { rewrite VY, Rabs_pos_eq; lra. }
  rewrite VY in A0, A0'.
  destruct (curve_value _ _ (conj F0 eq_refl) R0) as (v0 & I0' & C0 & D0 & D0' & _).
  (* at 1 *)
  assert (I1 : is (nsub (nof 1) o) (rnd32 (1 - O))).
  { apply sub32; [exact LemFinal.one32|exact Io|]. eapply Rle_trans; [apply Big|apply bpow_le; lia]. rewrite Rabs_pos_eq; lra. }
  pose proof (Pos (1 - O) ltac:(lra)) as L1. assert (L1' : rnd32 (1 - O) <= 1) by (apply rnd_le; [apply rep32_1|lra]). set (w := rnd32 (1 - O)) in *.
  assert (P1 : 0 <= B * w <= 512) by (split; [apply Rmult_le_pos; lra|replace 512 with (512 * 1) by ring; apply Rmult_le_compat; lra]).
  assert (Y1 : is (nmul (nopp b) (nsub (nof 1) o)) (- rnd32 (B * w))).
  { rewrite <- rnd32_opp. replace (- (B * w)) with (- B * w) by ring. apply is_mul_r; auto. apply fits_small, Big. replace (- B * w) with (- (B * w)) by ring. rewrite Rabs_Ropp, Rabs_pos_eq; lra. }
  pose proof (Pos _ (proj1 P1)) as L2. pose proof (Top _ (proj2 P1)) as T1. apply widen_is in Y1. destruct Y1 as (FZ & VZ).
  destruct (Rx _ FZ) as (F1 & R1 & _ & _ & A1 & A1'). { rewrite VZ, Rabs_Ropp, Rabs_pos_eq; lra. }
  rewrite VZ in A1, A1'.
  destruct (curve_value _ _ (conj F1 eq_refl) R1) as (v1 & I1' & C1 & _ & _ & D1 & D1').
  exists v0, v1. do 4 (split; [assumption|]). specialize (D0 (A0 L0)). specialize (D1 (A1 ltac:(lra))).
  destruct (Rle_dec (/ 2) O) as [K|K].
  - assert (K' : / 2 <= B * O) by (replace (/ 2) with (1 * / 2) by ring; apply Rmult_le_compat; lra).
    pose proof (Half _ K') as K2. specialize (D0' (A0' ltac:(lra))). lra.
  - assert (K' : / 2 <= B * w) by (replace (/ 2) with (1 * / 2) by ring; apply Rmult_le_compat; try lra; apply Half; lra).
    pose proof (Half _ K') as K2. specialize (D1' (A1' ltac:(lra))). lra.
Qed.

(** The vertices of the last frame. *)
Lemma lamp_end_point (L : Libm f64) k (q : lamp_params f32 f64) r (pr : f32) i j : (0 <= k <= 20)%Z -> rough_exp L -> lamp_fit k q -> is pr 1 ->
  (2 <= rw r <= 2 ^ 16)%Z -> (2 <= MagicLamp.rh r <= 2 ^ 16)%Z -> (0 <= i < rw r)%Z -> (0 <= j < MagicLamp.rh r)%Z ->
  let t := lp_target q in
  exists x y, is (vx (lamp_point q r pr i j)) x /\ is (vy (lamp_point q r pr i j)) y /\
    Rabs (x - (B2R (vx (b_tl t)) + IZR i / IZR (rw r - 1) * (B2R (vx (b_br t)) - B2R (vx (b_tl t))))) <= bpow radix2 k * / 2097152 /\
    Rabs (y - (B2R (vy (b_tl t)) + IZR j / IZR (MagicLamp.rh r - 1) * (B2R (vy (b_br t)) - B2R (vy (b_tl t))))) <= bpow radix2 k * / 2097152.
Proof.
  intros Hk Rx Fit P1 Hw Hh Hi Hj t. unfold lamp_fit in Fit. cbv zeta in Fit.
  destruct Fit as ((Sx & Sy) & (Sx' & Sy') & (Tx & Ty) & (Tx' & Ty') & Apart & Fbe & Be & Fo & Of & Fst & St & Fs).
  assert (No : B2R (lp_offset q) <> 0) by lra.
  destruct (curve_ends L _ _ Rx Fbe Be Fo Of) as (v0 & v1 & (F0 & V0) & (F1 & V1) & C0 & C1 & Ne). rewrite <- V0, <- V1 in *.
  unfold lamp_point. cbv zeta. cbn [vx vy].
  replace (u64 (rw r - 1)) with (rw r - 1)%Z by (symmetry; apply Z.mod_small; lia).
  replace (u64 (MagicLamp.rh r - 1)) with (MagicLamp.rh r - 1)%Z by (symmetry; apply Z.mod_small; lia). fold t in Apart, Tx, Tx', Ty, Ty' |- *.
  assert (Fr : forall a n, (0 <= a <= n)%Z -> (1 <= n)%Z -> 0 <= IZR a / IZR n <= 1).
  { intros a n Ha Hn. assert (1 <= IZR n) by (apply IZR_le; lia). assert (0 <= IZR a <= IZR n) by (split; apply IZR_le; lia).
    assert (In : 0 < / IZR n) by (apply Rinv_0_lt_compat; lra).
    split; [apply Rmult_le_pos; lra|]. apply Rle_trans with (IZR n * / IZR n); [apply Rmult_le_compat_r; lra|right; apply Rinv_r; lra]. }
  pose proof (Fr i (rw r - 1)%Z ltac:(lia) ltac:(lia)) as Li. pose proof (Fr j (MagicLamp.rh r - 1)%Z ltac:(lia) ltac:(lia)) as Lj.
  destruct (edge_near k _ _ i (rw r - 1) ltac:(lia) Sx Sx' ltac:(lia) ltac:(lia)) as (sx & Isx & Esx).
  destruct (edge_near k _ _ j (MagicLamp.rh r - 1) ltac:(lia) Sy Sy' ltac:(lia) ltac:(lia)) as (sy & Isy & Esy).
  destruct (edge_near k _ _ i (rw r - 1) ltac:(lia) Tx Tx' ltac:(lia) ltac:(lia)) as (tx & Itx & Etx).
  destruct (edge_near k _ _ j (MagicLamp.rh r - 1) ltac:(lia) Ty Ty' ltac:(lia) ltac:(lia)) as (ty & Ity & Ety).
  pose proof (bpow_gt_0 radix2 k) as M0. assert (M1 : bpow radix2 k <= 1048576) by (apply Rle_trans with (bpow radix2 20); [apply bpow_le; lia|right; reflexivity]).
  pose proof (in_line _ _ _ _ Li (proj2 Sx) (proj2 Sx')) as Asx. pose proof (in_line _ _ _ _ Lj (proj2 Sy) (proj2 Sy')) as Asy.
  pose proof (in_line _ _ _ _ Li (proj2 Tx) (proj2 Tx')) as Atx. pose proof (in_line _ _ _ _ Lj (proj2 Ty) (proj2 Ty')) as Aty.
  set (SX := nadd (vx (b_tl (lp_source q))) _) in *. set (SY := nadd (vy (b_tl (lp_source q))) _) in *.
  set (TX := nadd (vx (b_tl t)) _) in *. set (TY := nadd (vy (b_tl t)) _) in *.
  pose proof (near_size _ _ _ _ Esx Asx) as Bsx. pose proof (near_size _ _ _ _ Esy Asy) as Bsy.
  pose proof (near_size _ _ _ _ Etx Atx) as Btx. pose proof (near_size _ _ _ _ Ety Aty) as Bty.
  destruct (stored k TX tx _ ltac:(lia) Itx Etx Atx) as (NTX & ETX). destruct (stored k TY ty _ ltac:(lia) Ity Ety Aty) as (NTY & ETY).
  assert (B30 : bpow radix2 30 = 1073741824) by reflexivity. assert (U : bpow radix2 30 <= bpow radix2 126) by (apply bpow_le; lia).
  pose proof (one_minus pr P1) as Inv.
  destruct (stretch_number (lp_stretch q) j (MagicLamp.rh r - 1) Fst St ltac:(lia) ltac:(lia)) as (s & Is).
  pose proof (mul0l _ _ _ Inv Is) as Q1. destruct (min_is _ _ _ _ Q1 LemFinal.one32) as (c & Q2 & Q2'). rewrite Q2' in Q2 by lra. clear Q2' Q1 c.
  (* y *)
  destruct (sub_ok 30 ltac:(lia) SY TY (proj1 Isy) (proj1 Ity)) as (Fd & Vd).
  { rewrite (proj2 Isy), (proj2 Ity), B30. apply Rabs_le_inv in Bsy. apply Rabs_le_inv in Bty. apply Rabs_le. lra. }
  assert (Wd : within 126 (nsub SY TY : f64)).
  { split; [exact Fd|]. rewrite Vd. eapply Rle_trans; [|exact U]. apply abs_round_le_generic; [apply fexp_correct; reflexivity|apply valid_rnd_round_mode|apply generic_format_bpow; cbn; lia|].
    rewrite (proj2 Isy), (proj2 Ity), B30. apply Rabs_le_inv in Bsy. apply Rabs_le_inv in Bty. apply Rabs_le. lra. }
  pose proof (mul0r _ _ _ (narrow_is _ Wd) Q2) as Q3. apply widen_is in Q3.
  assert (Q4 : is (nadd TY (widen (nmul (narrow (nsub SY TY)) (nmin2 (nmul (nsub (nof 1) pr) (ndiv (nof 1) (nsub (nof 1) (nmul (ndiv (nof j) (nof (MagicLamp.rh r - 1))) (lp_stretch q))))) (nof 1))))) ty).
  { eapply is_add; [exact Ity|exact Q3|lra|exists TY; exact Ity]. }
  destruct (stored k _ ty _ ltac:(lia) Q4 Ety Aty) as (Q5 & _). set (Y := narrow (nadd TY _)) in *.
  (* x *)
  assert (Top : forall b : f64, within k b -> is (narrow b : f32) (rnd32 (B2R b)) /\ Rabs (rnd32 (B2R b) - B2R b) <= / 16).
  { intros b (Fb & Lb). split; [apply narrow_is; split; [exact Fb|lra]|].
    assert (P1' : bpow radix2 (k + 1) = bpow radix2 k * 2) by (rewrite bpow_plus; reflexivity).
    eapply Rle_trans; [apply (rnd_half (k + 1)); [lia|lra]|]. apply Rle_trans with (bpow radix2 (-4)); [apply bpow_le; lia|right; reflexivity]. }
  destruct (Top _ Sy) as (Is1 & Es1). destruct (Top _ Ty) as (It1 & Et1).
  pose proof (near_size _ _ _ _ Es1 (proj2 Sy)) as Bs1. pose proof (near_size _ _ _ _ Et1 (proj2 Ty)) as Bt1.
  set (s1 := rnd32 (B2R (vy (b_tl (lp_source q))))) in *. set (t1 := rnd32 (B2R (vy (b_tl t)))) in *.
  assert (Bd : Rabs (s1 - t1) <= 4194304) by (apply Rabs_le_inv in Bs1; apply Rabs_le_inv in Bt1; apply Rabs_le; lra).
  assert (Iyd : is (nsub (narrow (vy (b_tl (lp_source q)))) (narrow (vy (b_tl t))) : f32) (rnd32 (s1 - t1))) by (apply sub32; auto; lra).
  assert (Half : / 2 <= Rabs (rnd32 (s1 - t1))).
  { assert (Ab : / 2 <= Rabs (s1 - t1)).
    { pose proof (Rabs_triang (B2R (vy (b_tl (lp_source q))) - s1) ((s1 - t1) + (t1 - B2R (vy (b_tl t))))) as T1.
      pose proof (Rabs_triang (s1 - t1) (t1 - B2R (vy (b_tl t)))) as T2. rewrite (Rabs_minus_sym _ s1) in T1.
      replace (B2R (vy (b_tl (lp_source q))) - s1 + (s1 - t1 + (t1 - B2R (vy (b_tl t))))) with (B2R (vy (b_tl (lp_source q))) - B2R (vy (b_tl t))) in T1 by ring. lra. }
    unfold Rabs in Ab. destruct (Rcase_abs (s1 - t1)) as [Ng|Ps].
    - assert (rnd32 (s1 - t1) <= - / 2) by (apply rnd_le; [apply rep_opp, rep32_half|lra]). rewrite Rabs_left; lra.
    - assert (/ 2 <= rnd32 (s1 - t1)) by (apply rnd_ge; [apply rep32_half|lra]). rewrite Rabs_pos_eq; lra. }
  assert (By : Rabs (rnd32 ty) <= 2097152).
  { pose proof (near_size _ _ _ _ ETY Aty). lra. }
  assert (I1 : is (nsub (narrow (vy (b_tl (lp_source q)))) Y : f32) (rnd32 (s1 - rnd32 ty))).
  { apply sub32; auto. apply Rabs_le_inv in Bs1. apply Rabs_le_inv in By. apply Rle_trans with 8388608; [apply Rabs_le; lra|lra]. }
  assert (G23 : forall x e, (0 <= e <= 100)%Z -> Rabs x <= bpow radix2 e -> Rabs (rnd32 x) <= bpow radix2 e).
  { intros x e He Hx. apply abs_round_le_generic; [apply fexp_correct; reflexivity|apply valid_rnd_round_mode|apply generic_format_bpow; unfold SpecFloat.fexp, SpecFloat.emin; lia|exact Hx]. }
  assert (B1 : Rabs (rnd32 (s1 - rnd32 ty)) <= bpow radix2 23).
  { apply G23; [lia|]. change (bpow radix2 23) with 8388608. apply Rabs_le_inv in Bs1. apply Rabs_le_inv in By. apply Rabs_le. lra. }
  change (bpow radix2 23) with 8388608 in B1. set (n1 := rnd32 (s1 - rnd32 ty)) in *. set (d1 := rnd32 (s1 - t1)) in *.
  assert (Nd : d1 <> 0) by (intros K; rewrite K, Rabs_R0 in Half; lra).
  assert (B2 : Rabs (n1 / d1) <= bpow radix2 24).
  { unfold Rdiv. rewrite Rabs_mult, Rabs_inv. replace (bpow radix2 24) with (8388608 * 2) by (change (bpow radix2 24) with 16777216; lra). apply Rmult_le_compat; try apply Rabs_pos; [left; apply Rinv_0_lt_compat; lra|lra|].
    rewrite <- (Rinv_inv 2). apply Rinv_le; lra. }
  assert (I2 : is (ndiv (nsub (narrow (vy (b_tl (lp_source q)))) Y) (nsub (narrow (vy (b_tl (lp_source q)))) (narrow (vy (b_tl t)))) : f32) (rnd32 (n1 / d1))).
  { apply is_div_r; auto. apply fits_small. eapply Rle_trans; [exact B2|apply bpow_le; lia]. }
  pose proof (G23 _ 24%Z ltac:(lia) B2) as B3. change (bpow radix2 24) with 16777216 in B3.
  assert (I3 : is (nsub (nof 1) (ndiv (nsub (narrow (vy (b_tl (lp_source q)))) Y) (nsub (narrow (vy (b_tl (lp_source q)))) (narrow (vy (b_tl t))))) : f32) (rnd32 (1 - rnd32 (n1 / d1)))).
  { apply sub32; [exact LemFinal.one32|exact I2|]. apply Rabs_le_inv in B3. apply Rle_trans with 33554432; [apply Rabs_le; lra|lra]. }
  destruct (min_is _ _ _ _ I3 LemFinal.one32) as (m1 & I4 & _).
  pose proof (mul0l _ (lp_speed q) _ Inv (conj Fs eq_refl)) as Q6. destruct (min_is _ _ _ _ Q6 LemFinal.one32) as (c & Q7 & Q7'). rewrite Q7' in Q7 by lra. clear Q7' Q6 c.
  pose proof (mul0r _ _ _ I4 Q7) as Q8. rewrite (sigmoid_zero _ (lp_bend q) (lp_offset q) Q8 Fo No).
  assert (Sub : forall u v : f32, is_finite u = true -> is_finite v = true -> 0 <= B2R u <= 1 -> 0 <= B2R v <= 1 -> is (nsub u v) (rnd32 (B2R u - B2R v))).
  { intros u v Fu Fv Hu Hv. apply sub32; [split; auto|split; auto|]. apply Rle_trans with 1; [apply Rabs_le; lra|lra]. }
  set (f0 := sigmoid (nof 0) (lp_bend q) (lp_offset q)) in *. set (f1 := sigmoid (nof 1) (lp_bend q) (lp_offset q)) in *.
  assert (Q9 : is (nsub f0 f0) 0) by (eapply is_sub; [split; [exact F0|reflexivity]|split; [exact F0|reflexivity]|lra|apply rep_0]).
  pose proof (Sub f1 f0 F1 F0 C1 C0) as Q10.
  assert (Nz : rnd32 (B2R f1 - B2R f0) <> 0).
  { apply (round_plus_neq_0 radix2 (SpecFloat.fexp 24 128) (Znearest (fun x => negb (Z.even x))) (B2R f1) (- B2R f0));
      [apply generic_format_B2R|apply generic_format_opp, generic_format_B2R|]. lra. }
  assert (Q11 : is (ndiv (nsub f0 f0) (nsub f1 f0)) 0).
  { eapply is_div; [exact Q9|exact Q10|exact Nz|field; exact Nz|apply rep_0]. }
  apply widen_is in Q11.
  destruct (sub_ok 30 ltac:(lia) SX TX (proj1 Isx) (proj1 Itx)) as (Fx & Vx).
  { rewrite (proj2 Isx), (proj2 Itx), B30. apply Rabs_le_inv in Bsx. apply Rabs_le_inv in Btx. apply Rabs_le. lra. }
  assert (Q12 : is (nmul (nsub SX TX) (widen (ndiv (nsub f0 f0) (nsub f1 f0)))) 0).
  { eapply is_mul; [split; [exact Fx|reflexivity]|exact Q11|lra|apply rep_0]. }
  assert (Q13 : is (nadd TX (nmul (nsub SX TX) (widen (ndiv (nsub f0 f0) (nsub f1 f0))))) tx) by (eapply is_add; [exact Itx|exact Q12|lra|exists TX; exact Itx]).
  destruct (stored k _ tx _ ltac:(lia) Q13 Etx Atx) as (Q14 & _).
  exists (rnd32 tx), (rnd32 ty). split; [apply widen_is; exact Q14|]. split; [apply widen_is; exact Q5|]. split; assumption.
Qed.

(** Reading a grid that is spread evenly. *)
Lemma line_cell (n i : Z) s u TL W : (1 <= n)%Z -> (0 <= i <= n)%Z -> s = u * IZR n - IZR i -> - bpow radix2 (-38) <= s <= 1 -> u <= 1 ->
  Rabs ((1 - s) * (TL + IZR i / IZR n * W) + s * (TL + IZR (Z.min n (i + 1)) / IZR n * W) - (TL + u * W)) <= Rabs W * bpow radix2 (-38).
Proof.
  intros Hn Hi Es Hs Hu. assert (N : 1 <= IZR n) by (apply IZR_le; lia). pose proof (bpow_gt_0 radix2 (-38)) as E0.
  destruct (Z.eq_dec i n) as [->|Ne].
  - rewrite Z.min_l by lia.
    replace ((1 - s) * (TL + IZR n / IZR n * W) + s * (TL + IZR n / IZR n * W) - (TL + u * W)) with (W * - (s / IZR n)) by (rewrite Es; field; lra).
    rewrite Rabs_mult. apply Rmult_le_compat_l; [apply Rabs_pos|]. rewrite Rabs_Ropp. unfold Rdiv.
    assert (S0 : s <= 0) by (rewrite Es; assert (u * IZR n <= 1 * IZR n) by (apply Rmult_le_compat_r; lra); lra).
    assert (In : 0 < / IZR n <= 1) by (split; [apply Rinv_0_lt_compat; lra|rewrite <- Rinv_1; apply Rinv_le; lra]).
    rewrite Rabs_mult, (Rabs_pos_eq (/ IZR n)), (Rabs_left1 s) by lra. rewrite <- (Rmult_1_r (bpow radix2 (-38))). apply Rmult_le_compat; lra.
  - rewrite Z.min_r by lia. rewrite plus_IZR.
    replace ((1 - s) * (TL + IZR i / IZR n * W) + s * (TL + (IZR i + 1) / IZR n * W) - (TL + u * W)) with 0 by (rewrite Es; field; lra).
    rewrite Rabs_R0. apply Rmult_le_pos; [apply Rabs_pos|lra].
Qed.

Lemma mean_near s t a b c d a' b' c' d' e : - / 8 <= s <= 9 / 8 -> - / 8 <= t <= 9 / 8 ->
  Rabs (a - a') <= e -> Rabs (b - b') <= e -> Rabs (c - c') <= e -> Rabs (d - d') <= e ->
  Rabs (((1 - s) * (1 - t) * a + s * (1 - t) * b + (1 - s) * t * c + s * t * d) - ((1 - s) * (1 - t) * a' + s * (1 - t) * b' + (1 - s) * t * c' + s * t * d')) <= 2 * e.
Proof.
  intros Hs Ht A B C D. assert (E0 : 0 <= e) by (eapply Rle_trans; [apply Rabs_pos|exact A]).
  pose proof (mix_size _ _ s e A B Hs) as M1. pose proof (mix_size _ _ s e C D Hs) as M2.
  pose proof (mix_size _ _ t _ M1 M2 Ht) as M3.
  match type of M3 with Rabs ?x <= _ => match goal with |- Rabs ?y <= _ => replace y with x by ring end end. lra.
Qed.
