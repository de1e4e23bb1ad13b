(** The bounce transform in [float] and [double]: error of the scale and of the
    drawn point. *)

From Coq Require Import ZArith Reals Bool List Lia Lra Psatz.
From Flocq Require Import Core Relative IEEE754.BinarySingleNaN.
From Verif Require Import Num Geometry Steppers Transforms SpecAnim SpecPixel SpecDouble SpecFinal LemReal LemDouble LemFloat LemLinear32 LemProcess LemFinal LemZoom32.
Import ListNotations.
Local Open Scope R_scope.

Lemma is_sub_r (x y : f32) a b : is x a -> is y b -> fits (a - b) -> is (nsub x y) (rnd32 (a - b)).
Proof.
  intros (Fx & <-) (Fy & <-) L. pose proof (Bminus_correct 24 128 _ _ mode_NE x y Fx Fy) as C.
  rewrite Rlt_bool_true in C by exact L. destruct C as (C1 & C2 & _). split; assumption.
Qed.

Lemma prod_near a b c d e f m n : Rabs (a - b) <= e -> Rabs (c - d) <= f -> Rabs b <= m -> Rabs c <= n -> Rabs (a * c - b * d) <= e * n + m * f.
Proof.
  intros A C B N. replace (a * c - b * d) with ((a - b) * c + b * (c - d)) by ring.
  eapply Rle_trans; [apply Rabs_triang|]. rewrite !Rabs_mult. apply Rplus_le_compat; apply Rmult_le_compat; auto using Rabs_pos.
Qed.

Lemma sum_near a b c d e f : Rabs (a - b) <= e -> Rabs (c - d) <= f -> Rabs (a + c - (b + d)) <= e + f.
Proof. intros A C. replace (a + c - (b + d)) with ((a - b) + (c - d)) by ring. eapply Rle_trans; [apply Rabs_triang|lra]. Qed.

(** ** The scale *)

Lemma scale_near (L1 : Libm f32) (L2 : Libm f64) j (pr i mx : f32) n :
  (0 <= j <= 100)%Z -> sound_sine L2 -> is_finite pr = true -> 0 <= B2R pr <= 1 ->
  float_within j i -> float_within j mx -> (0 <= n < 2 ^ 32)%Z ->
  exists k sv, is (bounce_scale (F := f32) (D := f64) pr i mx n) k /\ -1 <= sv <= 1 /\
    Rabs (k - (between (B2R i) 1 (B2R pr) + (B2R mx - B2R i) * (1 - B2R pr) * sv)) <= 17 * (bpow radix2 (-24) * bpow radix2 j) /\
    Rabs k <= 31 / 10 * bpow radix2 j.
Proof.
  intros Hj (Wpi & Ssin) Fp Hp (Fi & Bi) (Fm & Bm) Bn.
  set (K := bpow radix2 j) in *. set (h := bpow radix2 (-24)).
  assert (HK : 1 <= K) by (change 1 with (bpow radix2 0); apply bpow_le; lia).
  assert (Hh0 : 0 < h) by apply bpow_gt_0. assert (Hh : h <= / 10000000) by (unfold h; cbn; lra).
  assert (hK : 0 < h * K) by (apply Rmult_lt_0_compat; lra). assert (hK' : h * K <= / 10000000 * K) by (apply Rmult_le_compat_r; lra).
  assert (S7 : 7 * K <= bpow radix2 120) by (apply seven; exact Hj).
  assert (FT : forall r, Rabs r <= 7 * K -> fits r) by (intros r Hr; apply fits_small; lra).
  set (t := B2R pr) in *. set (a := B2R i) in *. set (m := B2R mx) in *.
  assert (Ii : is i a) by (split; auto). assert (Im : is mx m) by (split; auto). assert (It : is pr t) by (split; auto).
  (* the sine *)
  assert (Sine : exists s, is (sample_sine (F := f32) (D := f64) pr n) s /\ -1 <= s <= 1).
  { unfold sample_sine. pose proof (widen_is _ _ It) as (Fw & Ew).
    assert (Wp : within 0 (widen pr : f64)) by (split; [exact Fw|rewrite Ew, Rabs_pos_eq by lra; cbn; lra]).
    assert (Wn : within 32 (nof n : f64)).
    { destruct (of_ok n) as (A & B); [lia|]. split; [exact A|]. rewrite B, Rabs_right by (apply Rle_ge, IZR_le; lia).
      rewrite <- (IZR_Zpower radix2) by lia. apply IZR_le. change (radix2 ^ 32)%Z with (2 ^ 32)%Z. lia. }
    assert (W : within 0 (tsin (nmul (nmul (widen pr) tpi) (nof n)))).
    { apply Ssin. apply (within_mul 2 32); [lia| |exact Wn]. apply (within_mul 0 2); [lia|exact Wp|exact Wpi]. }
    eexists. split; [apply narrow_is; apply (within_up 0); [lia|exact W]|]. destruct W as (_ & W). cbn [bpow] in W.
    assert (G : Rabs (rnd32 (B2R (tsin (nmul (nmul (widen pr) tpi) (nof n))))) <= 1).
    { change 1 with (bpow radix2 0). apply abs_round_le_generic; [apply fexp_correct; reflexivity|apply valid_rnd_round_mode| |exact W].
      apply generic_format_bpow. cbn. lia. }
    apply Rabs_le_inv in G. exact G. }
  destruct Sine as (sv & Is & Bs).
  assert (As : Rabs sv <= 1) by (apply Rabs_le; lra).
  apply Rabs_le_inv in Bi. apply Rabs_le_inv in Bm.
  assert (E0 : forall x, Rabs (x - x) <= 0 * (h * K)) by (intros x; rewrite Rminus_diag_eq, Rabs_R0 by reflexivity; lra).
  (* maximum - initial *)
  assert (S1 : Rabs (m - a) <= 2 * K) by (apply Rabs_le; lra).
  destruct (round_step K h eq_refl HK _ _ _ _ (E0 (m - a)) S1) as (A1 & A2); try lra.
  assert (I1 : is (nsub mx i) (rnd32 (m - a))) by (apply is_sub_r; auto; apply FT; lra).
  set (d1 := rnd32 (m - a)) in *. clearbody d1.
  (* 1 - progress *)
  assert (EF : bpow radix2 (-150) <= h / 1000000).
  { apply Rle_trans with (bpow radix2 (-24 + -20)); [apply bpow_le; lia|]. rewrite bpow_plus. fold h.
    assert (bpow radix2 (-20) <= / 1000000) by (cbn; lra). apply Rmult_le_compat_l; lra. }
  assert (O1 : Rabs (rnd32 (1 - t) - (1 - t)) <= 101 / 100 * h).
  { eapply Rle_trans; [apply rnd_rel|]. fold h. rewrite (Rabs_pos_eq (1 - t)) by lra.
    assert (h * (1 - t) <= h * 1) by (apply Rmult_le_compat_l; lra). lra. }
  assert (I2 : is (nsub (nof 1) pr) (rnd32 (1 - t))).
  { apply is_sub_r; [exact one32|exact It|]. apply FT. rewrite Rabs_pos_eq by lra. lra. }
  set (om := rnd32 (1 - t)) in *. clearbody om.
  assert (O2 : Rabs (1 - t) <= 1) by (apply Rabs_le; lra).
  (* range *)
  assert (R1 : Rabs (d1 * om - (m - a) * (1 - t)) <= 404 / 100 * (h * K)).
  { pose proof (near_size _ _ _ _ O1 O2) as O3.
    eapply Rle_trans; [apply (prod_near _ _ _ _ _ _ _ _ A1 O1 S1 O3)|].
    assert ((0 + 2 + 1 / 1000) * (h * K) * (1 + 101 / 100 * h) <= (0 + 2 + 1 / 1000) * (h * K) * (1001 / 1000)) by (apply Rmult_le_compat_l; lra). lra. }
  assert (R2 : Rabs ((m - a) * (1 - t)) <= 2 * K).
  { rewrite Rabs_mult. replace (2 * K) with (2 * K * 1) by ring. apply Rmult_le_compat; auto using Rabs_pos. }
  destruct (round_step K h eq_refl HK _ _ _ _ R1 R2) as (R3 & R4); try lra.
  assert (I3 : is (nmul (nsub mx i) (nsub (nof 1) pr)) (rnd32 (d1 * om))).
  { apply is_mul_r; auto. apply FT. pose proof (near_size _ _ _ _ R1 R2). lra. }
  set (rg := rnd32 (d1 * om)) in *. clearbody rg.
  (* range * sine *)
  assert (Q1 : Rabs (rg * sv - (m - a) * (1 - t) * sv) <= 605 / 100 * (h * K)).
  { replace (rg * sv - (m - a) * (1 - t) * sv) with ((rg - (m - a) * (1 - t)) * sv) by ring. rewrite Rabs_mult.
    replace (605 / 100 * (h * K)) with (605 / 100 * (h * K) * 1) by ring. apply Rmult_le_compat; auto using Rabs_pos; lra. }
  assert (Q2 : Rabs ((m - a) * (1 - t) * sv) <= 2 * K).
  { rewrite Rabs_mult. replace (2 * K) with (2 * K * 1) by ring. apply Rmult_le_compat; auto using Rabs_pos. }
  destruct (round_step K h eq_refl HK _ _ _ _ Q1 Q2) as (Q3 & Q4); try lra.
  assert (I4 : is (nmul (nmul (nsub mx i) (nsub (nof 1) pr)) (sample_sine (F := f32) (D := f64) pr n)) (rnd32 (rg * sv))).
  { apply is_mul_r; auto. apply FT. pose proof (near_size _ _ _ _ Q1 Q2). lra. }
  set (rs := rnd32 (rg * sv)) in *. clearbody rs.
  (* floor *)
  assert (T1 : Rabs (1 - a) <= 2 * K) by (apply Rabs_le; lra).
  destruct (round_step K h eq_refl HK _ _ _ _ (E0 (1 - a)) T1) as (B1 & B2); try lra.
  assert (I5 : is (nsub (nof 1) i) (rnd32 (1 - a))) by (apply is_sub_r; [exact one32|exact Ii|apply FT; lra]).
  set (d2 := rnd32 (1 - a)) in *. clearbody d2.
  assert (At : Rabs t <= 1) by (apply Rabs_le; lra).
  assert (C1 : Rabs (d2 * t - (1 - a) * t) <= 201 / 100 * (h * K)).
  { replace (d2 * t - (1 - a) * t) with ((d2 - (1 - a)) * t) by ring. rewrite Rabs_mult.
    replace (201 / 100 * (h * K)) with (201 / 100 * (h * K) * 1) by ring. apply Rmult_le_compat; auto using Rabs_pos; lra. }
  assert (C2 : Rabs ((1 - a) * t) <= 2 * K).
  { rewrite Rabs_mult. replace (2 * K) with (2 * K * 1) by ring. apply Rmult_le_compat; auto using Rabs_pos. }
  destruct (round_step K h eq_refl HK _ _ _ _ C1 C2) as (C3 & C4); try lra.
  assert (I6 : is (nmul (nsub (nof 1) i) pr) (rnd32 (d2 * t))).
  { apply is_mul_r; auto. apply FT. pose proof (near_size _ _ _ _ C1 C2). lra. }
  set (d3 := rnd32 (d2 * t)) in *. clearbody d3.
  assert (F1 : Rabs (a + d3 - between a 1 t) <= 402 / 100 * (h * K)).
  { replace (a + d3 - between a 1 t) with (d3 - (1 - a) * t) by (unfold between; ring). lra. }
  assert (F2 : Rabs (between a 1 t) <= 1 * K).
  { unfold between. assert ((1 - t) * a <= (1 - t) * K) by (apply Rmult_le_compat_l; lra).
    assert ((1 - t) * - K <= (1 - t) * a) by (apply Rmult_le_compat_l; lra).
    assert (t * 1 <= t * K) by (apply Rmult_le_compat_l; lra). apply Rabs_le. lra. }
  destruct (round_step K h eq_refl HK _ _ _ _ F1 F2) as (F3 & F4); try lra.
  assert (I7 : is (nadd i (nmul (nsub (nof 1) i) pr)) (rnd32 (a + d3))).
  { apply is_add_r; auto. apply FT. pose proof (near_size _ _ _ _ F1 F2). lra. }
  set (fl := rnd32 (a + d3)) in *. clearbody fl.
  (* sum *)
  assert (G1 : Rabs (fl + rs - (between a 1 t + (m - a) * (1 - t) * sv)) <= 131 / 10 * (h * K)).
  { eapply Rle_trans; [apply (sum_near _ _ _ _ _ _ F3 Q3)|]. lra. }
  assert (G2 : Rabs (between a 1 t + (m - a) * (1 - t) * sv) <= 3 * K) by (eapply Rle_trans; [apply Rabs_triang|lra]).
  destruct (round_step K h eq_refl HK _ _ _ _ G1 G2) as (G3 & G4); try lra.
  exists (rnd32 (fl + rs)), sv. split; [|split; [exact Bs|split; lra]].
  unfold bounce_scale. cbv zeta. apply is_add_r; auto. apply FT. pose proof (near_size _ _ _ _ G1 G2). lra.
Qed.

Lemma scale_start (L1 : Libm f32) (L2 : Libm f64) (pr i mx : f32) n :
  sound_sine L2 -> (forall x : f64, is x 0 -> is (tsin x) 0) -> is pr 0 -> float_within 100 i -> float_within 100 mx -> (0 <= n < 2 ^ 32)%Z ->
  is (bounce_scale (F := f32) (D := f64) pr i mx n) (B2R i).
Proof.
  intros (Wpi & Ssin) S0 P (Fi & Bi) (Fm & Bm) Bn.
  assert (Ii : is i (B2R i)) by (split; auto). assert (Im : is mx (B2R mx)) by (split; auto).
  assert (Sv : is (sample_sine (F := f32) (D := f64) pr n) 0).
  { unfold sample_sine. apply narrow_exact; [|apply rep_0]. apply S0. pose proof (widen_is _ _ P) as Wp.
    destruct (of_ok n ltac:(lia)) as (Fn & Vn). destruct Wpi as (Fpi & _).
    eapply is_mul; [eapply is_mul; [exact Wp|split; [exact Fpi|reflexivity]|reflexivity|rewrite Rmult_0_l; apply rep_0]|split; [exact Fn|reflexivity]| |apply rep_0].
    ring. }
  assert (L : bpow radix2 100 + bpow radix2 100 <= bpow radix2 120).
  { pose proof (seven 100 ltac:(lia)). pose proof (bpow_gt_0 radix2 100). lra. }
  assert (L1' : 1 <= bpow radix2 100) by (change 1 with (bpow radix2 0); apply bpow_le; lia).
  apply Rabs_le_inv in Bi. apply Rabs_le_inv in Bm.
  assert (I1 : is (nsub mx i) (rnd32 (B2R mx - B2R i))) by (apply is_sub_r; auto; apply fits_small, Rabs_le; lra).
  assert (I2 : is (nsub (nof 1) i) (rnd32 (1 - B2R i))) by (apply is_sub_r; [exact one32|exact Ii|apply fits_small, Rabs_le; lra]).
  assert (I3 : is (nsub (nof 1) pr) 1) by (eapply is_sub; [exact one32|exact P|lra|eexists; exact one32]).
  unfold bounce_scale. cbv zeta. set (d1 := nsub mx i) in *. set (d2 := nsub (nof 1) i) in *. set (d3 := nsub (nof 1) pr) in *.
  set (sn := sample_sine pr n) in *. clearbody d1 d2 d3 sn. ex.
Qed.

(** ** The drawn point, one axis *)

Lemma bounce_axis_real K M k tw x o0 x0 : 1 <= K -> 1 <= M ->
  let h := bpow radix2 (-24) in
  Rabs k <= 31 / 10 * K -> Rabs tw <= 2 * M -> Rabs x <= 2 * M -> Rabs (x - tw / 2) <= M ->
  Rabs (o0 - tw / 2) <= 102 / 100 * (h * M) -> Rabs (x0 - x) <= 202 / 100 * (h * M) ->
  Rabs (k * - o0) <= 7 * (K * M) /\ Rabs (rnd32 (k * - o0) + o0) <= 7 * (K * M) /\ Rabs (k * x0) <= 7 * (K * M) /\
  Rabs (rnd32 (k * x0) + rnd32 (rnd32 (k * - o0) + o0)) <= 7 * (K * M) /\
  Rabs (rnd32 (rnd32 (k * x0) + rnd32 (rnd32 (k * - o0) + o0)) - (tw / 2 + k * (x - tw / 2))) <= 32 * (h * (K * M)).
Proof.
  intros HK HM h Hk Htw Hx Hxc Ho Hx0.
  assert (Hh0 : 0 < h) by apply bpow_gt_0. assert (Hh : h <= / 10000000) by (unfold h; cbn; lra).
  assert (MK : M <= K * M) by (rewrite <- (Rmult_1_l M) at 1; apply Rmult_le_compat_r; lra).
  set (U := K * M) in *. assert (HU : 1 <= U) by lra.
  assert (hU : 0 < h * U) by (apply Rmult_lt_0_compat; lra). assert (hU' : h * U <= / 10000000 * U) by (apply Rmult_le_compat_r; lra).
  assert (hM : h * M <= h * U) by (apply Rmult_le_compat_l; lra).
  assert (KB : forall y B, Rabs y <= B -> 0 <= B -> Rabs (k * y) <= 31 / 10 * K * B) by (intros y B Hy HB; rewrite Rabs_mult; apply Rmult_le_compat; auto using Rabs_pos).
  assert (U1 : 31 / 10 * K * (2 * M) = 62 / 10 * U) by (unfold U; field).
  assert (U2 : 31 / 10 * K * M = 31 / 10 * U) by (unfold U; field).
  assert (Htw2 : Rabs (tw / 2) <= M) by (apply Rabs_le_inv in Htw; apply Rabs_le; lra).
  (* k x *)
  assert (A1 : Rabs (k * x0 - k * x) <= 63 / 10 * (h * U)).
  { replace (k * x0 - k * x) with (k * (x0 - x)) by ring. eapply Rle_trans; [apply (KB _ _ Hx0)|].
    - assert (0 < h * M) by (apply Rmult_lt_0_compat; lra). lra.
    - replace (31 / 10 * K * (202 / 100 * (h * M))) with (202 / 100 * (31 / 10) * (h * U)) by (unfold U; field). lra. }
  assert (A2 : Rabs (k * x) <= 62 / 10 * U) by (rewrite <- U1; apply KB; [exact Hx|lra]).
  destruct (round_step U h eq_refl HU _ _ _ _ A1 A2) as (A3 & A4); try lra.
  (* - k o *)
  assert (B1 : Rabs (k * - o0 - - (k * (tw / 2))) <= 317 / 100 * (h * U)).
  { replace (k * - o0 - - (k * (tw / 2))) with (- (k * (o0 - tw / 2))) by ring. rewrite Rabs_Ropp. eapply Rle_trans; [apply (KB _ _ Ho)|].
    - assert (0 < h * M) by (apply Rmult_lt_0_compat; lra). lra.
    - replace (31 / 10 * K * (102 / 100 * (h * M))) with (102 / 100 * (31 / 10) * (h * U)) by (unfold U; field). lra. }
  assert (B2 : Rabs (- (k * (tw / 2))) <= 31 / 10 * U) by (rewrite Rabs_Ropp, <- U2; apply KB; [exact Htw2|lra]).
  destruct (round_step U h eq_refl HU _ _ _ _ B1 B2) as (B3 & B4); try lra.
  (* + o *)
  assert (Ho' : Rabs (o0 - tw / 2) <= 102 / 100 * (h * U)) by lra.
  assert (C1 : Rabs (rnd32 (k * - o0) + o0 - (- (k * (tw / 2)) + tw / 2)) <= 73 / 10 * (h * U)).
  { eapply Rle_trans; [apply (sum_near _ _ _ _ _ _ B3 Ho')|]. lra. }
  assert (C2 : Rabs (- (k * (tw / 2)) + tw / 2) <= 41 / 10 * U) by (eapply Rle_trans; [apply Rabs_triang|lra]).
  destruct (round_step U h eq_refl HU _ _ _ _ C1 C2) as (C3 & C4); try lra.
  (* sum *)
  assert (D1 : Rabs (rnd32 (k * x0) + rnd32 (rnd32 (k * - o0) + o0) - (k * x + (- (k * (tw / 2)) + tw / 2))) <= 24 * (h * U)).
  { eapply Rle_trans; [apply (sum_near _ _ _ _ _ _ A3 C3)|]. lra. }
  assert (EQ : k * x + (- (k * (tw / 2)) + tw / 2) = tw / 2 + k * (x - tw / 2)) by ring. rewrite EQ in D1.
  assert (D2 : Rabs (tw / 2 + k * (x - tw / 2)) <= 41 / 10 * U).
  { eapply Rle_trans; [apply Rabs_triang|]. pose proof (KB _ _ Hxc ltac:(lra)). lra. }
  destruct (round_step U h eq_refl HU _ _ _ _ D1 D2) as (D3 & D4); try lra.
  pose proof (near_size _ _ _ _ A1 A2). pose proof (near_size _ _ _ _ B1 B2). pose proof (near_size _ _ _ _ C1 C2). pose proof (near_size _ _ _ _ D1 D2).
  repeat split; lra.
Qed.

Lemma bounce_axis_double k (tl tr x : f64) : (0 <= k <= 100)%Z ->
  within k tl -> within k tr -> is_finite x = true -> Rabs (B2R x) <= 2 * bpow radix2 k ->
  let M := bpow radix2 k in let h := bpow radix2 (-24) in
  let tw := B2R tr - B2R tl in let off := ndiv (nsub tr tl) (nof 2) in
  exists o0 x0,
    is (narrow off : f32) o0 /\ is (narrow (nmul (nof (-1)) off) : f32) (- o0) /\ is (narrow x : f32) x0 /\ Rabs tw <= 2 * M /\
    Rabs (o0 - tw / 2) <= 102 / 100 * (h * M) /\ Rabs (x0 - B2R x) <= 202 / 100 * (h * M).
Proof.
  intros Hk (Ftl & Ltl) (Ftr & Ltr) Fx Hx M h tw off. fold M in Hx, Ltl, Ltr.
  assert (HM : 1 <= M) by (change 1 with (bpow radix2 0); apply bpow_le; lia).
  assert (Hh0 : 0 < h) by apply bpow_gt_0. assert (Hh : h <= / 10000000) by (unfold h; cbn; lra).
  assert (hM : 0 < h * M) by (apply Rmult_lt_0_compat; lra). assert (hM' : h * M <= / 10000000 * M) by (apply Rmult_le_compat_r; lra).
  set (d := bpow radix2 (k - 53)).
  assert (Dh : d <= h * M / 100000000).
  { assert (Hd : d = bpow radix2 (-53) * M) by (unfold d, M; rewrite <- bpow_plus; f_equal; lia). rewrite Hd.
    assert (bpow radix2 (-53) <= h / 100000000) by (unfold h; cbn; lra).
    apply Rle_trans with (h / 100000000 * M); [apply Rmult_le_compat_r; lra|lra]. }
  assert (P1 : bpow radix2 (k + 1) = 2 * M) by (unfold M; rewrite bpow_plus; cbn; lra).
  assert (Q1 : bpow radix2 (k + 1 - 54) = d) by (unfold d; f_equal; lia).
  assert (Q0 : bpow radix2 (k - 54) = d / 2) by (replace (k - 54)%Z with (-1 + (k - 53))%Z by lia; unfold d; rewrite bpow_plus; cbn; lra).
  assert (EF : bpow radix2 (-150) <= h / 1000000).
  { apply Rle_trans with (bpow radix2 (-24 + -20)); [apply bpow_le; lia|]. rewrite bpow_plus. fold h.
    assert (bpow radix2 (-20) <= / 1000000) by (cbn; lra). apply Rmult_le_compat_l; lra. }
  assert (EM : h / 1000000 * 1 <= h / 1000000 * M) by (apply Rmult_le_compat_l; lra).
  apply Rabs_le_inv in Ltl. apply Rabs_le_inv in Ltr. destruct (of_ok 2 ltac:(lia)) as (F2 & V2).
  assert (Btw : Rabs tw <= 2 * M) by (unfold tw; apply Rabs_le; lra).
  destruct (sub_ok (k + 1) ltac:(lia) tr tl Ftr Ftl) as (Ftw & Vtw). { rewrite P1. exact Btw. }
  set (TW := nsub tr tl) in *. fold tw in Vtw.
  assert (Etw : Rabs (B2R TW - tw) <= d) by (rewrite Vtw, <- Q1; apply rd_err; [lia|rewrite P1; exact Btw]).
  assert (Ltw : Rabs (B2R TW) <= 2 * M) by (rewrite Vtw, <- P1; apply rd_bound; [lia|rewrite P1; exact Btw]).
  assert (Hlf : Rabs (B2R TW / B2R (nof 2 : f64)) <= bpow radix2 k) by (rewrite V2; fold M; apply Rabs_le_inv in Ltw; apply Rabs_le; lra).
  destruct (div_ok k ltac:(lia) TW (nof 2) Ftw ltac:(rewrite V2; lra) Hlf) as (Fo & Vo). fold off in Fo, Vo. rewrite V2 in Vo, Hlf.
  assert (Eo : Rabs (B2R off - tw / 2) <= d).
  { rewrite Vo. pose proof (rd_err k _ ltac:(lia) Hlf) as Z. rewrite Q0 in Z. apply Rabs_le_inv in Z. apply Rabs_le_inv in Etw. apply Rabs_le. lra. }
  assert (Bo : Rabs (B2R off) <= M) by (rewrite Vo; apply rd_bound; [lia|exact Hlf]).
  assert (L126 : 2 * M <= bpow radix2 126) by (rewrite <- P1; apply bpow_le; lia).
  assert (Wo : within 126 off) by (split; [exact Fo|lra]). assert (Wx : within 126 x) by (split; [exact Fx|lra]).
  exists (rnd32 (B2R off)), (rnd32 (B2R x)).
  split; [apply narrow_is; exact Wo|]. split; [apply narrow_neg; [exact Wo|apply narrow_is; exact Wo]|]. split; [apply narrow_is; exact Wx|].
  split; [exact Btw|]. split.
  - pose proof (rnd_rel (B2R off)) as Z. fold h in Z. pose proof (tri _ _ _ _ _ Z Eo).
    assert (h * Rabs (B2R off) <= h * M) by (apply Rmult_le_compat_l; lra). lra.
  - eapply Rle_trans; [apply rnd_rel|]. fold h. assert (h * Rabs (B2R x) <= h * (2 * M)) by (apply Rmult_le_compat_l; lra). lra.
Qed.

(** ** Both axes *)

Lemma bounce_draws (L1 : Libm f32) (L2 : Libm f64) k j (pr i mx : f32) n (b : box f64) s (p : vec f64) u v :
  (0 <= k)%Z -> (0 <= j)%Z -> (k + j <= 100)%Z -> box_within k b ->
  is (bounce_scale (F := f32) (D := f64) pr i mx n) s -> Rabs s <= 31 / 10 * bpow radix2 j -> lies_at p (real_box b) u v ->
  let c := on_surface (real_box b) (1 / 2) (1 / 2) in
  drawn_near (bpow radix2 (k + j - 19)) (transform_point p (bounce_transform pr i mx n b))
    (vx c + s * (B2R (vx p) - vx c)) (vy c + s * (B2R (vy p) - vy c)).
Proof.
  intros Hk Hj Hkj ((Atx & Aty) & (Btx & Bty)) Is Bs ((Fx & Fy) & Hu & Hv & E) c.
  set (wx := B2R (vx (b_br b)) - B2R (vx (b_tl b))). set (wy := B2R (vy (b_br b)) - B2R (vy (b_tl b))).
  assert (Ex : B2R (vx p) = u * wx) by (apply (f_equal vx) in E; exact E).
  assert (Ey : B2R (vy p) = v * wy) by (apply (f_equal vy) in E; exact E).
  assert (Cx : vx c = wx / 2) by (unfold c, on_surface, wx; cbn [vx vy real_box real_point b_tl b_br]; field).
  assert (Cy : vy c = wy / 2) by (unfold c, on_surface, wy; cbn [vx vy real_box real_point b_tl b_br]; field).
  rewrite Cx, Cy. set (M := bpow radix2 k). set (K := bpow radix2 j) in *.
  assert (HM : 1 <= M) by (change 1 with (bpow radix2 0); apply bpow_le; lia).
  assert (HK : 1 <= K) by (change 1 with (bpow radix2 0); apply bpow_le; lia).
  assert (PART : forall w y, Rabs w <= 2 * M -> 0 <= y <= 1 -> Rabs (y * w) <= 2 * M /\ Rabs (y * w - w / 2) <= M).
  { intros w y Hw Hy. split.
    - rewrite Rabs_mult, (Rabs_pos_eq y) by lra. apply Rle_trans with (1 * (2 * M)); [|lra]. apply Rmult_le_compat; auto using Rabs_pos; lra.
    - replace (y * w - w / 2) with ((y - 1 / 2) * w) by field. rewrite Rabs_mult. apply Rle_trans with (1 / 2 * (2 * M)); [|lra].
      apply Rmult_le_compat; auto using Rabs_pos. apply Rabs_le. lra. }
  assert (BW : forall tl tr : f64, within k tl -> within k tr -> Rabs (B2R tr - B2R tl) <= 2 * M).
  { intros tl tr (_ & A) (_ & B). apply Rabs_le_inv in A. apply Rabs_le_inv in B. fold M in A, B. apply Rabs_le. lra. }
  destruct (PART wx u (BW _ _ Atx Btx) Hu) as (Px1 & Px2). destruct (PART wy v (BW _ _ Aty Bty) Hv) as (Py1 & Py2).
  rewrite <- Ex in Px1, Px2. rewrite <- Ey in Py1, Py2.
  destruct (bounce_axis_double k _ _ (vx p) ltac:(lia) Atx Btx Fx Px1) as (ox & x0 & Iox & Jox & Ix & X1 & X2 & X3). fold wx in X1, X2. fold M in X1, X2, X3.
  destruct (bounce_axis_double k _ _ (vy p) ltac:(lia) Aty Bty Fy Py1) as (oy & y0 & Ioy & Joy & Iy & Y1 & Y2 & Y3). fold wy in Y1, Y2. fold M in Y1, Y2, Y3.
  destruct (bounce_axis_real K M s _ _ _ _ HK HM Bs X1 Px1 Px2 X2 X3) as (KX1 & KX2 & KX3 & KX4 & KX5).
  destruct (bounce_axis_real K M s _ _ _ _ HK HM Bs Y1 Py1 Py2 Y2 Y3) as (KY1 & KY2 & KY3 & KY4 & KY5).
  assert (KM : K * M = bpow radix2 (k + j)) by (unfold K, M; rewrite <- bpow_plus; f_equal; lia).
  assert (S7 : 7 * (K * M) <= bpow radix2 120) by (rewrite KM; apply seven; lia).
  assert (LM : M <= K * M) by (rewrite <- (Rmult_1_l M) at 1; apply Rmult_le_compat_r; lra).
  assert (LK : K <= K * M) by (rewrite <- (Rmult_1_r K) at 1; apply Rmult_le_compat_l; lra).
  assert (U0 : 0 < K * M) by lra.
  assert (Z32 : is (narrow (nzero : f64) : f32) 0) by (apply narrow_exact; [exact zero64|apply rep_0]).
  assert (O32 : is (narrow (nof 1 : f64) : f32) 1) by (apply narrow_exact; [exact one64|eexists; exact one32]).
  assert (FT : forall r, Rabs r <= 7 * (K * M) -> fits r) by (intros r Hr; apply fits_small; lra).
  assert (Z0 : Rabs 0 <= K * M) by (rewrite Rabs_R0; lra).
  assert (Bs' : Rabs s <= 31 / 10 * (K * M)) by lra.
  assert (Oy : forall w o, Rabs w <= 2 * M -> Rabs (o - w / 2) <= 102 / 100 * (bpow radix2 (-24) * M) -> Rabs o <= 2 * (K * M)).
  { intros w o Hw Ho. assert (Rabs (w / 2) <= M) by (apply Rabs_le_inv in Hw; apply Rabs_le; lra). pose proof (near_size _ _ _ _ Ho H).
    assert (bpow radix2 (-24) * M <= / 1000 * M) by (apply Rmult_le_compat_r; [lra|cbn; lra]). lra. }
  pose proof (Oy _ _ X1 X2) as Box. pose proof (Oy _ _ Y1 Y2) as Boy.
  unfold transform_point, bounce_transform. cbv zeta. cbn [vx vy box_center_offset].
  pose proof (diag_translate _ _ _ _ _ Iox Ioy Z32) as D1. pose proof (diag_scale _ _ _ _ _ Is Is one32) as D2.
  pose proof (diag_mul _ _ _ _ _ _ _ _ _ _ D1 D2) as D3.
  rewrite !Rmult_1_l, rnd_0, !Rplus_0_l, (rnd_of _ _ Is), (rnd_of _ _ Iox), (rnd_of _ _ Ioy) in D3.
  do 6 (match type of D3 with ?P -> _ => let K := fresh in assert (K : P) by fit; specialize (D3 K); clear K end).
  pose proof (diag_translate _ _ _ _ _ Jox Joy Z32) as D4. pose proof (diag_mul _ _ _ _ _ _ _ _ _ _ D3 D4) as D5.
  rewrite !Rmult_1_r, (rnd_of _ _ Is) in D5.
  do 6 (match type of D5 with ?P -> _ => let K := fresh in assert (K : P) by fit; specialize (D5 K); clear K end).
  set (m := m_mul _ (m_translate m_id (narrow (nmul (nof (-1)) _)) _ _)) in *. clearbody m.
  assert (V : is4 (mk4 (narrow (vx p)) (narrow (vy p)) (narrow (nzero : f64)) (narrow (nof 1 : f64)) : vec4 f32) x0 y0 0 1) by (repeat split; try apply Ix; try apply Iy; try apply Z32; try apply O32).
  pose proof (diag_apply _ _ _ _ _ _ _ _ D5 V) as D8.
  do 4 (match type of D8 with ?P -> _ => let K := fresh in assert (K : P) by fit; specialize (D8 K); clear K end).
  destruct D8 as (Q1 & Q2 & Q3 & Q4). apply widen_is in Q1, Q2, Q3, Q4.
  assert (U : 32 * (bpow radix2 (-24) * (K * M)) = bpow radix2 (k + j - 19)).
  { rewrite KM, <- bpow_plus. replace (k + j - 19)%Z with (5 + (-24 + (k + j)))%Z by lia. rewrite (bpow_plus radix2 5). cbn [bpow]. reflexivity. }
  rewrite U in KX5, KY5.
  destruct Q1 as (P1 & Q1), Q2 as (P2 & Q2), Q3 as (P3 & Q3), Q4 as (P4 & Q4).
  unfold drawn_near. cbn [v4x v4y v4z v4w]. rewrite Q1, Q2, Q3, Q4.
  repeat (split; [assumption|]). repeat split; assumption.
Qed.
