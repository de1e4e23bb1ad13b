(** What the matchers accept. *)

From Coq Require Import ZArith Reals Bool List Lia Lra.
From Flocq Require Import Core IEEE754.BinarySingleNaN.
From Verif Require Import Num Geometry Outcome Matchers SpecDouble LemReal LemDouble.
Import ListNotations.
Local Open Scope R_scope.

(** ** The loop *)

Lemma all_of {A} (g : A -> bool) l : forall ok, fold_left (fun ok x => if g x then ok else false) l ok = (ok && forallb g l)%bool.
Proof. induction l as [|x l IH]; intros ok; cbn [fold_left forallb]; [rewrite andb_true_r; reflexivity|]. rewrite IH. destruct (g x), ok; reflexivity. Qed.

Lemma satisfies_iff {T} `{Num T} (create : factory) n (tol : T) f :
  satisfies_model create n tol f = true <->
  forall i, (i < n)%nat -> nltb (nabs (nsub (f (2 ^ Z.of_nat i)%Z) (create f (2 ^ Z.of_nat n)%Z (nof (2 ^ Z.of_nat i)%Z)))) tol = true.
Proof.
  unfold satisfies_model. rewrite (all_of (fun i => close_at_tolerance (create f (2 ^ Z.of_nat n)%Z (nof (2 ^ Z.of_nat i)%Z)) (nth i (map f (powers n)) nzero) tol)).
  cbn [andb]. rewrite forallb_forall. rewrite map_length. unfold powers at 1. rewrite map_length, seq_length.
  assert (E : forall i, (i < n)%nat -> nth i (map f (powers n)) nzero = f (2 ^ Z.of_nat i)%Z).
  { intros i Hi. unfold powers. rewrite map_map. rewrite (nth_indep _ _ (f (2 ^ Z.of_nat 0)%Z)) by (rewrite map_length, seq_length; exact Hi).
    rewrite (map_nth (fun i => f (2 ^ Z.of_nat i)%Z)), seq_nth by exact Hi. reflexivity. }
  split; intros X i Hi.
  - specialize (X i). rewrite in_seq, E in X by lia. apply X. lia.
  - apply in_seq in Hi. rewrite E by lia. apply X. lia.
Qed.

(** ** Real numbers *)

Lemma pow2_R i : IZR (2 ^ Z.of_nat i) = 2 ^ i.
Proof. rewrite <- pow_IZR. reflexivity. Qed.

Lemma satisfies_R create n tol (f : Z -> R) :
  satisfies_model create n tol f = true <->
  forall i, (i < n)%nat -> Rabs (f (2 ^ Z.of_nat i)%Z - create f (2 ^ Z.of_nat n)%Z (2 ^ i)) < tol.
Proof.
  rewrite satisfies_iff. split; intros X i Hi; specialize (X i Hi); rnum; rewrite ?pow2_R in *; unfold Rltb in *; destruct (Rlt_dec _ _); auto; discriminate.
Qed.

Lemma ln_pow2 i : ln (2 ^ i) = INR i * ln 2.
Proof. rewrite <- Rpower_pow by lra. unfold Rpower. rewrite ln_exp. reflexivity. Qed.

Lemma parabolic_exact a m c (f : Z -> R) n i : a <> 0 -> f 0%Z = c -> (forall x, (0 < x)%Z -> f x = a * Rpower (IZR x) m + c) -> (i < n)%nat ->
  parabolic_model ln Rpower f (2 ^ Z.of_nat n)%Z (2 ^ i) = a * Rpower (2 ^ i) m + c.
Proof.
  intros A F0 F Hi. assert (L2 : 0 < ln 2) by (rewrite <- ln_1; apply ln_increasing; lra).
  assert (Hn : 0 < INR n) by (apply lt_0_INR; lia).
  unfold parabolic_model. rnum. rewrite F0, (F 1%Z) by lia. rewrite (F (2 ^ Z.of_nat n)%Z) by (apply Z.pow_pos_nonneg; lia). rewrite pow2_R.
  assert (E1 : Rpower (IZR 1) m = 1) by (unfold Rpower; rewrite ln_1, Rmult_0_r, exp_0; reflexivity). rewrite E1.
  replace ((a * Rpower (2 ^ n) m + c - c) / (a * 1 + c - c)) with (Rpower (2 ^ n) m) by (field; lra).
  unfold Rpower at 2. rewrite ln_exp. replace (m * ln (2 ^ n) / ln (2 ^ n)) with m by (field; rewrite ln_pow2; apply Rgt_not_eq, Rmult_lt_0_compat; auto). ring.
Qed.

(** The rate the decay model computes. *)
Lemma decay_rate a w c (f : Z -> R) n t : 0 < a -> f 0%Z = a + c -> f 1%Z = a * exp (- w) + c -> 1 + ln a <> 0 -> ln a - w <> 0 ->
  decay_model ln Rpower (exp 1) c f n t = a * exp (- ((w - ln a) / (1 + ln a) * t)) + c.
Proof.
  intros A F0 F1 N1 N2. unfold decay_model, solve_e_coeff, solve_x_coeff. rnum. rewrite F0, F1.
  replace (a + c - c) with a by ring. replace (a * exp (- w) + c - c) with (a * exp (- w)) by ring.
  rewrite !ln_mult, !ln_exp by (auto; apply exp_pos). unfold Rpower. rewrite ln_exp, Rmult_1_r.
  do 3 f_equal. field. split; lra.
Qed.

(** ** [double] *)

Lemma nan_sub (x : f64) : nsub x (B754_nan : f64) = B754_nan.
Proof. destruct x; reflexivity. Qed.
Lemma nan_ltb (x : f64) : nltb (B754_nan : f64) x = false.
Proof. destruct x; reflexivity. Qed.
Lemma nan_add (x : f64) : nadd (B754_nan : f64) x = B754_nan.
Proof. destruct x; reflexivity. Qed.
Lemma nan_mul (x : f64) : nmul x (B754_nan : f64) = B754_nan.
Proof. destruct x; reflexivity. Qed.
Lemma nan_div (x : f64) : ndiv (B754_nan : f64) x = B754_nan.
Proof. destruct x; reflexivity. Qed.

Lemma self_quotient (x : f64) : ndiv (nsub x x) (nsub x x) = (B754_nan : f64).
Proof.
  destruct (is_finite x) eqn:Fx.
  - destruct (sub_ok 0 ltac:(lia) x x Fx Fx) as (Fs & Bs); [rewrite Rminus_eq_0, Rabs_R0; apply bpow_ge_0|].
    rewrite Rminus_eq_0 in Bs. rewrite rd_0 in Bs. destruct (nsub x x) as [s| | |s m e H]; try discriminate Fs; [destruct s; reflexivity|].
    exfalso. cbn in Bs. apply eq_0_F2R in Bs. cbn in Bs. destruct s; discriminate Bs.
  - destruct x as [s|s| |s m e H]; try discriminate Fx; [destruct s|]; reflexivity.
Qed.

Definition eps : R := 8796093 * bpow radix2 (-43).

Lemma eps_ok : is_finite epsilon64 = true /\ B2R epsilon64 = eps.
Proof.
  split; [vm_compute; reflexivity|].
  assert (E : B2SF epsilon64 = SpecFloat.S754_finite false 4722366470946816 (-72)) by (vm_compute; reflexivity).
  rewrite <- SF2R_B2SF, E. unfold SF2R, F2R, eps. cbn [Fnum Fexp cond_Zopp]. change (Zpos 4722366470946816) with (8796093 * 2 ^ 29)%Z.
  rewrite mult_IZR. change 2%Z with (radix_val radix2). rewrite IZR_Zpower by lia. replace (bpow radix2 (-43)) with (bpow radix2 29 * bpow radix2 (-72)) by (rewrite <- bpow_plus; reflexivity). ring.
Qed.

Lemma smallest_ok : is_finite smallest64 = true /\ B2R smallest64 = bpow radix2 (-1022).
Proof.
  split; [vm_compute; reflexivity|].
  assert (E : B2SF smallest64 = SpecFloat.S754_finite false 4503599627370496 (-1074)) by (vm_compute; reflexivity).
  rewrite <- SF2R_B2SF, E. unfold SF2R, F2R. cbn [Fnum Fexp cond_Zopp]. change (Zpos 4503599627370496) with (radix2 ^ 52)%Z.
  rewrite IZR_Zpower by lia. rewrite <- bpow_plus. reflexivity.
Qed.

Lemma bp43 : bpow radix2 (-43) = / IZR (2 ^ 43).
Proof. reflexivity. Qed.

Lemma eps_bounds : bpow radix2 (-20) < eps < 1 / 1000000.
Proof. unfold eps. change (bpow radix2 (-20)) with (/ 1048576). change (bpow radix2 (-43)) with (/ 8796093022208). lra. Qed.

Lemma small_small : bpow radix2 (-1022) <= bpow radix2 (-50).
Proof. apply bpow_le. lia. Qed.

(** |rd d| < eps exactly when |d| < eps, up to the rounding just below. *)
Lemma rd_below d : Rabs (rd d) < eps -> Rabs d < eps.
Proof.
  intros X. pose proof (Rle_abs (rd d)) as A1. pose proof (Rle_abs (- rd d)) as A2. rewrite Rabs_Ropp in A2. apply Rnot_le_lt. intros Y.
  destruct (Rle_dec 0 d) as [P|P].
  - rewrite Rabs_pos_eq in Y by auto. pose proof (rd_ge 8796093 (-43) d ltac:(lia) ltac:(lia) Y) as Z. fold eps in Z. lra.
  - rewrite Rabs_left in Y by lra. pose proof (rd_ge 8796093 (-43) (- d) ltac:(lia) ltac:(lia) Y) as Z. fold eps in Z. rewrite rd_opp in Z. lra.
Qed.

Lemma rd_above d : Rabs d <= 8796092 * bpow radix2 (-43) -> Rabs (rd d) < eps.
Proof.
  intros X. pose proof (Rle_abs d) as A1. pose proof (Rle_abs (- d)) as A2. rewrite Rabs_Ropp in A2.
  pose proof (rd_le 8796092 (-43) d ltac:(lia) ltac:(lia) ltac:(lra)) as Z1. pose proof (rd_le 8796092 (-43) (- d) ltac:(lia) ltac:(lia) ltac:(lra)) as Z2. rewrite rd_opp in Z2.
  assert (0 < bpow radix2 (-43)) by apply bpow_gt_0. unfold eps. apply Rabs_def1; lra.
Qed.

Lemma close_ok (x y : f64) : within 1000 x -> within 1000 y -> close_at_tolerance x y epsilon64 = Rlt_bool (Rabs (rd (B2R y - B2R x))) eps.
Proof.
  intros (Fx & Bx) (Fy & By). destruct eps_ok as (Fe & Be).
  destruct (sub_ok 1002 ltac:(lia) y x Fy Fx) as (Fs & Bs).
  { eapply Rle_trans; [apply Rabs_triang|]. rewrite Rabs_Ropp. replace (bpow radix2 1002) with (4 * bpow radix2 1000); [pose proof (bpow_ge_0 radix2 1000); lra|].
    change 4 with (bpow radix2 2). rewrite <- bpow_plus. reflexivity. }
  destruct (abs_ok _ Fs) as (Fa & Ba). unfold close_at_tolerance. rewrite ltb_ok by auto. rewrite Ba, Bs, Be. reflexivity.
Qed.

Lemma smallest_within : within 1000 smallest64.
Proof. destruct smallest_ok as (F & B). split; [exact F|]. rewrite B, Rabs_pos_eq by apply bpow_ge_0. apply bpow_le. lia. Qed.

Lemma is_zero_test (y : f64) : is_finite y = true -> neqb y nzero = Req_bool (B2R y) 0.
Proof. intros Fy. destruct zero_ok as (F0 & B0). rewrite eqb_ok by auto. rewrite B0. reflexivity. Qed.

Lemma coordinate_sound (x y : f64) : within 1000 x -> within 1000 y -> coordinate_eq smallest64 epsilon64 x y = true -> Rabs (B2R x - B2R y) < eps + bpow radix2 (-1022).
Proof.
  intros Wx Wy. pose proof (bpow_ge_0 radix2 (-1022)) as S0. unfold coordinate_eq, is_small. rewrite is_zero_test by apply Wy.
  destruct (Req_bool_spec (B2R y) 0) as [Z|Z].
  - rewrite close_ok by (auto; apply smallest_within). destruct smallest_ok as (_ & Bs). rewrite Bs, Z. destruct (Rlt_bool_spec (Rabs (rd (bpow radix2 (-1022) - B2R x))) eps) as [L|L]; [|discriminate].
    intros _. apply rd_below in L. replace (B2R x - 0) with (bpow radix2 (-1022) + - (bpow radix2 (-1022) - B2R x)) by ring.
    eapply Rle_lt_trans; [apply Rabs_triang|]. rewrite Rabs_Ropp, (Rabs_pos_eq (bpow _ _)) by auto. lra.
  - rewrite close_ok by auto. destruct (Rlt_bool_spec (Rabs (rd (B2R y - B2R x))) eps) as [L|L]; [|discriminate]. intros _. apply rd_below in L. rewrite Rabs_minus_sym. lra.
Qed.

Lemma coordinate_complete (x y : f64) : within 1000 x -> within 1000 y -> Rabs (B2R x - B2R y) <= bpow radix2 (-20) -> coordinate_eq smallest64 epsilon64 x y = true.
Proof.
  intros Wx Wy D. pose proof (bpow_ge_0 radix2 (-1022)) as S0. pose proof small_small as S1. change (bpow radix2 (-20)) with (/ 1048576) in D.
  unfold coordinate_eq, is_small. rewrite is_zero_test by apply Wy.
  assert (B43 : 8796092 * bpow radix2 (-43) = 8796092 / 8796093022208) by (change (bpow radix2 (-43)) with (/ 8796093022208); field).
  assert (B50 : bpow radix2 (-50) <= / 1000000000000) by (change (bpow radix2 (-50)) with (/ 1125899906842624); lra).
  destruct (Req_bool_spec (B2R y) 0) as [Z|Z].
  - rewrite close_ok by (auto; apply smallest_within). destruct smallest_ok as (_ & Bs). rewrite Bs. apply Rlt_bool_true. apply rd_above.
    eapply Rle_trans; [apply Rabs_triang|]. rewrite Rabs_Ropp, (Rabs_pos_eq (bpow _ _)) by auto. rewrite Z, Rminus_0_r in D. lra.
  - rewrite close_ok by auto. apply Rlt_bool_true. apply rd_above. rewrite Rabs_minus_sym. lra.
Qed.

Lemma coordinate_self (x : f64) : is_finite x = true -> coordinate_eq smallest64 epsilon64 x x = true.
Proof.
  intros Fx. destruct eps_ok as (Fe & Be). pose proof eps_bounds as (E1 & _). assert (0 < bpow radix2 (-20)) by apply bpow_gt_0.
  destruct (Req_EM_T (B2R x) 0) as [Z|Z].
  - apply coordinate_complete; [split; [exact Fx|rewrite Z, Rabs_R0; apply bpow_ge_0]..|]. rewrite Rminus_eq_0, Rabs_R0. apply bpow_ge_0.
  - unfold coordinate_eq. rewrite is_zero_test by auto. rewrite Req_bool_false by auto. unfold close_at_tolerance.
    destruct (sub_ok 0 ltac:(lia) x x Fx Fx) as (Fs & Bs); [rewrite Rminus_eq_0, Rabs_R0; apply bpow_ge_0|]. destruct (abs_ok _ Fs) as (Fa & Ba).
    rewrite ltb_ok by auto. rewrite Ba, Bs, Rminus_eq_0, rd_0, Rabs_R0, Be. apply Rlt_bool_true. lra.
Qed.

Lemma decay_differs a w : 1 < a -> 0 < w -> w <> ln a -> a * exp (- w) <> a * exp (- ((w - ln a) / (1 + ln a) * 1)).
Proof.
  intros A W N E. assert (La : 0 < ln a) by (rewrite <- ln_1; apply ln_increasing; lra).
  apply Rmult_eq_reg_l in E; [|lra]. apply exp_inv in E.
  assert (E2 : w = (w - ln a) / (1 + ln a)) by lra. apply (f_equal (fun t => t * (1 + ln a))) in E2. replace ((w - ln a) / (1 + ln a) * (1 + ln a)) with (w - ln a) in E2 by (field; lra). nra.
Qed.
