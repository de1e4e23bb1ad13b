(** * Properties C86 and C87: the matchers *)

From Coq Require Import ZArith Reals Bool List Lia Lra.
From Flocq Require Import Core IEEE754.BinarySingleNaN.
From Verif Require Import Num Geometry Outcome Matchers SpecDouble LemReal LemDouble LemMatch.
Import ListNotations.
Local Open Scope R_scope.

(** ** C86: functions and their models *)

(** In real arithmetic: [SatisfiesModel (Linear)] accepts a function exactly when
    at 1, 2, 4, ... it is within the tolerance of the line through its values at
    0 and 1. *)
Theorem C86_linear_verdict :
  forall (f : Z -> R) (n : nat) (tolerance : R),
    satisfies_model linear_model n tolerance f = true <->
    forall i, (i < n)%nat -> Rabs (f (2 ^ Z.of_nat i)%Z - (f 0%Z + (f 1%Z - f 0%Z) * 2 ^ i)) < tolerance.
Proof.
  intros f n tol. rewrite satisfies_R. unfold linear_model. rnum.
  split; intros X i Hi; specialize (X i Hi); (eapply Rle_lt_trans; [|exact X]); right; f_equal; ring.
Qed.
Print Assumptions C86_linear_verdict.

(** So it accepts every linear function. *)
Theorem C86_linear_accepts :
  forall (a b : R) (n : nat) (tolerance : R), 0 < tolerance ->
    satisfies_model linear_model n tolerance (fun x => a * IZR x + b) = true.
Proof.
  intros a b n tol P. apply C86_linear_verdict. intros i _. rewrite pow2_R.
  replace (a * 2 ^ i + b - (a * 0 + b + (a * 1 + b - (a * 0 + b)) * 2 ^ i)) with 0 by ring. rewrite Rabs_R0. exact P.
Qed.
Print Assumptions C86_linear_accepts.

(** [Parabolic] accepts every function a x^m + c with a other than 0. *)
Theorem C86_parabolic_accepts :
  forall (a m c : R) (f : Z -> R) (n : nat) (tolerance : R), 0 < tolerance -> a <> 0 ->
    f 0%Z = c -> (forall x, (0 < x)%Z -> f x = a * Rpower (IZR x) m + c) ->
    satisfies_model (parabolic_model ln Rpower) n tolerance f = true.
Proof.
  intros a m c f n tol P A F0 F. apply satisfies_R. intros i Hi. rewrite (parabolic_exact a m c f n i A F0 F Hi).
  rewrite F by (apply Z.pow_pos_nonneg; lia). rewrite pow2_R. rewrite Rminus_eq_0, Rabs_R0. exact P.
Qed.
Print Assumptions C86_parabolic_accepts.

(** Whatever it accepts is within the tolerance of a function of that form at all
    samples. *)
Theorem C86_parabolic_sound :
  forall (f : Z -> R) (n : nat) (tolerance : R),
    satisfies_model (parabolic_model ln Rpower) n tolerance f = true ->
    exists m, forall i, (i < n)%nat -> Rabs (f (2 ^ Z.of_nat i)%Z - ((f 1%Z - f 0%Z) * Rpower (2 ^ i) m + f 0%Z)) < tolerance.
Proof. intros f n tol X. rewrite satisfies_R in X. eexists. intros i Hi. exact (X i Hi). Qed.
Print Assumptions C86_parabolic_sound.

(** Constant functions (a = 0) it does not accept: in [double], with any [log]
    and [pow] that hand NaN on as C requires, it rejects them all whatever the
    tolerance, as soon as it takes two samples. *)
Theorem C86_parabolic_flat_refuted :
  forall (log : f64 -> f64) (pow : f64 -> f64 -> f64), log B754_nan = B754_nan -> (forall t, t <> nof 1 -> pow t B754_nan = B754_nan) ->
  forall (c : f64) (n : nat) (tolerance : f64), (2 <= n)%nat ->
    satisfies_model (parabolic_model log pow) n tolerance (fun _ => c) = false.
Proof.
  intros log pow L P c n tol N. destruct (satisfies_model _ n tol _) eqn:E; [|reflexivity]. exfalso.
  pose proof (proj1 (satisfies_iff (parabolic_model log pow) n tol (fun _ => c)) E 1%nat ltac:(lia)) as X. unfold parabolic_model in X.
  rewrite self_quotient, L, nan_div, P, nan_mul, nan_add, nan_sub in X.
  - change (nabs (B754_nan : f64)) with (B754_nan : f64) in X. rewrite nan_ltb in X. discriminate X.
  - intros Eq. apply (f_equal (fun x => neqb x (nof 2))) in Eq. vm_compute in Eq. discriminate Eq.
Qed.
Print Assumptions C86_parabolic_flat_refuted.

(** [ExponentialDecayTowards] accepts the decays that start one above their
    limit. *)
Theorem C86_decay_from_one_above :
  forall (w c : R) (n : nat) (tolerance : R), 0 < tolerance -> w <> 0 ->
    satisfies_model (decay_model ln Rpower (exp 1) c) n tolerance (fun x => exp (- (w * IZR x)) + c) = true.
Proof.
  intros w c n tol P W. apply satisfies_R. intros i Hi. rewrite pow2_R.
  rewrite (decay_rate 1 w c) by (rewrite ?ln_1, ?Rmult_0_r, ?Ropp_0, ?exp_0, ?Rmult_1_r; lra).
  rewrite ln_1. replace ((w - 0) / (1 + 0) * 2 ^ i) with (w * 2 ^ i) by field. rewrite Rmult_1_l, Rminus_eq_0, Rabs_R0. exact P.
Qed.
Print Assumptions C86_decay_from_one_above.

(** The others it rejects: the rate it computes is that of the decay only if the
    decay starts one above its limit.  For every decay a e^(-w x) + c with a > 1
    (and w other than ln a), small enough tolerances and at least one sample. *)
Theorem C86_decay_accepts_refuted :
  forall (a w c : R), 1 < a -> 0 < w -> w <> ln a ->
  exists limit, 0 < limit /\
  forall (n : nat) (tolerance : R), (1 <= n)%nat -> tolerance <= limit ->
    satisfies_model (decay_model ln Rpower (exp 1) c) n tolerance (fun x => a * exp (- (w * IZR x)) + c) = false.
Proof.
  intros a w c A W N. assert (La : 0 < ln a) by (rewrite <- ln_1; apply ln_increasing; lra).
  pose proof (decay_differs a w A W N) as D. set (d := a * exp (- w) - a * exp (- ((w - ln a) / (1 + ln a) * 1))).
  exists (Rabs d). split; [apply Rabs_pos_lt; unfold d; lra|]. intros n tol Hn Ht.
  destruct (satisfies_model _ n tol _) eqn:E; [|reflexivity]. exfalso. rewrite satisfies_R in E. specialize (E 0%nat ltac:(lia)).
  rewrite pow2_R in E. cbn [pow] in E.
  rewrite (decay_rate a w c) in E; [|lra|rewrite Rmult_0_r, Ropp_0, exp_0; ring|rewrite Rmult_1_r; ring|lra|lra].
  rewrite Rmult_1_r in E at 1. replace (a * exp (- w) + c - (a * exp (- ((w - ln a) / (1 + ln a) * 1)) + c)) with d in E by (unfold d; ring). lra.
Qed.
Print Assumptions C86_decay_accepts_refuted.

(** The cases: a parabola, and a decay from 3 to 1. *)
Example C86_case :
  (exists f : Z -> R, f 0%Z = 5 /\ (forall x, (0 < x)%Z -> f x = 3 * Rpower (IZR x) 2 + 5) /\ f 4%Z = 53) /\
  (1 < 2 /\ 0 < 1 /\ 1 <> ln 2) /\
  exists (log : f64 -> f64) (pow : f64 -> f64 -> f64), log B754_nan = B754_nan /\ (forall t, t <> nof 1 -> pow t B754_nan = B754_nan).
Proof.
  split; [|split; [|exists (fun x => x), (fun _ x => x); auto]].
  - exists (fun x => if (0 <? x)%Z then 3 * Rpower (IZR x) 2 + 5 else 5). split; [reflexivity|]. split.
    + intros x Hx. rewrite (proj2 (Z.ltb_lt 0 x) Hx). reflexivity.
    + cbn [Z.ltb Z.compare]. change 2 with (INR 2) at 1. rewrite Rpower_pow by lra. cbn [pow]. lra.
  - split; [lra|]. split; [lra|]. intros E. assert (exp 1 = 2) by (rewrite E, exp_ln by lra; reflexivity).
    pose proof (exp_ineq1 1 ltac:(lra)). lra.
Qed.

(** ** C87: geometrical equality *)

(** Points with finite [double] coordinates equal themselves. *)
Theorem C87_points_equal_themselves :
  forall p : vec f64, finite_point p -> geometrically_equal64 p p = true.
Proof. intros p (Fx & Fy). unfold geometrically_equal64, geometrically_equal. rewrite !coordinate_self by auto. reflexivity. Qed.
Print Assumptions C87_points_equal_themselves.

(** Equality accepts what is up to [2^-20] (about 9.5e-7) apart in each
    coordinate, and nothing that is more than 1e-6 apart. *)
Theorem C87_accepts_near_points :
  forall p q : vec f64, point_within 1000 p -> point_within 1000 q ->
    Rabs (B2R (vx p) - B2R (vx q)) <= bpow radix2 (-20) -> Rabs (B2R (vy p) - B2R (vy q)) <= bpow radix2 (-20) ->
    geometrically_equal64 p q = true.
Proof.
  intros p q (Px & Py) (Qx & Qy) Dx Dy. unfold geometrically_equal64, geometrically_equal. rewrite !coordinate_complete by auto. reflexivity.
Qed.
Print Assumptions C87_accepts_near_points.

Theorem C87_rejects_distant_points :
  forall p q : vec f64, point_within 1000 p -> point_within 1000 q -> geometrically_equal64 p q = true ->
    Rabs (B2R (vx p) - B2R (vx q)) < 1 / 1000000 /\ Rabs (B2R (vy p) - B2R (vy q)) < 1 / 1000000.
Proof.
  intros p q (Px & Py) (Qx & Qy) E. unfold geometrically_equal64, geometrically_equal in E. apply andb_prop in E. destruct E as (E1 & E2).
  assert (B : eps + bpow radix2 (-1022) <= 1 / 1000000).
  { pose proof small_small as S. unfold eps. change (bpow radix2 (-43)) with (/ 8796093022208). change (bpow radix2 (-50)) with (/ 1125899906842624) in S. lra. }
  split; (eapply Rlt_le_trans; [apply coordinate_sound; eassumption|exact B]).
Qed.
Print Assumptions C87_rejects_distant_points.

(** A point with an infinite coordinate is not equal to itself. *)
Theorem C87_infinite_points_refuted :
  forall (s : bool) (y : f64), geometrically_equal64 (mkV (B754_infinity s) y) (mkV (B754_infinity s) y) = false.
Proof. intros [|] y; reflexivity. Qed.
Print Assumptions C87_infinite_points_refuted.

(** With [int] coordinates 0 is not equal to 0, the most negative number is, and
    the comparison of a positive number with 0 overflows. *)
Theorem C87_integer_zero_refuted :
  int_coordinate_eq 0 0 = Some false /\ int_coordinate_eq (- 2 ^ 31) 0 = Some true /\
  forall x, (0 < x < 2 ^ 31)%Z -> int_coordinate_eq x 0 = None.
Proof.
  split; [reflexivity|]. split; [reflexivity|]. intros x Hx. unfold int_coordinate_eq, int_close. cbn [Z.eqb].
  replace (int_min <=? int_min - x)%Z with false; [reflexivity|]. symmetry. apply Z.leb_gt. lia.
Qed.
Print Assumptions C87_integer_zero_refuted.

(** Apart from that, integers are equal exactly when they are the same, and the
    comparison overflows exactly when their difference is no [int]. *)
Theorem C87_integers :
  forall x y, (y <> 0 ->
    (int_coordinate_eq x y = Some true <-> x = y) /\
    (int_coordinate_eq x y = None <-> y - x < - 2 ^ 31 \/ 2 ^ 31 <= y - x))%Z.
Proof.
  intros x y Ny. unfold int_coordinate_eq, int_close. rewrite (proj2 (Z.eqb_neq y 0) Ny).
  change int_min with (- 2 ^ 31)%Z. change int_max with (2 ^ 31 - 1)%Z.
  destruct (Z.leb_spec (- 2 ^ 31) (y - x)), (Z.leb_spec (y - x) (2 ^ 31 - 1)); cbn [andb]; (split; split; intros E); try discriminate E; try lia; try reflexivity.
  - injection E as E. apply Z.eqb_eq in E. lia.
  - subst. rewrite Z.sub_diag. reflexivity.
Qed.
Print Assumptions C87_integers.

Example C87_case :
  let p := mkV (nof 3) (nof 0) : vec f64 in let q := mkV (nadd (nof 3) (nlit 1 2097152)) (nof 0) : vec f64 in
  finite_point p /\ point_within 1000 p /\ point_within 1000 q /\ B2R (vx p) <> B2R (vx q) /\ geometrically_equal64 p q = true.
Proof.
  assert (W : forall x : f64, is_finite x = true -> nleb (nabs x) (nof 1024) = true -> within 1000 x).
  { intros x Fx L. split; [exact Fx|]. destruct (abs_ok x Fx) as (Fa & Ba). destruct (of_ok 1024 ltac:(lia)) as (Fo & Bo).
    rewrite leb_ok in L by auto. rewrite Ba, Bo in L. destruct (Rle_bool_spec (Rabs (B2R x)) 1024) as [G|G]; [|discriminate L].
    eapply Rle_trans; [exact G|]. change 1024 with (bpow radix2 10). apply bpow_le. lia. }
  cbv zeta. split; [split; vm_compute; reflexivity|]. split; [split; apply W; vm_compute; reflexivity|]. split; [split; apply W; vm_compute; reflexivity|].
  split; [|vm_compute; reflexivity]. intros E. cbn [vx] in E.
  assert (X : neqb (nof 3 : f64) (nadd (nof 3) (nlit 1 2097152)) = true) by (rewrite eqb_ok by (vm_compute; reflexivity); rewrite E; apply Req_bool_true; reflexivity).
  vm_compute in X. discriminate X.
Qed.
