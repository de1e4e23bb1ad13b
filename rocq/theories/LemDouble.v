(** Facts about binary64 arithmetic: results close to the exact ones. *)

From Coq Require Import ZArith Reals Bool List Lia Lra.
From Flocq Require Import Core IEEE754.BinarySingleNaN.
From Verif Require Import Num Geometry.
Import ListNotations.
Local Open Scope R_scope.

(** Rounding to the nearest [double], without overflow. *)
Definition rd (x : R) : R := round radix2 (SpecFloat.fexp 53 1024) (round_mode mode_NE) x.

Local Instance fexp64_valid : Valid_exp (SpecFloat.fexp 53 1024) := fexp_correct 53 1024 Hprec64.

Lemma rd_mono x y : x <= y -> rd x <= rd y.
Proof. apply round_le; typeclasses eauto. Qed.

Lemma rd_val (x : f64) : rd (B2R x) = B2R x.
Proof. apply round_generic; [typeclasses eauto|apply generic_format_B2R]. Qed.

Lemma rd_gen x : generic_format radix2 (SpecFloat.fexp 53 1024) x -> rd x = x.
Proof. apply round_generic; typeclasses eauto. Qed.

Lemma rd_opp x : rd (- x) = - rd x.
Proof. apply round_NE_opp. Qed.

Lemma rd_0 : rd 0 = 0.
Proof. apply round_0; typeclasses eauto. Qed.

(** A number [n * 2^e] with at most 53 bits is a [double]. *)
Lemma gen_scaled n e : (Z.abs n < 2 ^ 53)%Z -> (-1074 <= e)%Z -> generic_format radix2 (SpecFloat.fexp 53 1024) (IZR n * bpow radix2 e).
Proof.
  intros Hn He. apply generic_format_FLT with (emin := (-1074)%Z) (prec := 53%Z). exists (Float radix2 n e); [reflexivity|exact Hn|exact He].
Qed.

Lemma gen_bpow e : (-1074 <= e)%Z -> generic_format radix2 (SpecFloat.fexp 53 1024) (bpow radix2 e).
Proof. intros He. rewrite <- (Rmult_1_l (bpow radix2 e)). apply (gen_scaled 1); auto. reflexivity. Qed.

Lemma gen_opp x : generic_format radix2 (SpecFloat.fexp 53 1024) x -> generic_format radix2 (SpecFloat.fexp 53 1024) (- x).
Proof. apply generic_format_opp. Qed.

Lemma rd_le n e x : (Z.abs n < 2 ^ 53)%Z -> (-1074 <= e)%Z -> x <= IZR n * bpow radix2 e -> rd x <= IZR n * bpow radix2 e.
Proof. intros Hn He L. apply round_le_generic; try typeclasses eauto; auto. apply gen_scaled; auto. Qed.

Lemma rd_ge n e x : (Z.abs n < 2 ^ 53)%Z -> (-1074 <= e)%Z -> IZR n * bpow radix2 e <= x -> IZR n * bpow radix2 e <= rd x.
Proof. intros Hn He L. apply round_ge_generic; try typeclasses eauto; auto. apply gen_scaled; auto. Qed.

(** The rounding error of a result of size at most [2^k]. *)
Lemma rd_err k x : (-1000 <= k)%Z -> Rabs x <= bpow radix2 k -> Rabs (rd x - x) <= bpow radix2 (k - 54).
Proof.
  intros Hk [L|E].
  - eapply Rle_trans; [apply error_le_half_ulp; typeclasses eauto|].
    assert (U : ulp radix2 (SpecFloat.fexp 53 1024) x <= bpow radix2 (k - 53)).
    { destruct (Req_dec x 0) as [->|Nz].
      - apply Rle_trans with (bpow radix2 (-1074)); [|apply bpow_le; lia].
        rewrite <- (ulp_FLT_0 radix2 (-1074) 53). apply Rle_refl.
      - rewrite ulp_neq_0 by auto. apply bpow_le. unfold cexp, SpecFloat.fexp, SpecFloat.emin.
        pose proof (mag_le_bpow radix2 x k Nz L). lia. }
    replace (k - 53)%Z with (k - 54 + 1)%Z in U by lia. rewrite bpow_plus in U. cbn in U. lra.
  - assert (G : generic_format radix2 (SpecFloat.fexp 53 1024) x).
    { assert (Q : x = bpow radix2 k \/ x = - bpow radix2 k).
      { pose proof (bpow_gt_0 radix2 k). unfold Rabs in E. destruct (Rcase_abs x); lra. }
      destruct Q as [->| ->]; [|apply gen_opp]; apply gen_bpow; lia. }
    rewrite rd_gen by exact G. replace (x - x) with 0 by lra. rewrite Rabs_R0. apply bpow_ge_0.
Qed.

Lemma rd_bound k x : (-1000 <= k)%Z -> Rabs x <= bpow radix2 k -> Rabs (rd x) <= bpow radix2 k.
Proof. intros Hk L. apply abs_round_le_generic; try typeclasses eauto; auto. apply gen_bpow. lia. Qed.

Lemma small_rd k x : (-1000 <= k <= 1023)%Z -> Rabs x <= bpow radix2 k -> Rabs (rd x) < bpow radix2 1024.
Proof. intros Hk L. eapply Rle_lt_trans; [apply (rd_bound k); [lia|auto]|apply bpow_lt; lia]. Qed.

(** Operations whose exact result is at most [2^1023]. *)
Section Ops.
Context (k : Z).
Context (Hk : (-1000 <= k <= 1023)%Z).

Lemma add_ok (x y : f64) : is_finite x = true -> is_finite y = true -> Rabs (B2R x + B2R y) <= bpow radix2 k ->
  is_finite (nadd x y) = true /\ B2R (nadd x y) = rd (B2R x + B2R y).
Proof.
  intros Fx Fy L. generalize (Bplus_correct 53 1024 Hprec64 Hemax64 mode_NE x y Fx Fy).
  rewrite Rlt_bool_true by exact (small_rd k _ Hk L). intros (A & B & _). auto.
Qed.

Lemma sub_ok (x y : f64) : is_finite x = true -> is_finite y = true -> Rabs (B2R x - B2R y) <= bpow radix2 k ->
  is_finite (nsub x y) = true /\ B2R (nsub x y) = rd (B2R x - B2R y).
Proof.
  intros Fx Fy L. generalize (Bminus_correct 53 1024 Hprec64 Hemax64 mode_NE x y Fx Fy).
  rewrite Rlt_bool_true by exact (small_rd k _ Hk L). intros (A & B & _). auto.
Qed.

Lemma mul_ok (x y : f64) : is_finite x = true -> is_finite y = true -> Rabs (B2R x * B2R y) <= bpow radix2 k ->
  is_finite (nmul x y) = true /\ B2R (nmul x y) = rd (B2R x * B2R y).
Proof.
  intros Fx Fy L. generalize (Bmult_correct 53 1024 Hprec64 Hemax64 mode_NE x y).
  rewrite Rlt_bool_true by exact (small_rd k _ Hk L). intros (A & B & _). rewrite Fx, Fy in B. auto.
Qed.

Lemma div_ok (x y : f64) : is_finite x = true -> B2R y <> 0 -> Rabs (B2R x / B2R y) <= bpow radix2 k ->
  is_finite (ndiv x y) = true /\ B2R (ndiv x y) = rd (B2R x / B2R y).
Proof.
  intros Fx Ny L. generalize (Bdiv_correct 53 1024 Hprec64 Hemax64 mode_NE x y Ny).
  rewrite Rlt_bool_true by exact (small_rd k _ Hk L). intros (A & B & _). rewrite Fx in B. auto.
Qed.
End Ops.

Lemma sqrt_ok (x : f64) : is_finite x = true -> 0 <= B2R x ->
  is_finite (nsqrt x) = true /\ B2R (nsqrt x) = rd (sqrt (B2R x)).
Proof.
  intros Fx P. destruct (Bsqrt_correct 53 1024 Hprec64 Hemax64 mode_NE x) as (A & B & _). split; [|exact A].
  change (is_finite (nsqrt x)) with (is_finite (Bsqrt (prec:=53) (emax:=1024) mode_NE x)). rewrite B.
  destruct x as [s| | |s m e H]; try discriminate; auto. destruct s; auto.
  exfalso. cbn in P. assert (F2R (Float radix2 (Zneg m) e) < 0) by (apply F2R_lt_0; reflexivity). lra.
Qed.

Lemma ltb_ok (x y : f64) : is_finite x = true -> is_finite y = true -> nltb x y = Rlt_bool (B2R x) (B2R y).
Proof. apply Bltb_correct. Qed.

Lemma leb_ok (x y : f64) : is_finite x = true -> is_finite y = true -> nleb x y = Rle_bool (B2R x) (B2R y).
Proof. apply Bleb_correct. Qed.

Lemma eqb_ok (x y : f64) : is_finite x = true -> is_finite y = true -> neqb x y = Req_bool (B2R x) (B2R y).
Proof. apply Beqb_correct. Qed.

Lemma abs_ok (x : f64) : is_finite x = true -> is_finite (nabs x) = true /\ B2R (nabs x) = Rabs (B2R x).
Proof. intros F. split; [rewrite <- F; apply is_finite_Babs|apply B2R_Babs]. Qed.

(** Integer constants. *)
Lemma of_ok z : (Z.abs z < 2 ^ 53)%Z -> is_finite (nof z : f64) = true /\ B2R (nof z : f64) = IZR z.
Proof.
  intros Hz. pose proof (binary_normalize_correct 53 1024 Hprec64 Hemax64 mode_NE z 0 false) as C.
  assert (E : F2R (Float radix2 z 0) = IZR z) by (unfold F2R; cbn; lra).
  assert (G : rd (IZR z) = IZR z).
  { apply rd_gen. replace (IZR z) with (IZR z * bpow radix2 0) by (cbn; lra). apply gen_scaled; lia. }
  cbv zeta in C. rewrite Rlt_bool_true in C.
  - destruct C as (A & B & _). split; [exact B|]. etransitivity; [exact A|]. rewrite E. exact G.
  - rewrite E. change (Rabs (rd (IZR z)) < bpow radix2 1024). rewrite G.
    rewrite <- abs_IZR. apply Rlt_trans with (IZR (2 ^ 53)); [apply IZR_lt; auto|].
    replace (IZR (2 ^ 53)) with (bpow radix2 53) by (cbn; lra). apply bpow_lt. lia.
Qed.

Lemma zero_ok : is_finite (nzero : f64) = true /\ B2R (nzero : f64) = 0.
Proof. apply (of_ok 0). reflexivity. Qed.

Lemma half_ok : is_finite (nlit 1 2 : f64) = true /\ B2R (nlit 1 2 : f64) = 1 / 2.
Proof.
  destruct (of_ok 1) as (F1 & R1); [reflexivity|]. destruct (of_ok 2) as (F2 & R2); [reflexivity|].
  unfold nlit. destruct (div_ok 0 ltac:(lia) (nof 1) (nof 2)) as (A & B); auto.
  - rewrite R2. lra.
  - rewrite R1, R2. rewrite Rabs_right; cbn; lra.
  - split; [exact A|]. rewrite B, R1, R2. apply rd_gen.
    replace (1 / 2) with (1 * bpow radix2 (-1)) by (cbn; lra). apply (gen_scaled 1); [reflexivity|lia].
Qed.
