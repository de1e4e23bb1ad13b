(** Reversed linear steppers in single precision. *)

From Coq Require Import ZArith Reals Bool List Lia Lra Psatz.
From Flocq Require Import Core IEEE754.BinarySingleNaN.
From Verif Require Import Num Geometry Outcome Steppers Transforms Program SpecAnim LemFloat LemFinal LemSteppers LemLinear32.
Import ListNotations.
Local Open Scope R_scope.

Lemma clamp_nonpositive (v : f32) : is_finite v = true -> B2R v <= 0 -> B2R (clamp_progress v) = 0.
Proof.
  intros F U. unfold clamp_progress, clamp. rewrite zero32_form. fold one32.
  unfold nfmax. rewrite (finite_not_nan (B754_zero false)) by reflexivity. rewrite (finite_not_nan v) by auto.
  rewrite (lt32 (B754_zero false) v) by auto. cbn [B2R]. rewrite Rlt_bool_false by lra.
  unfold nfmin. rewrite (finite_not_nan one32), (finite_not_nan (B754_zero false)) by auto. rewrite lt32 by auto. rewrite one32_R. cbn [B2R].
  rewrite Rlt_bool_true by lra. reflexivity.
Qed.

Lemma more_not (p : f32) : in_unit p -> B2R p = 0 \/ B2R p = 1 -> more_progress p = false.
Proof.
  intros U E. destruct (more_progress p) eqn:M; [|reflexivity]. apply more_inside in M; auto. destruct M as (_ & M). lra.
Qed.

Lemma complement_far (v : f32) : nleb (nof 1) v = true -> B2R (clamp_progress (nsub (nof 1) v)) = 0.
Proof.
  intros L. change (nof 1 : f32) with one32 in *. destruct v as [s|s| |s m e h].
  - destruct s; vm_compute in L; discriminate.
  - destruct s; [vm_compute in L; discriminate|]. reflexivity.
  - vm_compute in L. discriminate.
  - assert (F : is_finite (B754_finite s m e h : f32) = true) by reflexivity. revert L F. generalize (B754_finite s m e h : f32). intros v L F.
    rewrite le32 in L by auto. rewrite one32_R in L. destruct (Rle_bool_spec 1 (B2R v)) as [G|]; [|discriminate].
    pose proof (Bminus_correct 24 128 Hprec32 Hemax32 mode_NE one32 v eq_refl F) as C. rewrite one32_R in C.
    assert (M : - B2R v <= rnd32 (1 - B2R v) <= 0).
    { split.
      - pose proof (rnd_gen (Bopp v)) as O. rewrite B2R_Bopp in O. rewrite <- O. apply rnd_mono. lra.
      - rewrite <- rnd_0. apply rnd_mono. lra. }
    rewrite Rlt_bool_true in C.
    + destruct C as (C1 & C2 & _). apply clamp_nonpositive; [exact C2|]. change (B2R (Bminus mode_NE one32 v) <= 0). rewrite C1. apply M.
    + apply Rle_lt_trans with (Rabs (B2R v)); [|apply abs_B2R_lt_emax].
      rewrite Rabs_left1 by apply M. rewrite Rabs_pos_eq by lra. lra.
Qed.

Lemma reversed_progress32 (L1 : Libm f32) (L2 : Libm f64) c (l : f32) (a a' : anim f32 f64 (linear f32)) (ts : list Z) rs k p b :
  is_finite l = true -> 0 < B2R l -> all_u32 ts -> (Z.of_nat (length ts) < 2 ^ 20)%Z ->
  anim_new (reverse_call linear_call) c (linear_new l) = Ok a -> anim_steps (reverse_call linear_call) a ts = Ok (a', rs) ->
  nth_error rs k = Some (p, b) ->
  let x := IZR (total ts k) / B2R l in let err := (INR k + 8) * bpow radix2 (-23) in
  is_finite p = true /\ Rabs (B2R p - Rmax 0 (1 - x)) <= err /\
  (1 + err <= x -> B2R p = 0 /\ b = false) /\
  (err < x < 1 - err -> 0 < B2R p < 1 /\ b = true).
Proof.
  intros F P U Hn E Es N x err. pose proof (positive_length l F P) as L.
  apply new_progress in E. destruct E as [_ Sa]. apply steps_progress in Es. destruct Es as [-> _]. rewrite Sa in N. rewrite reverse_calls in N. cbn [fst] in N.
  rewrite !nth_error_map in N.
  assert (SE : snd (reverse_call linear_call (linear_new l) 0) = snd (linear_call (linear_new l) 0)) by reflexivity. rewrite SE in N.
  set (s0 := snd (linear_call (linear_new l) 0)) in *.
  destruct (nth_error (fst (calls linear_call s0 ts)) k) as [v|] eqn:V; [|discriminate].
  cbn [option_map] in N.
  assert (NP : p = clamp_progress (nsub (nof 1) v) /\ b = more_progress (clamp_progress (nsub (nof 1) v))) by (split; congruence).
  clear N. destruct NP as (-> & ->).
  assert (V' : nth_error (fst (calls linear_call (linear_new l) (0%Z :: ts))) (S k) = Some v) by (rewrite calls_cons; exact V).
  assert (U0 : all_u32 (0%Z :: ts)) by (constructor; [cbv; split; congruence|exact U]).
  destruct (linear_value32 l (0%Z :: ts) (S k) v F P U0 ltac:(cbn [length]; lia) V') as (Near & Far).
  change (total (0%Z :: ts) (S k)) with (0 + total ts k)%Z in *. rewrite Z.add_0_l in *. fold x in Near.
  assert (I : / B2R l * B2R l = 1) by (apply Rinv_l; lra). assert (Pi : 0 < / B2R l) by (apply Rinv_0_lt_compat; auto).
  assert (T0 : 0 <= IZR (total ts k)) by (apply IZR_le, total_nonneg; auto).
  assert (X0 : 0 <= x) by (unfold x, Rdiv; nra).
  assert (D : x * B2R l = IZR (total ts k)) by (unfold x, Rdiv; rewrite Rmult_assoc, I; ring).
  set (e1 := bpow radix2 (-23)) in *. assert (E1 : 0 < e1 <= / 8388608) by (split; [apply bpow_gt_0|apply Rle_refl]).
  assert (Ee : (INR (S k) + 6) * e1 = err - e1) by (unfold err; rewrite S_INR; ring). rewrite Ee in Near.
  assert (E0 : 8 * e1 <= err) by (unfold err; pose proof (pos_INR k); nra).
  pose proof (clamp_unit (nsub (nof 1) v)) as CU. split; [apply CU|].
  assert (K : (k < length ts)%nat).
  { assert (Q : length (fst (calls linear_call s0 ts)) = length ts).
    { clear. generalize s0. induction ts as [|t ts IHt]; intros s; [reflexivity|]. rewrite calls_cons. cbn [length]. f_equal. apply IHt. }
    rewrite <- Q. apply nth_error_Some. congruence. }
  assert (E8 : err <= / 4).
  { unfold err. assert (Kk : INR k + 8 <= 1048584). { rewrite INR_IZR_INZ. replace 1048584 with (IZR 1048576 + 8) by lra. apply Rplus_le_compat_r, IZR_le. lia. }
    pose proof (pos_INR k). apply Rle_trans with (1048584 * / 8388608); [apply Rmult_le_compat; lra|lra]. }
  destruct (Rle_lt_dec x 2) as [X2|X2].
  - destruct Near as (Fv & Ev); [nra|]. clear Far. apply Rabs_le_inv in Ev.
    destruct (linear32_mono (0%Z :: ts) (linear_new l)) as (A & _ & _); auto. { split; reflexivity. }
    rewrite Forall_forall in A. specialize (A v (nth_error_In _ _ V')).
    assert (Pv : 0 <= B2R v) by (destruct (nn_cases _ A) as [Q1|(_ & P1 & _)]; [rewrite Q1 in Fv; discriminate|exact P1]).
    destruct (sub32 (nof 1) v 1 (B2R v) LemFinal.one32 (conj Fv eq_refl)) as (Fr & Vr).
    { apply Rle_trans with (bpow radix2 3); [|apply bpow_le; lia]. cbn. apply Rabs_le. lra. }
    set (r := nsub (nof 1) v) in *.
    assert (Er : Rabs (rnd32 (1 - B2R v) - (1 - B2R v)) <= e1) by (apply rnd_err4; apply Rabs_lt; lra).
    assert (R1 : rnd32 (1 - B2R v) <= 1).
    { replace 1 with (rnd32 1) at 2; [apply rnd_mono; lra|]. rewrite <- one32_R. apply rnd_gen. }
    rewrite <- Vr in Er, R1. apply Rabs_le_inv in Er.
    destruct (Rle_lt_dec (B2R r) 0) as [G|G].
    + rewrite (clamp_nonpositive r Fr G). split; [apply Rabs_le; unfold Rmax; destruct (Rle_dec 0 (1 - x)); lra|]. split.
      * intros _. split; [reflexivity|]. apply more_not; [exact CU|]. left. apply clamp_nonpositive; auto.
      * intros G1. exfalso. lra.
    + assert (IU : in_unit r) by (split; [exact Fr|lra]). rewrite (clamp_keeps r IU).
      split; [apply Rabs_le; unfold Rmax; destruct (Rle_dec 0 (1 - x)); lra|]. split.
      * intros G1. exfalso. assert (Q : B2R r <= 0). { rewrite Vr, <- rnd_0. apply rnd_mono. lra. } lra.
      * intros G1. split; [lra|]. apply more_inside; [exact CU|]. split; [apply CU|]. rewrite (clamp_keeps r IU). lra.
  - rewrite (complement_far v) by (apply Far; nra).
    split; [apply Rabs_le; unfold Rmax; destruct (Rle_dec 0 (1 - x)); lra|]. split.
    + intros _. split; [reflexivity|]. apply more_not; [exact CU|]. left. apply complement_far, Far. nra.
    + intros G1. exfalso. lra.
Qed.
