(** Error bound of the linear stepper in single precision. *)

From Coq Require Import ZArith Reals Bool List Lia Lra.
From Flocq Require Import Core IEEE754.BinarySingleNaN Relative.
From Verif Require Import Num Geometry Outcome Steppers Transforms Program SpecAnim LemFloat LemSteppers.
Import ListNotations.
Local Open Scope R_scope.

Lemma rnd_rel x : Rabs (rnd32 x - x) <= bpow radix2 (-24) * Rabs x + bpow radix2 (-150).
Proof.
  destruct (error_N_FLT radix2 (-149) 24 eq_refl (fun x => negb (Z.even x)) x) as (eps & eta & A & B & _ & E).
  change (round radix2 (FLT_exp (-149) 24) (Znearest (fun x => negb (Z.even x))) x) with (rnd32 x) in E. rewrite E.
  replace (x * (1 + eps) + eta - x) with (eps * x + eta) by ring.
  eapply Rle_trans; [apply Rabs_triang|]. apply Rplus_le_compat.
  - rewrite Rabs_mult. apply Rmult_le_compat_r; [apply Rabs_pos|].
    eapply Rle_trans; [exact A|]. change (-24)%Z with (-1 + (-24 + 1))%Z. rewrite (bpow_plus radix2 (-1)). right. reflexivity.
  - eapply Rle_trans; [exact B|]. change (-150)%Z with (-1 + -149)%Z. rewrite (bpow_plus radix2 (-1)). right. reflexivity.
Qed.

(** One addition below 4. *)
Lemma rnd_err4 x : Rabs x < 4 -> Rabs (rnd32 x - x) <= bpow radix2 (-23).
Proof.
  intros L. eapply Rle_trans; [apply error_le_half_ulp; apply fexp_correct; reflexivity|].
  assert (U : ulp radix2 (SpecFloat.fexp 24 128) x <= bpow radix2 (-22)).
  { destruct (Req_dec x 0) as [->|Nz].
    - apply Rle_trans with (bpow radix2 (-149)); [|apply bpow_le; lia].
      rewrite <- (ulp_FLT_0 radix2 (-149) 24). apply Rle_refl.
    - rewrite ulp_neq_0 by auto. apply bpow_le. unfold cexp, SpecFloat.fexp, SpecFloat.emin.
      pose proof (mag_le_bpow radix2 x 2 Nz L). lia. }
  replace (-22)%Z with (-23 + 1)%Z in U by lia. rewrite bpow_plus in U. cbn in U |- *. lra.
Qed.

(** The quotient the stepper adds. *)
Lemma quotient_near (l : f32) ms : is_u32 ms -> is_finite l = true -> 0 < B2R l ->
  let q := ndiv (nof ms) l in let x := IZR ms / B2R l in
  (q = inf32 /\ 1000 < x) \/
  (is_finite q = true /\ 0 <= B2R q /\ Rabs (B2R q - x) <= 4 * bpow radix2 (-24) * x + 3 * bpow radix2 (-150) /\ (0 < x -> 0 < B2R q)).
Proof.
  intros U Fl Pl q x. destruct (of_u32 ms U) as (Nt & Ft & Et).
  assert (Lpos : nltb (nof 0) l = true).
  { cbn [nltb Num_f32 Num_IEEE]. rewrite Bltb_correct by (auto; reflexivity). apply Rlt_bool_true.
    destruct (of_u32 0) as (_ & _ & E0); [cbv; split; congruence|].
    change (binary_normalize 24 128 Hprec32 Hemax32 mode_NE 0 0 false) with (nof 0 : f32). rewrite E0, rnd_0. exact Pl. }
  destruct (lt_pos l Lpos) as [->|(_ & _ & Sl)]; [discriminate|].
  assert (NZ : B2R l <> 0) by lra.
  assert (Pi : 0 < / B2R l) by (apply Rinv_0_lt_compat; auto).
  set (m' := B2R (nof ms : f32)) in *.
  assert (Hms : 0 <= IZR ms) by (apply IZR_le; destruct U; lia).
  assert (Hm : Rabs (m' - IZR ms) <= 2 * bpow radix2 (-24) * IZR ms).
  { destruct (Z.eq_dec ms 0) as [->|Nz].
    - rewrite Et, rnd_0. rewrite Rminus_0_r, Rabs_R0. lra.
    - assert (1 <= IZR ms) by (apply IZR_le; destruct U; lia). rewrite Et. eapply Rle_trans; [apply rnd_rel|].
      rewrite Rabs_pos_eq by lra.
      assert (bpow radix2 (-150) <= bpow radix2 (-24)) by (apply bpow_le; lia).
      pose proof (bpow_gt_0 radix2 (-24)). nra. }
  assert (Mp : 0 <= m') by (destruct (nn_cases _ Nt) as [E|(_ & P & _)]; [rewrite E in Ft; discriminate|exact P]).
  pose proof (bpow_gt_0 radix2 (-24)) as U0. pose proof (bpow_gt_0 radix2 (-150)) as T0.
  assert (U1 : bpow radix2 (-24) <= / 1000000). { cbn. lra. }
  assert (X : Rabs (m' / B2R l - x) <= 2 * bpow radix2 (-24) * x).
  { unfold x, Rdiv. rewrite <- Rmult_minus_distr_r, Rabs_mult, (Rabs_pos_eq (/ B2R l)) by lra.
    replace (2 * bpow radix2 (-24) * (IZR ms * / B2R l)) with (2 * bpow radix2 (-24) * IZR ms * / B2R l) by ring.
    apply Rmult_le_compat_r; lra. }
  assert (X0 : 0 <= x) by (unfold x, Rdiv; nra).
  assert (Q0 : 0 <= m' / B2R l) by (unfold Rdiv; nra).
  pose proof (Bdiv_correct 24 128 Hprec32 Hemax32 mode_NE (nof ms) l NZ) as C.
  change (Bdiv mode_NE (nof ms) l) with q in C. fold m' in C.
  destruct (Rlt_bool_spec (Rabs (rnd32 (m' / B2R l))) (bpow radix2 128)) as [O|O] in C.
  - right. destruct C as (E & F & _). rewrite Ft in F. split; [exact F|]. rewrite E. split.
    { rewrite <- rnd_0. apply rnd_mono. exact Q0. }
    split.
    + pose proof (rnd_rel (m' / B2R l)) as Rq. rewrite (Rabs_pos_eq (m' / B2R l)) in Rq by exact Q0.
      apply Rabs_le_inv in X. apply Rabs_le_inv in Rq. apply Rabs_le.
      assert (Uz : bpow radix2 (-24) * (m' / B2R l) <= bpow radix2 (-24) * (2 * x)) by (apply Rmult_le_compat_l; nra).
      split; nra.
    + intros Px. apply Rlt_le_trans with (bpow radix2 (-128)); [apply bpow_gt_0|].
      replace (bpow radix2 (-128)) with (rnd32 (bpow radix2 (-128))).
      2: { apply round_generic; [apply valid_rnd_round_mode|]. apply generic_format_bpow. cbn. lia. }
      apply rnd_mono.
      assert (M1 : 1 <= m').
      { destruct (Z.eq_dec ms 0) as [->|Nz]; [exfalso; unfold x, Rdiv in Px; lra|].
        rewrite Et. replace 1 with (rnd32 1).
        - apply rnd_mono. apply IZR_le. destruct U; lia.
        - apply round_generic; [apply valid_rnd_round_mode|]. change 1 with (bpow radix2 0). apply generic_format_bpow. cbn. lia. }
      assert (Lm : B2R l <= bpow radix2 128).
      { pose proof (abs_B2R_lt_emax 24 128 l) as A. rewrite Rabs_pos_eq in A by lra. lra. }
      assert (E1 : bpow radix2 (-128) * bpow radix2 128 = 1) by (rewrite <- bpow_plus; reflexivity).
      pose proof (bpow_gt_0 radix2 (-128)).
      apply Rmult_le_reg_r with (B2R l); [lra|]. unfold Rdiv. rewrite Rmult_assoc, Rinv_l by lra. nra.
  - left. rewrite (proj1 Nt), Sl in C. apply overflow_inf in C. split; [exact C|].
    rewrite Rabs_pos_eq in O by (rewrite <- rnd_0; apply rnd_mono; exact Q0).
    pose proof (rnd_rel (m' / B2R l)) as Rq. rewrite (Rabs_pos_eq (m' / B2R l)) in Rq by exact Q0.
    assert (B1 : bpow radix2 (-150) <= 1) by (cbn; lra).
    assert (B2 : 1000000 <= bpow radix2 128) by (cbn; lra).
    apply Rabs_le_inv in X. apply Rabs_le_inv in Rq. nra.
Qed.

(** The error after [n] calls, [x] lengths into the animation. *)
Definition lin_err (n : nat) (x : R) : R := INR n * (bpow radix2 (-23) + 3 * bpow radix2 (-150)) + 4 * bpow radix2 (-24) * x.

(** Close to the exact value, or past the end. *)
Definition lin_near (v : f32) (n : nat) (x : R) : Prop :=
  nn v /\ ((x <= 2 /\ is_finite v = true /\ Rabs (B2R v - x) <= lin_err n x) \/ (2 < x /\ nleb (nof 1) v = true)).

Lemma lin_err_small n x : (Z.of_nat n <= 2 ^ 20)%Z -> 0 <= x <= 2 -> 0 <= lin_err n x <= / 4.
Proof.
  intros Hn Hx. unfold lin_err. rewrite INR_IZR_INZ.
  assert (0 <= IZR (Z.of_nat n)) by (apply IZR_le; lia). assert (IZR (Z.of_nat n) <= IZR (2 ^ 20)) as Hn' by (apply IZR_le; lia).
  change (IZR (2 ^ 20)) with 1048576 in Hn'.
  assert (A : bpow radix2 (-150) <= bpow radix2 (-30)) by (apply bpow_le; lia).
  pose proof (bpow_gt_0 radix2 (-150)). pose proof (bpow_gt_0 radix2 (-24)). pose proof (bpow_gt_0 radix2 (-23)).
  assert (B : bpow radix2 (-23) + 3 * bpow radix2 (-30) <= / 8000000) by (cbn; lra).
  assert (C : bpow radix2 (-24) <= / 16000000) by (cbn; lra).
  split; nra.
Qed.

Lemma lin_near_step (l v : f32) n x ms : is_u32 ms -> is_finite l = true -> 0 < B2R l -> (Z.of_nat (S n) <= 2 ^ 20)%Z -> 0 <= x ->
  lin_near v n x -> lin_near (nadd v (ndiv (nof ms) l)) (S n) (x + IZR ms / B2R l).
Proof.
  intros U Fl Pl Hn X0 (Nv & Cv). destruct (of_u32 ms U) as (Nt & Ft & _).
  assert (Lpos : nltb (nof 0) l = true).
  { cbn [nltb Num_f32 Num_IEEE]. rewrite Bltb_correct by (auto; reflexivity). apply Rlt_bool_true.
    destruct (of_u32 0) as (_ & _ & E0); [cbv; split; congruence|].
    change (binary_normalize 24 128 Hprec32 Hemax32 mode_NE 0 0 false) with (nof 0 : f32). rewrite E0, rnd_0. exact Pl. }
  pose proof (div_nn (nof ms) l Nt Ft Lpos) as Nd. destruct (add_nn v _ Nv Nd) as (Na & Le1 & Le2).
  split; [exact Na|].
  assert (Q : 0 <= IZR ms / B2R l).
  { assert (0 <= IZR ms) by (apply IZR_le; destruct U; lia). assert (0 < / B2R l) by (apply Rinv_0_lt_compat; auto). unfold Rdiv. nra. }
  assert (N1 : nn (nof 1 : f32)) by (split; reflexivity).
  destruct Cv as [(X2 & Fv & Ev)|(X2 & Gv)].
  2: { right. split; [lra|]. apply le_trans32 with v; auto. }
  destruct (quotient_near l ms U Fl Pl) as [(Ei & Big)|(Fq & Pq & Eq & _)].
  { right. split; [lra|]. apply le_trans32 with (ndiv (nof ms) l); auto. rewrite Ei. reflexivity. }
  set (q := ndiv (nof ms) l) in *. set (y := IZR ms / B2R l) in *.
  pose proof (lin_err_small n x ltac:(lia) ltac:(lra)) as Es.
  assert (Pv : 0 <= B2R v) by (destruct (nn_cases _ Nv) as [E|(_ & P & _)]; [rewrite E in Fv; discriminate|exact P]).
  pose proof (bpow_gt_0 radix2 (-24)) as U0. pose proof (bpow_gt_0 radix2 (-150)) as T0.
  assert (U1 : bpow radix2 (-24) <= / 1000000) by (cbn; lra).
  assert (T1 : bpow radix2 (-150) <= / 1000000). { apply Rle_trans with (bpow radix2 (-24)); [apply bpow_le; lia|lra]. }
  apply Rabs_le_inv in Ev. apply Rabs_le_inv in Eq.
  pose proof (Bplus_correct 24 128 Hprec32 Hemax32 mode_NE v q Fv Fq) as C.
  change (Bplus mode_NE v q) with (nadd v q) in C.
  destruct (Rle_lt_dec (x + y) 2) as [Hs|Hs].
  - left. split; [exact Hs|].
    assert (Small : Rabs (B2R v + B2R q) < 4) by (rewrite Rabs_pos_eq by lra; nra).
    rewrite Rlt_bool_true in C.
    + destruct C as (E & F & _). split; [exact F|]. rewrite E.
      pose proof (rnd_err4 _ Small) as Er. apply Rabs_le_inv in Er. apply Rabs_le.
      unfold lin_err in *. rewrite S_INR. lra.
    + apply Rle_lt_trans with (bpow radix2 2); [|apply bpow_lt; lia].
      apply abs_round_le_generic; [apply fexp_correct; reflexivity|apply valid_rnd_round_mode|apply generic_format_bpow; cbn; lia|].
      change (bpow radix2 2) with 4. lra.
  - right. split; [exact Hs|].
    destruct (Rlt_bool_spec (Rabs (rnd32 (B2R v + B2R q))) (bpow radix2 128)) as [O|O] in C.
    + destruct C as (E & F & _). rewrite le32 by auto. fold one32. rewrite one32_R, E. apply Rle_bool_true.
      replace 1 with (rnd32 1).
      2: { apply round_generic; [apply valid_rnd_round_mode|]. change 1 with (bpow radix2 0). apply generic_format_bpow. cbn. lia. }
      apply rnd_mono. nra.
    + destruct C as (E & _). rewrite (proj1 Nv) in E. apply overflow_inf in E. rewrite E. reflexivity.
Qed.

Lemma lin_near_calls (ts : list Z) : forall (s : linear f32) n x k v,
  is_finite (lin_length s) = true -> 0 < B2R (lin_length s) -> all_u32 ts -> (Z.of_nat (length ts + n) <= 2 ^ 20)%Z -> 0 <= x ->
  lin_near (lin_progress s) n x -> nth_error (fst (calls linear_call s ts)) k = Some v ->
  lin_near v (n + S k) (x + IZR (total ts k) / B2R (lin_length s)).
Proof.
  induction ts as [|t ts IH]; intros s n x k v F P U Hn X N E; [destruct k; discriminate|].
  inversion U as [|? ? Ut Us]; subst. rewrite calls_cons in E. cbn [length] in Hn.
  pose proof (lin_near_step (lin_length s) (lin_progress s) n x t Ut F P ltac:(lia) X N) as Nt.
  assert (Q : 0 <= IZR t / B2R (lin_length s)).
  { assert (0 <= IZR t) by (apply IZR_le; destruct Ut; lia). assert (0 < / B2R (lin_length s)) by (apply Rinv_0_lt_compat; auto). unfold Rdiv. nra. }
  destruct k as [|k]; cbn [nth_error] in E.
  - injection E as <-. unfold linear_call. cbn [fst]. replace (n + 1)%nat with (S n) by lia.
    unfold total. cbn [firstn elapsed]. rewrite Z.add_0_r. exact Nt.
  - apply (IH (snd (linear_call s t)) (S n) (x + IZR t / B2R (lin_length s)) k v F P Us ltac:(lia) ltac:(lra)) in E; [|exact Nt].
    replace (n + S (S k))%nat with (S n + S k)%nat by lia.
    replace (x + IZR (total (t :: ts) (S k)) / B2R (lin_length s)) with (x + IZR t / B2R (lin_length s) + IZR (total ts k) / B2R (lin_length s)); [exact E|].
    unfold total. cbn [firstn elapsed]. rewrite plus_IZR. unfold Rdiv. ring.
Qed.

(** The values are positive as soon as some time has passed. *)
Lemma lin_pos_calls (ts : list Z) : forall (s : linear f32) k v,
  nn (lin_progress s) -> is_finite (lin_length s) = true -> 0 < B2R (lin_length s) -> nltb (nof 0) (lin_length s) = true -> all_u32 ts ->
  (nltb (nof 0) (lin_progress s) = true \/ (0 < total ts k)%Z) ->
  nth_error (fst (calls linear_call s ts)) k = Some v -> nltb (nof 0) v = true.
Proof.
  assert (Up : forall x y : f32, nn x -> nn y -> nltb (nof 0) x = true -> nleb x y = true -> nltb (nof 0) y = true).
  { intros x y X Y G L. destruct (nn_cases y Y) as [->|(Fy & _ & _)]; [reflexivity|].
    destruct (nn_cases x X) as [->|(Fx & _ & _)]. { destruct y as [| | |]; try discriminate Fy; discriminate L. }
    rewrite lt32 in * by (auto; reflexivity). rewrite le32 in L by auto.
    destruct (Rlt_bool_spec (B2R (nof 0 : f32)) (B2R x)); [|discriminate]. destruct (Rle_bool_spec (B2R x) (B2R y)); [|discriminate].
    apply Rlt_bool_true. lra. }
  induction ts as [|t ts IH]; intros s k v N F P L U T E; [destruct k; discriminate|].
  inversion U as [|? ? Ut Us]; subst. rewrite calls_cons in E. destruct (of_u32 t Ut) as (Nt & Ft & _).
  pose proof (div_nn (nof t) (lin_length s) Nt Ft L) as Nd.
  destruct (add_nn (lin_progress s) _ N Nd) as (Na & Le1 & Le2).
  assert (G : nltb (nof 0) (lin_progress s) = true \/ (0 < t)%Z -> nltb (nof 0) (fst (linear_call s t)) = true).
  { unfold linear_call. cbn [fst]. intros [G|G]; [apply Up with (lin_progress s); auto|].
    apply Up with (ndiv (nof t) (lin_length s)); auto.
    assert (0 < IZR t) by (apply IZR_lt; exact G). assert (0 < / B2R (lin_length s)) by (apply Rinv_0_lt_compat; auto).
    destruct (quotient_near (lin_length s) t Ut F P) as [(Ei & _)|(Fq & _ & _ & Pq)]; [rewrite Ei; reflexivity|].
    rewrite lt32 by (auto; reflexivity). apply Rlt_bool_true. change (B2R (nof 0 : f32)) with 0. apply Pq. unfold Rdiv. nra. }
  destruct k as [|k]; cbn [nth_error] in E.
  - injection E as <-. apply G. destruct T as [T|T]; auto. right. unfold total in T. cbn [firstn elapsed] in T. lia.
  - apply (IH (snd (linear_call s t)) k v Na F P L Us); [|exact E].
    assert (D : total (t :: ts) (S k) = (t + total ts k)%Z) by reflexivity.
    destruct T as [T|T]; [left; apply G; auto|]. destruct (Z.eq_dec t 0) as [->|Nz]; [right; lia|].
    left. apply G. right. destruct Ut. lia.
Qed.

Lemma lin_err_le n x : (Z.of_nat n <= 2 ^ 20)%Z -> 0 <= x <= 2 -> lin_err n x <= (INR n + 5) * bpow radix2 (-23).
Proof.
  intros Hn Hx. unfold lin_err. rewrite INR_IZR_INZ.
  assert (0 <= IZR (Z.of_nat n)) by (apply IZR_le; lia). assert (IZR (Z.of_nat n) <= IZR (2 ^ 20)) as Hn' by (apply IZR_le; lia).
  change (IZR (2 ^ 20)) with 1048576 in Hn'.
  assert (A : bpow radix2 (-150) <= bpow radix2 (-50)) by (apply bpow_le; lia).
  pose proof (bpow_gt_0 radix2 (-150)).
  assert (B : 1048576 * (3 * bpow radix2 (-50)) <= bpow radix2 (-23)) by (cbn; lra).
  assert (C : bpow radix2 (-23) = 2 * bpow radix2 (-24)) by (cbn; lra).
  pose proof (bpow_gt_0 radix2 (-24)). nra.
Qed.

Lemma lin_new_near (l : f32) : is_finite l = true -> 0 < B2R l -> lin_near (lin_progress (linear_new l)) 0 0.
Proof.
  intros F P. split; [split; reflexivity|]. left. split; [lra|]. split; [reflexivity|].
  unfold lin_err. cbn. rewrite Rminus_0_r, Rabs_R0. lra.
Qed.

Lemma positive_length (l : f32) : is_finite l = true -> 0 < B2R l -> nltb (nof 0) l = true.
Proof. intros F P. rewrite lt32 by (auto; reflexivity). apply Rlt_bool_true. exact P. Qed.


Lemma linear_value32 (l : f32) (ts : list Z) k v :
  is_finite l = true -> 0 < B2R l -> all_u32 ts -> (Z.of_nat (length ts) <= 2 ^ 20)%Z ->
  nth_error (fst (calls linear_call (linear_new l) ts)) k = Some v ->
  (IZR (total ts k) <= 2 * B2R l -> is_finite v = true /\ Rabs (B2R v - IZR (total ts k) / B2R l) <= (INR k + 6) * bpow radix2 (-23)) /\
  (2 * B2R l < IZR (total ts k) -> nleb (nof 1) v = true).
Proof.
  intros F P U Hn E.
  assert (K : (k < length ts)%nat).
  { assert (Q : length (fst (calls linear_call (linear_new l) ts)) = length ts).
    { generalize (linear_new l). induction ts as [|t ts IHt]; intros s; [reflexivity|]. rewrite calls_cons. cbn [length]. f_equal.
      inversion U; subst. clear -ts. generalize (snd (linear_call s t)). induction ts as [|t' ts IH]; intros s'; [reflexivity|]. rewrite calls_cons. cbn [length]. f_equal. apply IH. }
    rewrite <- Q. apply nth_error_Some. congruence. }
  apply (lin_near_calls ts (linear_new l) 0 0 k v F P U ltac:(lia) (Rle_refl 0) (lin_new_near l F P)) in E.
  change (lin_length (linear_new l)) with l in E. rewrite Rplus_0_l in E. cbn [Nat.add] in E. destruct E as (_ & C).
  assert (I : / B2R l * B2R l = 1) by (apply Rinv_l; lra). assert (Pi : 0 < / B2R l) by (apply Rinv_0_lt_compat; auto).
  assert (T0 : 0 <= IZR (total ts k)) by (apply IZR_le, total_nonneg; auto).
  assert (Q0 : 0 <= IZR (total ts k) / B2R l) by (unfold Rdiv; nra).
  assert (D : IZR (total ts k) / B2R l * B2R l = IZR (total ts k)) by (unfold Rdiv; rewrite Rmult_assoc, I; ring).
  split; intros G.
  - destruct C as [(G2 & Fv & Ev)|(G2 & _)]; [|exfalso; nra]. split; [exact Fv|]. eapply Rle_trans; [exact Ev|].
    eapply Rle_trans; [apply lin_err_le; [lia|lra]|]. rewrite S_INR. lra.
  - destruct C as [(G2 & _)|(_ & G2)]; [exfalso; nra|exact G2].
Qed.

Lemma linear_progress32 (L1 : Libm f32) (L2 : Libm f64) c (l : f32) (a a' : anim f32 f64 (linear f32)) (ts : list Z) rs k p b :
  is_finite l = true -> 0 < B2R l -> all_u32 ts -> (Z.of_nat (length ts) < 2 ^ 20)%Z ->
  anim_new linear_call c (linear_new l) = Ok a -> anim_steps linear_call a ts = Ok (a', rs) ->
  nth_error rs k = Some (p, b) ->
  let x := IZR (total ts k) / B2R l in let err := (INR k + 7) * bpow radix2 (-23) in
  is_finite p = true /\ Rabs (B2R p - Rmin 1 x) <= err /\
  (1 + err <= x -> B2R p = 1 /\ b = false) /\
  (0 < x < 1 - err -> 0 < B2R p < 1 /\ b = true).
Proof.
  intros F P U Hn E Es N x err. pose proof (positive_length l F P) as L.
  apply new_progress in E. destruct E as [_ Sa]. apply steps_progress in Es. destruct Es as [-> _]. rewrite Sa in N. rewrite nth_error_map in N.
  set (s0 := snd (linear_call (linear_new l) 0)) in *.
  destruct (nth_error (fst (calls linear_call s0 ts)) k) as [v|] eqn:V; [|discriminate].
  cbn [option_map] in N. injection N as <- <-.
  assert (V' : nth_error (fst (calls linear_call (linear_new l) (0%Z :: ts))) (S k) = Some v) by (rewrite calls_cons; exact V).
  assert (U0 : all_u32 (0%Z :: ts)) by (constructor; [cbv; split; congruence|exact U]).
  destruct (linear_value32 l (0%Z :: ts) (S k) v F P U0 ltac:(cbn [length]; lia) V') as (Near & Far).
  change (total (0%Z :: ts) (S k)) with (0 + total ts k)%Z in *. rewrite Z.add_0_l in *. fold x in Near.
  assert (I : / B2R l * B2R l = 1) by (apply Rinv_l; lra). assert (Pi : 0 < / B2R l) by (apply Rinv_0_lt_compat; auto).
  assert (T0 : 0 <= IZR (total ts k)) by (apply IZR_le, total_nonneg; auto).
  assert (X0 : 0 <= x) by (unfold x, Rdiv; nra).
  assert (D : x * B2R l = IZR (total ts k)) by (unfold x, Rdiv; rewrite Rmult_assoc, I; ring).
  assert (Ee : (INR (S k) + 6) * bpow radix2 (-23) = err) by (unfold err; rewrite S_INR; ring). rewrite Ee in Near.
  assert (E0 : 0 <= err) by (unfold err; pose proof (pos_INR k); pose proof (bpow_gt_0 radix2 (-23)); nra).
  pose proof (clamp_unit v) as CU.
  destruct (Rle_lt_dec x 2) as [X2|X2].
  - destruct Near as (Fv & Ev); [nra|]. clear Far. apply Rabs_le_inv in Ev.
    destruct (linear32_mono (0%Z :: ts) (linear_new l)) as (A & _ & _); auto. { split; reflexivity. }
    rewrite Forall_forall in A. specialize (A v (nth_error_In _ _ V')).
    assert (Pv : 0 <= B2R v) by (destruct (nn_cases _ A) as [E1|(_ & P1 & _)]; [rewrite E1 in Fv; discriminate|exact P1]).
    destruct (Rle_lt_dec 1 (B2R v)) as [G|G].
    + assert (O : nleb (nof 1) v = true). { rewrite le32 by (auto; reflexivity). fold one32. rewrite one32_R. apply Rle_bool_true. exact G. }
      rewrite (clamp_one v O), one32_R. split; [reflexivity|]. split.
      { apply Rabs_le. unfold Rmin. destruct (Rle_dec 1 x); lra. }
      split; [intros _; split; reflexivity|]. intros (G1 & G2). exfalso. lra.
    + assert (IU : in_unit v) by (split; [exact Fv|lra]). rewrite (clamp_keeps v IU). split; [apply CU|]. split.
      { apply Rabs_le. unfold Rmin. destruct (Rle_dec 1 x); lra. }
      split; [intros G1; exfalso; lra|]. intros (G1 & G2).
      assert (Gv : 0 < B2R v).
      { pose proof (lin_pos_calls (0%Z :: ts) (linear_new l) (S k) v ltac:(split; reflexivity) F P L U0) as Pp.
        assert (Q : nltb (nof 0) v = true).
        { apply Pp; [right|exact V']. change (total (0%Z :: ts) (S k)) with (0 + total ts k)%Z.
          apply lt_IZR. rewrite Z.add_0_l. change (IZR 0) with 0. nra. }
        rewrite lt32 in Q by (auto; reflexivity). change (B2R (nof 0 : f32)) with 0 in Q. destruct (Rlt_bool_spec 0 (B2R v)); [lra|discriminate]. }
      split; [lra|]. apply more_inside; [exact CU|]. split; [apply CU|]. rewrite (clamp_keeps v IU). lra.
  - pose proof (Far ltac:(nra)) as O. rewrite (clamp_one v O), one32_R. split; [reflexivity|]. split.
    { unfold Rmin. destruct (Rle_dec 1 x); [|lra]. rewrite Rminus_diag_eq, Rabs_R0 by reflexivity. exact E0. }
    split; [intros _; split; reflexivity|]. intros (G1 & G2). exfalso. lra.
Qed.
