(** * Properties C30-C36: steppers and progress *)

From Coq Require Import ZArith Reals Bool List Lra Lia.
From Flocq Require Import Core IEEE754.BinarySingleNaN.
From Verif Require Import Num Geometry Outcome Steppers Transforms MagicLamp Program SpecAnim LemReal LemBasic LemFloat LemSteppers.
Import ListNotations.
Local Open Scope Z_scope.

(** In this file a stepper is any function [call] on any state type, and the
    mathematical library is arbitrary. *)

(** ** C30 *)

(** After any sequence of steps and property changes with at least one step,
    the progress is a number in [0,1]. *)
Theorem C30_progress_in_unit :
  forall (L1 : Libm f32) (L2 : Libm f64) (St : Type) (call : St -> Z -> f32 * St),
    (forall (a : bounce f32 f64 St) ops,
       existsb bn_is_step ops = true -> in_unit (bn_progress (fold_left (bounce_do call) ops a))) /\
    (forall (a : glide f32 f64 St) ops,
       existsb gl_is_step ops = true -> in_unit (gl_progress (fold_left (glide_do call) ops a))) /\
    (forall (a : zoom f32 f64 St) ops,
       existsb zm_is_step ops = true -> in_unit (zm_progress (fold_left (zoom_do call) ops a))) /\
    (forall (a a' : lamp f32 f64 St) ops,
       existsb ml_is_step ops = true -> lamp_run call a ops = Ok a' -> in_unit (ml_progress a')).
Proof.
  intros. repeat split; [apply bounce_unit|apply bounce_unit|apply bounce_unit|apply glide_unit|apply glide_unit|apply glide_unit|
    apply zoom_unit|apply zoom_unit|apply zoom_unit|eapply lamp_unit|eapply lamp_unit|eapply lamp_unit]; eauto.
Qed.
Print Assumptions C30_progress_in_unit.

(** Steppers that return 7, -7, infinity and NaN. *)
Definition wild (s : unit) (ms : Z) : f32 * unit :=
  (if ms =? 1 then nof 7 else if ms =? 2 then nof (-7) else if ms =? 3 then inf32 else B754_nan, tt).

Example C30_case : forall (L1 : Libm f32) (L2 : Libm f64) (from to : box f64),
  let a := zoom_new wild from to tt in
  let p ms := zm_progress (fold_left (zoom_do wild) [ZmSetFrom to; ZmStep ms] a) in
  B2SF (p 1) = B2SF (nof 1 : f32) /\ p 2 = B754_zero false /\ B2SF (p 3) = B2SF (nof 1 : f32) /\ p 4 = B754_zero false.
Proof. intros. repeat split. Qed.

(** ** C31 *)

Theorem C31_step_result :
  forall (L1 : Libm f32) (L2 : Libm f64) (St : Type) (call : St -> Z -> f32 * St) (ms : Z) (a a' : anim f32 f64 St) (b : bool),
    anim_step call ms a = Ok (a', b) -> (b = true <-> inside_unit (anim_progress a')).
Proof.
  intros L1 L2 St call ms a a' b E. destruct (step_progress call ms a a' b E) as [P [_ B]]. rewrite B, P. apply more_inside, clamp_unit.
Qed.
Print Assumptions C31_step_result.

(** Every [Step] of an animation whose construction returned does return, however
    many steps are made. *)
Theorem C31_step_returns :
  forall (L1 : Libm f32) (L2 : Libm f64) (St : Type) (call : St -> Z -> f32 * St) c s (a : anim f32 f64 St) ts,
    anim_new call c s = Ok a -> exists a' rs, anim_steps call a ts = Ok (a', rs).
Proof. intros. eapply steps_total, new_steppable; eauto. Qed.
Print Assumptions C31_step_returns.

(** Linear (4): the results of steps of 0, 1, 2, 1 ms. *)
Example C31_case : forall (L1 : Libm f32) (L2 : Libm f64) (from to : box f64),
  exists a rs, anim_steps linear_call (AZoom (zoom_new linear_call from to (linear_new (nof 4)))) [0; 1; 2; 1] = Ok (a, rs) /\
    map snd rs = [false; true; true; false].
Proof.
  intros. destruct (C31_step_returns L1 L2 _ linear_call (NewZoom from to) (linear_new (nof 4 : f32)) _ [0; 1; 2; 1] eq_refl)
    as [a [rs E]]. exists a, rs. split; [exact E|]. apply steps_progress in E. destruct E as [-> _].
  rewrite map_map. cbn [anim_stepper]. unfold zoom_new. vm_compute. reflexivity.
Qed.

(** ** C32 *)

(** Construction stores the first value of the stepper as it is... *)
Theorem C32_first_value :
  forall (L1 : Libm f32) (L2 : Libm f64) (St : Type) (call : St -> Z -> f32 * St) c s (a : anim f32 f64 St),
    anim_new call c s = Ok a -> anim_progress a = fst (call s 0).
Proof. intros. eapply new_progress; eauto. Qed.
Print Assumptions C32_first_value.

(** ... so that the claim fails: there is a stepper that puts every bounce,
    glide, zoom and magic lamp outside [0,1] by its construction, and one that
    makes their progress NaN. *)
Theorem C32_construction_clamps_refuted :
  exists (call1 call2 : unit -> Z -> f32 * unit),
    forall (L1 : Libm f32) (L2 : Libm f64) c (a : anim f32 f64 unit),
      (anim_new call1 c tt = Ok a -> (B2R (anim_progress a) > 1)%R) /\
      (anim_new call2 c tt = Ok a -> anim_progress a = B754_nan).
Proof.
  exists (fun s _ => (nof 2, s)), (fun s _ => (B754_nan, s)). intros L1 L2 c a.
  split; intros E; apply new_progress in E; destruct E as [-> _]; cbn [fst]; auto.
  rewrite <- SF2R_B2SF. replace (B2SF (nof 2 : f32)) with (SpecFloat.S754_finite false 8388608 (-22)) by (vm_compute; reflexivity).
  cbn. unfold F2R. cbn. lra.
Qed.
Print Assumptions C32_construction_clamps_refuted.

(** With a linear stepper of positive length the progress starts at 0. *)
Theorem C32_linear_starts_at_zero :
  forall (L1 : Libm f32) (L2 : Libm f64) (l : f32) c (a : anim f32 f64 (linear f32)),
    nltb (nof 0) l = true -> anim_new linear_call c (linear_new l) = Ok a -> anim_progress a = B754_zero false.
Proof.
  intros L1 L2 l c a P E. apply new_progress in E. destruct E as [-> _]. unfold linear_call, linear_new. cbn [fst lin_progress lin_length].
  destruct l as [s|s| |s m e h]; try discriminate; destruct s; try discriminate; reflexivity.
Qed.
Print Assumptions C32_linear_starts_at_zero.

Example C32_case : forall (L1 : Libm f32) (L2 : Libm f64) (from to : box f64),
  nltb (nof 0) (nof 250 : f32) = true /\
  exists a, anim_new linear_call (NewZoom from to) (linear_new (nof 250)) = Ok a.
Proof. intros. split; [reflexivity|]. eexists; reflexivity. Qed.

(** ** C33 *)

(** The value returned by the [k]-th call is the time elapsed so far over the
    length. *)
Theorem C33_linear_value :
  forall (l : R) (ts : list Z),
    (0 < l)%R -> all_u32 ts ->
    length (fst (calls linear_call (linear_new l) ts)) = length ts /\
    forall k v, nth_error (fst (calls linear_call (linear_new l) ts)) k = Some v -> v = (IZR (total ts k) / l)%R.
Proof.
  intros l ts L U. rewrite linear_calls. split; [rewrite map_length, seq_length; auto|].
  intros k v E. rewrite nth_error_map in E. destruct (nth_error (seq 0 (length ts)) k) eqn:N; [|discriminate].
  cbn [option_map] in E. inversion E; subst. assert (K : (k < length ts)%nat). { rewrite <- (seq_length (length ts) 0). apply nth_error_Some. congruence. }
  assert (n = k). { apply (nth_error_nth _ _ 0%nat) in N. rewrite seq_nth in N by auto. lia. }
  subst. cbn. lra.
Qed.
Print Assumptions C33_linear_value.

(** Splitting the time differently does not matter. *)
Theorem C33_linear_split :
  forall (l : R) (ts us : list Z) (ms : Z),
    (0 < l)%R -> elapsed ts = elapsed us ->
    snd (calls linear_call (linear_new l) ts) = snd (calls linear_call (linear_new l) us) /\
    fst (calls linear_call (linear_new l) (ts ++ [ms])) <> [] /\
    last (fst (calls linear_call (linear_new l) (ts ++ [ms]))) 0%R = last (fst (calls linear_call (linear_new l) (us ++ [ms]))) 0%R.
Proof.
  intros l ts us ms _ E. rewrite !linear_state, E. split; [reflexivity|]. rewrite !linear_calls. rewrite !app_length. cbn [length].
  rewrite !Nat.add_1_r, !seq_S, !map_app. cbn [map]. rewrite !last_last. split; [intros X; symmetry in X; revert X; apply app_cons_not_nil|].
  unfold total. rewrite !firstn_all2 by (rewrite app_length; cbn; lia). rewrite !elapsed_app, E. reflexivity.
Qed.
Print Assumptions C33_linear_split.

(** An animation driven by it: after the [k]-th [Step] the progress is the time
    elapsed over the length, at most 1, and the [Step] returned true exactly when
    some but not all of the length has elapsed. *)
Theorem C33_linear_animation :
  forall (c : anim_args R R) (l : R) (a : anim R R (linear R)) (ts : list Z),
    (0 < l)%R -> all_u32 ts -> anim_new linear_call c (linear_new l) = Ok a ->
    exists a' rs, anim_steps linear_call a ts = Ok (a', rs) /\ length rs = length ts /\
      forall k p b, nth_error rs k = Some (p, b) ->
        p = Rmin 1 (IZR (total ts k) / l) /\ (b = true <-> (0 < IZR (total ts k) < l)%R).
Proof.
  intros c l a ts L U E. destruct (steps_total linear_call ts a (new_steppable _ _ _ _ E)) as [a' [rs Es]].
  exists a', rs. split; auto. apply new_progress in E. destruct E as [_ S]. apply steps_progress in Es. destruct Es as [-> _].
  rewrite S, linear_calls, !map_length, seq_length. split; auto. intros k p b N. rewrite !nth_error_map in N.
  destruct (nth_error (seq 0 (length ts)) k) as [n|] eqn:Q; [|discriminate].
  assert (K : (k < length ts)%nat). { rewrite <- (seq_length (length ts) 0). apply nth_error_Some. congruence. }
  assert (n = k). { apply (nth_error_nth _ _ 0%nat) in Q. rewrite seq_nth in Q by auto. lia. }
  subst n. cbn [option_map] in N. injection N as P B. subst b. cbn [snd linear_call lin_progress lin_length linear_new nzero nof Num_R nadd ndiv] in *.
  replace (0 + 0 / l + IZR (total ts k) / l)%R with (IZR (total ts k) / l)%R in * by (unfold Rdiv; lra).
  rewrite more_R, div_range by auto. split; [|reflexivity]. rewrite <- P, clamp_R. f_equal. apply Rmax_right.
  apply Rmult_le_pos; [apply IZR_le, total_nonneg; auto|]. apply Rlt_le, Rinv_0_lt_compat; auto.
Qed.
Print Assumptions C33_linear_animation.

Example C33_case : forall a b : box R,
  (0 < 100)%R /\ all_u32 [30; 0; 70; 5] /\ (exists x, anim_new linear_call (NewZoom a b) (linear_new 100%R) = Ok x) /\
  map (total [30; 0; 70; 5]) [0; 1; 2; 3]%nat = [30; 30; 100; 105].
Proof.
  intros. split; [lra|]. split; [repeat constructor; cbv; discriminate|]. split; [eexists; reflexivity|reflexivity].
Qed.

(** In single precision, for every positive length (also +infinity), the values
    are never NaN and never decrease. *)
Theorem C33_linear_never_decreases :
  forall (l : f32) (ts : list Z) k v w,
    nltb (nof 0) l = true -> all_u32 ts ->
    nth_error (fst (calls linear_call (linear_new l) ts)) k = Some v ->
    (nleb (nof 0) v = true) /\
    (nth_error (fst (calls linear_call (linear_new l) ts)) (S k) = Some w -> nleb v w = true).
Proof.
  intros l ts k v w L U E. destruct (linear32_mono ts (linear_new l)) as [A [B C]]; auto. { split; reflexivity. }
  rewrite Forall_forall in A. split; [|eauto]. destruct (nn_cases v (A v (nth_error_In _ _ E))) as [->|[F [P _]]]; [reflexivity|].
  rewrite le32 by auto. apply Rle_bool_true. exact P.
Qed.
Print Assumptions C33_linear_never_decreases.

(** Hence neither does the progress of an animation, and once it has reached 1 it
    stays there. *)
Theorem C33_progress_never_decreases :
  forall (L1 : Libm f32) (L2 : Libm f64) c (l : f32) (a a' : anim f32 f64 (linear f32)) (ts : list Z) rs k p b q b',
    nltb (nof 0) l = true -> all_u32 ts -> anim_new linear_call c (linear_new l) = Ok a ->
    anim_steps linear_call a ts = Ok (a', rs) ->
    nth_error rs k = Some (p, b) -> nth_error rs (S k) = Some (q, b') -> (B2R p <= B2R q)%R.
Proof.
  intros L1 L2 c l a a' ts rs k p b q b' L U E Es K1 K2. apply new_progress in E. destruct E as [_ S].
  apply steps_progress in Es. destruct Es as [-> _]. rewrite S in *. rewrite !nth_error_map in K1, K2.
  assert (N : nn (lin_progress (snd (linear_call (linear_new l) 0)))).
  { unfold linear_call, linear_new. cbn [snd lin_progress lin_length]. destruct (of_u32 0) as [N0 [F0 _]]; [lia|].
    apply add_nn; [split; reflexivity|]. apply div_nn; auto. }
  destruct (linear32_mono ts (snd (linear_call (linear_new l) 0))) as [A [_ C]]; auto.
  destruct (nth_error (fst (calls linear_call _ ts)) k) as [v|] eqn:V; [|discriminate].
  destruct (nth_error (fst (calls linear_call _ ts)) (Datatypes.S k)) as [w|] eqn:W; [|discriminate].
  cbn [option_map] in *. injection K1 as <- _. injection K2 as <- _. rewrite Forall_forall in A.
  apply clamp_mono; [apply A; eapply nth_error_In; eauto|apply A; eapply nth_error_In; eauto|eapply C; eauto].
Qed.
Print Assumptions C33_progress_never_decreases.

Example C33_single_case : forall (L1 : Libm f32) (L2 : Libm f64) (from to : box f64),
  nltb (nof 0) (nof 10 : f32) = true /\ all_u32 [3; 3; 7] /\
  exists a a' rs, anim_new linear_call (NewZoom from to) (linear_new (nof 10 : f32)) = Ok a /\
    anim_steps linear_call a [3; 3; 7] = Ok (a', rs) /\ map snd rs = [true; true; false].
Proof.
  intros. split; [reflexivity|]. split; [repeat constructor; cbv; discriminate|].
  destruct (C31_step_returns L1 L2 _ linear_call (NewZoom from to) (linear_new (nof 10 : f32)) _ [3; 3; 7] eq_refl)
    as [a' [rs E]]. eexists _, a', rs. split; [reflexivity|]. split; [exact E|]. apply steps_progress in E. destruct E as [-> _].
  rewrite map_map. cbn [anim_stepper]. unfold zoom_new. vm_compute. reflexivity.
Qed.

(** ** C34 *)

Definition value_after (l : f32) (ts : list Z) : f32 := last (fst (calls linear_call (linear_new l) ts)) (nof 0).

(** Twelve calls of 1 ms leave Linear (12) below 1; ten calls of 1 ms take
    Linear (10) above 1; and Linear (10000000) reaches 1 a millisecond before its
    length has elapsed. *)
Theorem C34_exact_length_refuted :
  elapsed (repeat 1 12) = 12 /\ nltb (value_after (nof 12) (repeat 1 12)) (nof 1) = true /\
  elapsed (repeat 1 10) = 10 /\ nltb (nof 1) (value_after (nof 10) (repeat 1 10)) = true /\
  elapsed (9999990 :: repeat 1 9) = 10000000 - 1 /\
  neqb (value_after (nof 10000000) (9999990 :: repeat 1 9)) (nof 1) = true.
Proof. repeat split; vm_compute; reflexivity. Qed.
Print Assumptions C34_exact_length_refuted.

(** A Linear stepper of 2^26 ms (19 hours) called every millisecond never gets
    beyond a quarter, however long it runs ([n] calls). *)
Theorem C34_never_finishes_refuted :
  forall n : nat, exists p : f32,
    snd (calls linear_call (linear_new (nof (2 ^ 26))) (repeat 1 n)) = mkLinear p (nof (2 ^ 26)) /\
    is_finite p = true /\ B2R p = (IZR (Z.min (Z.of_nat n) (2 ^ 24)) / IZR (2 ^ 26))%R /\ (B2R p <= 1 / 4)%R.
Proof.
  intros n. destruct (slow_state n) as [p [E [F [_ R]]]]. exists p. split; auto. split; auto.
  assert (Q : B2R p = (IZR (Z.min (Z.of_nat n) (2 ^ 24)) / IZR (2 ^ 26))%R) by (rewrite R; cbn; unfold Rdiv; lra).
  split; auto. rewrite Q. assert (I : (IZR (Z.min (Z.of_nat n) (2 ^ 24)) <= IZR (2 ^ 24))%R) by (apply IZR_le; lia). cbn in *. lra.
Qed.
Print Assumptions C34_never_finishes_refuted.

(** What does hold: a single [Step] of at least the length finishes the
    animation, from whatever state earlier steps left it in, and it stays
    finished. *)
Theorem C34_long_step_finishes :
  forall (L1 : Libm f32) (L2 : Libm f64) c (l : f32) (a a' : anim f32 f64 (linear f32)) (ts us : list Z) (ms : Z) rs k p b,
    nltb (nof 0) l = true -> is_finite l = true -> all_u32 (ts ++ ms :: us) -> (B2R l <= IZR ms)%R ->
    anim_new linear_call c (linear_new l) = Ok a ->
    anim_steps linear_call a (ts ++ ms :: us) = Ok (a', rs) ->
    (length ts <= k)%nat -> nth_error rs k = Some (p, b) -> B2R p = 1%R /\ b = false.
Proof.
  intros L1 L2 c l a a' ts us ms rs k p b L FL U G E Es K N. apply new_progress in E. destruct E as [_ S].
  apply steps_progress in Es. destruct Es as [-> _]. rewrite S in N. rewrite nth_error_map in N.
  set (s0 := snd (linear_call (linear_new l) 0)) in *.
  assert (N0 : nn (lin_progress s0)).
  { unfold s0, linear_call, linear_new. cbn [snd lin_progress lin_length]. destruct (of_u32 0) as [Z0 [F0 _]]; [lia|].
    apply add_nn; [split; reflexivity|]. apply div_nn; auto. }
  assert (Ls : lin_length s0 = l) by reflexivity.
  destruct (nth_error (fst (calls linear_call s0 (ts ++ ms :: us))) k) as [v|] eqn:V; [|discriminate].
  assert (One : nleb (nof 1) v = true). { eapply linear32_finished; eauto; rewrite Ls; auto. }
  cbn [option_map] in N. injection N as <- <-. rewrite (clamp_one v One). split; [apply one32_R|reflexivity].
Qed.
Print Assumptions C34_long_step_finishes.

Example C34_case : nltb (nof 0) (nof 1000 : f32) = true /\ is_finite (nof 1000 : f32) = true /\
  all_u32 ([16; 16] ++ 1000 :: [16]) /\ B2R (nof 1000 : f32) = 1000%R.
Proof.
  split; [reflexivity|]. split; [reflexivity|]. split; [repeat constructor; cbv; discriminate|].
  rewrite <- SF2R_B2SF. replace (B2SF (nof 1000 : f32)) with (SpecFloat.S754_finite false 16384000 (-14)) by (vm_compute; reflexivity).
  cbn. unfold F2R. cbn. lra.
Qed.

(** ** C35 *)

Theorem C35_reverse_complements :
  forall (F : Type) (N : Num F) (St : Type) (call : St -> Z -> F * St) (s : St) (ts : list Z),
    fst (calls (reverse_call call) s ts) = map (fun v => nsub (nof 1) v) (fst (calls call s ts)) /\
    snd (calls (reverse_call call) s ts) = snd (calls call s ts).
Proof. intros. rewrite reverse_calls. auto. Qed.
Print Assumptions C35_reverse_complements.

Theorem C35_reverse_twice :
  forall (St : Type) (call : St -> Z -> R * St) (s : St) (ts : list Z),
    calls (reverse_call (reverse_call call)) s ts = calls call s ts.
Proof.
  intros St call s ts. revert s. induction ts as [|t ts IH]; intros s; cbn [calls]; auto.
  rewrite reverse_twice. destruct (call s t) as [v s1]. rewrite IH. reflexivity.
Qed.
Print Assumptions C35_reverse_twice.

(** A reversed linear animation starts at 1, and reaches 0 when the length has
    elapsed. *)
Theorem C35_reversed_linear :
  forall (c : anim_args R R) (l : R) (a : anim R R (linear R)) (ts : list Z),
    (0 < l)%R -> all_u32 ts -> anim_new (reverse_call linear_call) c (linear_new l) = Ok a ->
    anim_progress a = 1%R /\
    exists a' rs, anim_steps (reverse_call linear_call) a ts = Ok (a', rs) /\ length rs = length ts /\
      forall k p b, nth_error rs k = Some (p, b) ->
        p = Rmax 0 (1 - IZR (total ts k) / l) /\ (b = true <-> (0 < IZR (total ts k) < l)%R).
Proof.
  intros c l a ts L U E. destruct (steps_total (reverse_call linear_call) ts a (new_steppable _ _ _ _ E)) as [a' [rs Es]].
  apply new_progress in E. destruct E as [P0 S]. split.
  { rewrite P0. unfold reverse_call, linear_call, linear_new. cbn. unfold Rdiv. lra. }
  exists a', rs. split; auto. apply steps_progress in Es. destruct Es as [-> _].
  rewrite S, reverse_calls. cbn [fst]. rewrite linear_calls, !map_length, seq_length. split; auto. intros k p b N. rewrite !nth_error_map in N.
  destruct (nth_error (seq 0 (length ts)) k) as [n|] eqn:Q; [|discriminate].
  assert (K : (k < length ts)%nat). { rewrite <- (seq_length (length ts) 0). apply nth_error_Some. congruence. }
  assert (n = k). { apply (nth_error_nth _ _ 0%nat) in Q. rewrite seq_nth in Q by auto. lia. }
  subst n. cbn [option_map] in N. injection N as P B. subst b.
  cbn [snd reverse_call linear_call lin_progress lin_length linear_new nzero nof Num_R nadd nsub ndiv] in *.
  replace (1 - (0 + 0 / l + IZR (total ts k) / l))%R with (1 - IZR (total ts k) / l)%R in * by (unfold Rdiv; lra).
  rewrite more_R. rewrite <- (div_range _ _ L). split; [|lra]. rewrite <- P, clamp_R.
  assert (G : (0 <= IZR (total ts k) / l)%R). { apply Rmult_le_pos; [apply IZR_le, total_nonneg; auto|]. apply Rlt_le, Rinv_0_lt_compat; auto. }
  unfold Rmin, Rmax. destruct (Rle_dec 0 _); destruct (Rle_dec 1 _); lra.
Qed.
Print Assumptions C35_reversed_linear.

Example C35_case : forall a b : box R,
  (0 < 100)%R /\ all_u32 [30; 70; 5] /\ exists x, anim_new (reverse_call linear_call) (NewZoom a b) (linear_new 100%R) = Ok x.
Proof. intros. split; [lra|]. split; [repeat constructor; cbv; discriminate|]. eexists; reflexivity. Qed.

(** ** C36 *)

(** Construction calls the caller's stepper once, with 0, and takes a copy of the
    state it is then in. *)
Theorem C36_construction :
  forall (F D : Type) (NF : Num F) (ND : Num D) (C : Conv F D) (L1 : Libm F) (L2 : Libm D)
         (St : Type) (call : St -> Z -> F * St) (w w' : world F D St) c i,
    world_do call w (WNew c i) = Ok w' ->
    exists s x, nth_error (w_steppers w) i = Some s /\
      w_anims w' = w_anims w ++ [Some x] /\ anim_progress x = fst (call s 0) /\ anim_stepper x = snd (call s 0) /\
      w_steppers w' = list_set i (snd (call s 0)) (w_steppers w).
Proof. intros. eapply construct_do; eauto. Qed.
Print Assumptions C36_construction.

(** Whatever the program does, the state of a stepper variable is the one
    produced by the calls on that variable alone: no animation's [Step] advances
    it. *)
Theorem C36_caller_unaffected :
  forall (F D : Type) (NF : Num F) (ND : Num D) (C : Conv F D) (L1 : Libm F) (L2 : Libm D)
         (St : Type) (call : St -> Z -> F * St) (w w' : world F D St) ops i s,
    world_run call w ops = Ok w' -> nth_error (w_steppers w) i = Some s ->
    nth_error (w_steppers w') i = Some (snd (calls call s (own_calls i ops))).
Proof. intros. eapply stepper_run; eauto. Qed.
Print Assumptions C36_caller_unaffected.

(** And the state of an animation, until its stepper is replaced, is the one
    produced by its own [Step]s alone. *)
Theorem C36_animation_unaffected :
  forall (F D : Type) (NF : Num F) (ND : Num D) (C : Conv F D) (L1 : Libm F) (L2 : Libm D)
         (St : Type) (call : St -> Z -> F * St) (w w' : world F D St) ops a x,
    world_run call w ops = Ok w' -> nth_error (w_anims w) a = Some (Some x) -> left_alone a ops ->
    exists x' rs, nth_error (w_anims w') a = Some (Some x') /\ anim_steps call x (own_steps a ops) = Ok (x', rs).
Proof. intros. eapply anim_run; eauto. Qed.
Print Assumptions C36_animation_unaffected.

(** After its stepper is replaced the animation's progress is given by the new
    stepper, started in the state it had then; the caller's variable is not
    advanced by that. *)
Theorem C36_replacement :
  forall (F D : Type) (NF : Num F) (ND : Num D) (C : Conv F D) (L1 : Libm F) (L2 : Libm D)
         (St : Type) (call : St -> Z -> F * St) (w w1 w2 : world F D St) a i ops,
    world_do call w (WSetStepper a i) = Ok w1 -> world_run call w1 ops = Ok w2 -> left_alone a ops ->
    exists s x x' rs, nth_error (w_steppers w) i = Some s /\ w_steppers w1 = w_steppers w /\
      nth_error (w_anims w1) a = Some (Some x) /\ nth_error (w_anims w2) a = Some (Some x') /\
      anim_steps call x (own_steps a ops) = Ok (x', rs) /\
      map fst rs = map (fun v => clamp v (nof 0) (nof 1)) (fst (calls call s (own_steps a ops))).
Proof.
  intros F D NF ND C L1 L2 St call w w1 w2 a i ops E1 E2 LA.
  destruct (replace_do call w w1 a i E1) as [s [x [S [W [X T]]]]].
  destruct (anim_run call ops w1 w2 a x E2 X LA) as [x' [rs [X' R]]]. exists s, x, x', rs.
  do 5 (split; [auto|]). apply steps_progress in R. destruct R as [-> _]. rewrite T, map_map. reflexivity.
Qed.
Print Assumptions C36_replacement.

(** Two animations built from one variable, with calls interleaved. *)
Example C36_case : forall b : box R,
  let ops := [WStepper (linear_new 100%R); WNew (NewZoom b b) 0; WNew (NewBounce 0 2 3 b)%R 0;
              WCall 0 40; WStep 0 10; WStep 1 20; WStep 0 10] in
  (exists w, world_run (F := R) (D := R) linear_call (mkWorld [] []) ops = Ok w) /\ left_alone 0 ops /\ own_steps 0 ops = [10; 10] /\
  own_calls 0 ops = [0; 0; 40].
Proof.
  intros b ops. split; [|split; [repeat constructor|split; reflexivity]]. unfold ops. cbn. eexists. reflexivity.
Qed.
