(** * C33, C34, C35, C81: linear animations in [float] and [double] *)

From Coq Require Import ZArith Reals Bool List Lia Lra.
From Flocq Require Import Core IEEE754.BinarySingleNaN.
From Verif Require Import Num Geometry Outcome Steppers Transforms Program SpecAnim SpecDouble SpecFinal LemFloat LemSteppers LemFinal LemTransforms LemLinear32 LemReverse32 LemRunOut PropFinal.
Import ListNotations.
Local Open Scope R_scope.

(** ** C33 *)

(** In single precision the value of Linear (length) after [k + 1] calls is the
    elapsed fraction of the length, up to [(k + 6) / 2^23], for every finite
    positive length, every sequence of up to 2^20 step times and every way the
    time is split. *)
Theorem C33_value_in_single :
  forall (l : f32) (ts : list Z) (k : nat) (v : f32),
    is_finite l = true -> 0 < B2R l -> all_u32 ts -> (Z.of_nat (length ts) <= 2 ^ 20)%Z ->
    nth_error (fst (calls linear_call (linear_new l) ts)) k = Some v ->
    (IZR (total ts k) <= 2 * B2R l ->
       is_finite v = true /\ Rabs (B2R v - IZR (total ts k) / B2R l) <= (INR k + 6) * bpow radix2 (-23)) /\
    (2 * B2R l < IZR (total ts k) -> nleb (nof 1) v = true).
Proof. exact linear_value32. Qed.
Print Assumptions C33_value_in_single.

Lemma float_value (n : Z) (x : f32) m e : B2SF x = SpecFloat.S754_finite false m e -> F2R (Float radix2 (Zpos m) e) = IZR n -> B2R x = IZR n.
Proof. intros E V. rewrite <- SF2R_B2SF, E. exact V. Qed.
Lemma hundred32 : is_finite (nof 100 : f32) = true /\ B2R (nof 100 : f32) = 100.
Proof.
  split; [reflexivity|]. apply (float_value 100 (nof 100) 13107200 (-17)); [vm_compute; reflexivity|]. unfold F2R. cbn. lra.
Qed.

(** Seventy milliseconds in two calls, then far beyond the length. *)
Example C33_single_error_case :
  exists v w, nth_error (fst (calls linear_call (linear_new (nof 100 : f32)) [33; 37; 400]%Z)) 1 = Some v /\
    nth_error (fst (calls linear_call (linear_new (nof 100 : f32)) [33; 37; 400]%Z)) 2 = Some w /\
    all_u32 [33; 37; 400]%Z /\ is_finite (nof 100 : f32) = true /\ 0 < B2R (nof 100 : f32) /\
    IZR (total [33; 37; 400]%Z 1) <= 2 * B2R (nof 100 : f32) < IZR (total [33; 37; 400]%Z 2).
Proof.
  eexists _, _. split; [reflexivity|]. split; [reflexivity|]. split; [repeat constructor; cbv; discriminate|].
  destruct hundred32 as (F & V). rewrite V. split; [exact F|]. split; [lra|]. cbn. lra.
Qed.

(** ** C34 *)

(** What holds of the expectation that C34 refutes: the progress of an animation
    driven by Linear (length) is the elapsed fraction of the length (at most 1),
    up to [err]; the animation has ended when the fraction exceeds 1 by [err],
    and has not ended while time has passed and the fraction is below 1 by more
    than [err]. *)
Theorem C34_finishes_up_to_rounding :
  forall (L1 : Libm f32) (L2 : Libm f64) c (l : f32) (a a' : anim f32 f64 (linear f32)) (ts : list Z) rs k p b,
    is_finite l = true -> 0 < B2R l -> all_u32 ts -> (Z.of_nat (length ts) < 2 ^ 20)%Z ->
    anim_new linear_call c (linear_new l) = Ok a -> anim_steps linear_call a ts = Ok (a', rs) ->
    nth_error rs k = Some (p, b) ->
    let fraction := IZR (total ts k) / B2R l in
    let err := (INR k + 7) * bpow radix2 (-23) in
    is_finite p = true /\ Rabs (B2R p - Rmin 1 fraction) <= err /\
    (1 + err <= fraction -> B2R p = 1 /\ b = false) /\
    (0 < fraction < 1 - err -> 0 < B2R p < 1 /\ b = true).
Proof. exact linear_progress32. Qed.
Print Assumptions C34_finishes_up_to_rounding.

(** A zoom of 100 ms, stepped by 33, 37 and 40 ms: 70% and 110% of the length. *)
Example C34_rounding_case : forall (L1 : Libm f32) (L2 : Libm f64) (from to : box f64),
  exists a a' rs, anim_new linear_call (NewZoom from to) (linear_new (nof 100 : f32)) = Ok a /\
    anim_steps linear_call a [33; 37; 40]%Z = Ok (a', rs) /\ map snd rs = [true; true; false] /\
    all_u32 [33; 37; 40]%Z /\ is_finite (nof 100 : f32) = true /\
    let err k := (INR k + 7) * bpow radix2 (-23) in
    0 < IZR (total [33; 37; 40]%Z 1) / B2R (nof 100 : f32) < 1 - err 1%nat /\
    1 + err 2%nat <= IZR (total [33; 37; 40]%Z 2) / B2R (nof 100 : f32).
Proof.
  intros. destruct (steps_total linear_call [33; 37; 40]%Z (AZoom (zoom_new linear_call from to (linear_new (nof 100 : f32)))) I) as [a' [rs E]].
  eexists _, a', rs. split; [reflexivity|]. split; [exact E|]. apply steps_progress in E. destruct E as [-> _].
  split. { rewrite map_map. cbn [anim_stepper]. unfold zoom_new. vm_compute. reflexivity. }
  split; [repeat constructor; cbv; discriminate|]. destruct hundred32 as (F & V). rewrite V. split; [exact F|]. cbn. lra.
Qed.

(** ** C35 *)

(** The same for a reversed linear stepper, which counts down from 1 (the error is
    one unit larger). *)
Theorem C35_reversed_linear_in_single :
  forall (L1 : Libm f32) (L2 : Libm f64) c (l : f32) (a a' : anim f32 f64 (linear f32)) (ts : list Z) rs k p b,
    is_finite l = true -> 0 < B2R l -> all_u32 ts -> (Z.of_nat (length ts) < 2 ^ 20)%Z ->
    anim_new (reverse_call linear_call) c (linear_new l) = Ok a -> anim_steps (reverse_call linear_call) a ts = Ok (a', rs) ->
    nth_error rs k = Some (p, b) ->
    let fraction := IZR (total ts k) / B2R l in
    let err := (INR k + 8) * bpow radix2 (-23) in
    is_finite p = true /\ Rabs (B2R p - Rmax 0 (1 - fraction)) <= err /\
    (1 + err <= fraction -> B2R p = 0 /\ b = false) /\
    (err < fraction < 1 - err -> 0 < B2R p < 1 /\ b = true).
Proof. exact reversed_progress32. Qed.
Print Assumptions C35_reversed_linear_in_single.

Example C35_single_case : forall (L1 : Libm f32) (L2 : Libm f64) (from to : box f64),
  exists a a' rs, anim_new (reverse_call linear_call) (NewZoom from to) (linear_new (nof 100 : f32)) = Ok a /\
    anim_steps (reverse_call linear_call) a [33; 37; 40]%Z = Ok (a', rs) /\ map snd rs = [true; true; false] /\
    let err k := (INR k + 8) * bpow radix2 (-23) in
    err 1%nat < IZR (total [33; 37; 40]%Z 1) / B2R (nof 100 : f32) < 1 - err 1%nat /\
    1 + err 2%nat <= IZR (total [33; 37; 40]%Z 2) / B2R (nof 100 : f32).
Proof.
  intros. destruct (steps_total (reverse_call linear_call) [33; 37; 40]%Z (AZoom (zoom_new (reverse_call linear_call) from to (linear_new (nof 100 : f32)))) I) as [a' [rs E]].
  eexists _, a', rs. split; [reflexivity|]. split; [exact E|]. apply steps_progress in E. destruct E as [-> _].
  split. { rewrite map_map. cbn [anim_stepper]. unfold zoom_new. vm_compute. reflexivity. }
  destruct hundred32 as (F & V). rewrite V. cbn. lra.
Qed.

(** Reversing twice loses small values: after 1 ms of 2^30 ms it returns 0 where the
    stepper itself does not. *)
Theorem C35_reverse_twice_in_single_refuted :
  exists (l : f32) (ms : Z), let s := linear_new l in
    neqb (fst (reverse_call (reverse_call linear_call) s ms)) (nof 0) = true /\ nltb (nof 0) (fst (linear_call s ms)) = true.
Proof. exists (nof (2 ^ 30)), 1%Z. cbv zeta. split; vm_compute; reflexivity. Qed.
Print Assumptions C35_reverse_twice_in_single_refuted.

(** ** C81 *)

(** From start to end: an animation made with Linear (length) and stepped until
    the length has elapsed (and the rounding error) shows every point exactly at
    its own place.  For a zoom this holds for all boxes with coordinates up to
    2^50, empty ones included. *)
Theorem C81_zoom_run_out :
  forall (L1 : Libm f32) (L2 : Libm f64) (from to : box f64) (l : f32) (ts : list Z) (ms : Z),
    is_finite l = true -> 0 < B2R l -> all_u32 (ts ++ [ms]) -> (Z.of_nat (length (ts ++ [ms])) < 2 ^ 20)%Z ->
    (1 + INR (length ts + 7) * bpow radix2 (-23)) * B2R l <= IZR (elapsed (ts ++ [ms])) ->
    box_within 50 from -> box_within 50 to ->
    let a := fold_left (zoom_do linear_call) (map ZmStep (ts ++ [ms])) (zoom_new linear_call from to (linear_new l)) in
    is_identity (zm_transform a) /\ forall p : vec f64, point_within 126 p -> drawn_in_place (zoom_extreme a p) p.
Proof.
  intros L1 L2 from to l ts ms F P U Hn G Wf Wt a. unfold a. rewrite map_app. cbn [map].
  destruct (non_zero_within from Wf) as (Wf' & _ & _). destruct (non_zero_within to Wt) as (Wt' & Nx & Ny).
  pose proof (zoom_run linear_call (ts ++ [ms]) (zoom_new linear_call from to (linear_new l))) as (_ & Rf & Rt).
  rewrite map_app in Rf, Rt. cbn [map] in Rf, Rt.
  apply C81_zoom_last_frame; rewrite ?Rf, ?Rt; unfold zoom_new; cbn [linear_call zm_from zm_to zm_progress]; auto.
  rewrite fold_left_app. cbn [fold_left zoom_do]. unfold zoom_step.
  pose proof (zoom_run linear_call ts (zoom_new linear_call from to (linear_new l))) as (Rs & _ & _). unfold zoom_new in Rs. cbn [linear_call zm_stepper] in Rs.
  rewrite Rs. pose proof (run_out l ts ms F P U Hn G) as O. cbn [linear_call snd] in O.
  destruct (linear_call (snd (calls linear_call _ ts)) ms) as [v s1]. exact O.
Qed.
Print Assumptions C81_zoom_run_out.

Theorem C81_bounce_run_out :
  forall (L1 : Libm f32) (L2 : Libm f64) (initial maximum : f32) (n : Z) (target : box f64) (l : f32) (ts : list Z) (ms : Z),
    is_finite l = true -> 0 < B2R l -> all_u32 (ts ++ [ms]) -> (Z.of_nat (length (ts ++ [ms])) < 2 ^ 20)%Z ->
    (1 + INR (length ts + 7) * bpow radix2 (-23)) * B2R l <= IZR (elapsed (ts ++ [ms])) ->
    sound_sine L2 -> is_finite initial = true -> (0 <= B2R initial <= 2)%R -> float_within 100 maximum -> is_u32 n -> box_within 100 target ->
    let a := fold_left (bounce_do linear_call) (map BnStep (ts ++ [ms])) (bounce_new linear_call initial maximum n target (linear_new l)) in
    is_identity (bn_transform a) /\ forall p : vec f64, point_within 126 p -> drawn_in_place (bounce_extreme a p) p.
Proof.
  intros L1 L2 initial maximum n target l ts ms F P U Hn G Ss Fi Ri Wm Un Wt a. unfold a. rewrite map_app. cbn [map].
  pose proof (bounce_run linear_call (ts ++ [ms]) (bounce_new linear_call initial maximum n target (linear_new l))) as (_ & R1 & R2 & R3 & R4).
  rewrite map_app in R1, R2, R3, R4. cbn [map] in R1, R2, R3, R4.
  apply C81_bounce_last_frame; rewrite ?R1, ?R2, ?R3, ?R4; unfold bounce_new; cbn [linear_call bn_initial bn_maximum bn_n bn_target]; auto.
  rewrite fold_left_app. cbn [fold_left bounce_do]. unfold bounce_step.
  pose proof (bounce_run linear_call ts (bounce_new linear_call initial maximum n target (linear_new l))) as (Rs & _). unfold bounce_new in Rs. cbn [linear_call bn_stepper] in Rs.
  rewrite Rs. pose proof (run_out l ts ms F P U Hn G) as O. cbn [linear_call snd] in O.
  destruct (linear_call (snd (calls linear_call _ ts)) ms) as [v s1]. exact O.
Qed.
Print Assumptions C81_bounce_run_out.

Theorem C81_glide_run_out :
  forall (L1 : Libm f32) (L2 : Libm f64) (distance xrot yrot xaxis yaxis : f32) (width : Z) (target : box f64) (l : f32) (ts : list Z) (ms : Z),
    is_finite l = true -> 0 < B2R l -> all_u32 (ts ++ [ms]) -> (Z.of_nat (length (ts ++ [ms])) < 2 ^ 20)%Z ->
    (1 + INR (length ts + 7) * bpow radix2 (-23)) * B2R l <= IZR (elapsed (ts ++ [ms])) ->
    sound_sine L2 -> sound_at_zero L1 -> float_within 100 distance -> float_within 100 xrot -> float_within 100 yrot ->
    float_within 20 xaxis -> float_within 20 yaxis -> (0 < width < 2 ^ 32)%Z -> box_within 100 target ->
    let a := fold_left (glide_do linear_call) (map GlStep (ts ++ [ms])) (glide_new linear_call distance xrot yrot xaxis yaxis width target (linear_new l)) in
    forall p : vec f64, point_within 126 p -> drawn_in_place (glide_extreme a p) p.
Proof.
  intros L1 L2 distance xrot yrot xaxis yaxis width target l ts ms F P U Hn G Ss Sz Wd Wx Wy Ax Ay Ww Wt a. unfold a. rewrite map_app. cbn [map].
  pose proof (glide_run linear_call (ts ++ [ms]) (glide_new linear_call distance xrot yrot xaxis yaxis width target (linear_new l))) as (_ & R1 & R2 & R3 & R4 & R5 & R6 & R7).
  rewrite map_app in R1, R2, R3, R4, R5, R6, R7. cbn [map] in R1, R2, R3, R4, R5, R6, R7.
  apply C81_glide_last_frame; rewrite ?R1, ?R2, ?R3, ?R4, ?R5, ?R6, ?R7; unfold glide_new; cbn [linear_call gl_distance gl_xrot gl_yrot gl_xaxis gl_yaxis gl_width gl_target]; auto.
  rewrite fold_left_app. cbn [fold_left glide_do]. unfold glide_step.
  pose proof (glide_run linear_call ts (glide_new linear_call distance xrot yrot xaxis yaxis width target (linear_new l))) as (Rs & _). unfold glide_new in Rs. cbn [linear_call gl_stepper] in Rs.
  rewrite Rs. pose proof (run_out l ts ms F P U Hn G) as O. cbn [linear_call snd] in O.
  destruct (linear_call (snd (calls linear_call _ ts)) ms) as [v s1]. exact O.
Qed.
Print Assumptions C81_glide_run_out.

(** Frames of 33, 33 and 35 ms run a length of 100 ms out. *)
Example C81_run_out_case :
  is_finite (nof 100 : f32) = true /\ 0 < B2R (nof 100 : f32) /\ all_u32 ([33; 33] ++ [35])%Z /\
  (1 + INR (length [33; 33]%Z + 7) * bpow radix2 (-23)) * B2R (nof 100 : f32) <= IZR (elapsed ([33; 33] ++ [35])%Z) /\
  box_within 50 from0 /\ box_within 50 to0 /\ sound_sine toy64 /\ sound_at_zero toy32 /\
  is_finite (nof 0 : f32) = true /\ 0 <= B2R (nof 0 : f32) <= 2 /\ float_within 20 (nof 0) /\ box_within 100 to0.
Proof.
  destruct hundred32 as (F & V). rewrite V. split; [exact F|]. split; [lra|]. split; [repeat constructor; cbv; discriminate|].
  split; [cbn; lra|].
  assert (W : forall n, (Z.abs n <= 2 ^ 10)%Z -> within 50 (nof n : f64)).
  { intros n Hn. destruct (LemDouble.of_ok n ltac:(lia)) as (Fn & E). split; [exact Fn|]. rewrite E, <- abs_IZR.
    apply Rle_trans with (bpow radix2 10); [|apply bpow_le; lia]. rewrite <- (IZR_Zpower radix2) by lia. apply IZR_le. exact Hn. }
  split; [split; split; apply W; cbn; lia|]. split; [split; split; apply W; cbn; lia|]. split; [exact toy64_sound|]. split; [exact toy32_sound|].
  split; [reflexivity|]. change (B2R (nof 0 : f32)) with 0. split; [lra|]. split; [|exact to0_within].
  split; [reflexivity|]. change (B2R (nof 0 : f32)) with 0. rewrite Rabs_R0. apply bpow_ge_0.
Qed.
