(** Animations driven by a linear stepper until its time has run out. *)

From Coq Require Import ZArith Reals Bool List Lia Lra.
From Flocq Require Import Core IEEE754.BinarySingleNaN.
From Verif Require Import Num Geometry Outcome Steppers Transforms Program SpecAnim SpecDouble SpecFinal LemFloat LemSteppers LemDouble LemLinear32.
Import ListNotations.
Local Open Scope R_scope.

Lemma calls_length {F St} `{Num F} (call : St -> Z -> F * St) ts : forall s, length (fst (calls call s ts)) = length ts.
Proof. induction ts as [|t ts IH]; intros s; [reflexivity|]. rewrite calls_cons. cbn [length]. rewrite IH. reflexivity. Qed.

Lemma calls_snoc {F St} `{Num F} (call : St -> Z -> F * St) ts t : forall s,
  nth_error (fst (calls call s (ts ++ [t]))) (length ts) = Some (fst (call (snd (calls call s ts)) t)).
Proof.
  induction ts as [|u ts IH]; intros s; cbn [app length nth_error]; rewrite calls_cons; [reflexivity|]. cbn [nth_error]. rewrite IH.
  cbn [calls]. destruct (call s u) as [v s1]. cbn [snd]. destruct (calls call s1 ts). reflexivity.
Qed.
Lemma calls_end {F St} `{Num F} (call : St -> Z -> F * St) ts : forall s t,
  snd (call (snd (calls call s ts)) t) = snd (calls call s (ts ++ [t])).
Proof.
  induction ts as [|u ts IH]; intros s t; cbn [app calls snd]; [destruct (call s t); reflexivity|].
  destruct (call s u) as [v s1]. specialize (IH s1 t). destruct (calls call s1 ts). cbn [snd] in *. rewrite IH.
  destruct (calls call s1 (ts ++ [t])). reflexivity.
Qed.

Section Runs.
Context {L1 : Libm f32} {L2 : Libm f64} {St : Type} (call : St -> Z -> f32 * St).

Lemma zoom_run ts : forall a : zoom f32 f64 St,
  let z := fold_left (zoom_do call) (map ZmStep ts) a in
  zm_stepper z = snd (calls call (zm_stepper a) ts) /\ zm_from z = zm_from a /\ zm_to z = zm_to a.
Proof.
  induction ts as [|t ts IH]; intros a; [auto|]. cbn [map fold_left]. destruct (IH (zoom_do call a (ZmStep t))) as (A & B & C). cbv zeta.
  rewrite A, B, C. cbn [zoom_do]. unfold zoom_step. cbn [calls]. destruct (call (zm_stepper a) t) as [v s1]. cbn. destruct (calls call s1 ts). auto.
Qed.
Lemma bounce_run ts : forall a : bounce f32 f64 St,
  let z := fold_left (bounce_do call) (map BnStep ts) a in
  bn_stepper z = snd (calls call (bn_stepper a) ts) /\ bn_initial z = bn_initial a /\ bn_maximum z = bn_maximum a /\
  bn_n z = bn_n a /\ bn_target z = bn_target a.
Proof.
  induction ts as [|t ts IH]; intros a; [repeat split|]. cbn [map fold_left]. destruct (IH (bounce_do call a (BnStep t))) as (A & B & C & D & E). cbv zeta.
  rewrite A, B, C, D, E. cbn [bounce_do]. unfold bounce_step. cbn [calls]. destruct (call (bn_stepper a) t) as [v s1]. cbn. destruct (calls call s1 ts). repeat split.
Qed.
Lemma glide_run ts : forall a : glide f32 f64 St,
  let z := fold_left (glide_do call) (map GlStep ts) a in
  gl_stepper z = snd (calls call (gl_stepper a) ts) /\ gl_distance z = gl_distance a /\ gl_xrot z = gl_xrot a /\ gl_yrot z = gl_yrot a /\
  gl_xaxis z = gl_xaxis a /\ gl_yaxis z = gl_yaxis a /\ gl_width z = gl_width a /\ gl_target z = gl_target a.
Proof.
  induction ts as [|t ts IH]; intros a; [repeat split|]. cbn [map fold_left]. destruct (IH (glide_do call a (GlStep t))) as (A & B & C & D & E & F & G & I). cbv zeta.
  rewrite A, B, C, D, E, F, G, I. cbn [glide_do]. unfold glide_step. cbn [calls]. destruct (call (gl_stepper a) t) as [v s1]. cbn. destruct (calls call s1 ts). repeat split.
Qed.
End Runs.

(** The progress is exactly 1. *)
Lemma run_out (l : f32) ts ms : is_finite l = true -> 0 < B2R l -> all_u32 (ts ++ [ms]) -> (Z.of_nat (length (ts ++ [ms])) < 2 ^ 20)%Z ->
  (1 + INR (length ts + 7) * bpow radix2 (-23)) * B2R l <= IZR (elapsed (ts ++ [ms])) ->
  neqb (clamp_progress (fst (linear_call (snd (calls linear_call (snd (linear_call (linear_new l) 0)) ts)) ms))) (nof 1) = true.
Proof.
  intros F P U Hn G.
  set (v := fst _).
  assert (V : nth_error (fst (calls linear_call (linear_new l) (0%Z :: ts ++ [ms]))) (S (length ts)) = Some v).
  { rewrite calls_cons. cbn [nth_error]. apply calls_snoc. }
  assert (U0 : all_u32 (0%Z :: ts ++ [ms])) by (constructor; [cbv; split; congruence|exact U]).
  destruct (linear_value32 l _ _ v F P U0 ltac:(cbn [length]; lia) V) as (Near & Far).
  assert (T : total (0%Z :: ts ++ [ms]) (S (length ts)) = elapsed (ts ++ [ms])).
  { change (0 + total (ts ++ [ms]) (length ts) = elapsed (ts ++ [ms]))%Z. rewrite Z.add_0_l. unfold total. f_equal. apply firstn_all2. rewrite app_length. cbn [length]. lia. }
  rewrite T in *. clear T. set (T := IZR (elapsed (ts ++ [ms]))) in *.
  assert (I : / B2R l * B2R l = 1) by (apply Rinv_l; lra). assert (Pi : 0 < / B2R l) by (apply Rinv_0_lt_compat; auto).
  assert (D : T / B2R l * B2R l = T) by (unfold Rdiv; rewrite Rmult_assoc, I; ring).
  assert (One : nleb (nof 1) v = true).
  { destruct (Rle_lt_dec T (2 * B2R l)) as [X|X]; [|apply Far; exact X]. destruct (Near X) as (Fv & Ev).
    rewrite le32 by (auto; reflexivity). fold one32. rewrite one32_R. apply Rle_bool_true.
    apply Rabs_le_inv in Ev. rewrite S_INR in Ev. rewrite plus_INR in G. change (INR 7) with (IZR 7) in G || rewrite (INR_IZR_INZ 7) in G.
    change (IZR (Z.of_nat 7)) with 7 in G.
    set (e := (INR (length ts) + 7) * bpow radix2 (-23)) in *.
    replace ((INR (length ts) + 1 + 6) * bpow radix2 (-23)) with e in Ev by (unfold e; ring).
    assert (1 + e <= T / B2R l) by (apply Rmult_le_reg_r with (B2R l); [exact P|]; rewrite D; exact G). lra. }
  rewrite (clamp_one v One). reflexivity.
Qed.

(** The zoom never keeps an empty box, as long as adding one pixel is not lost
    to rounding. *)
Lemma bumped (x y : f64) : within 50 x -> within 50 y -> let y' := if neqb y x then nadd y (nof 1) else y in
  within 100 y' /\ B2R x <> B2R y'.
Proof.
  intros (Fx & Wx) (Fy & Wy) y'. unfold y'. rewrite eqb_ok by auto.
  assert (B : bpow radix2 50 <= bpow radix2 51 - 2) by (cbn; lra).
  destruct (Req_bool_spec (B2R y) (B2R x)) as [E|N].
  - destruct (of_ok 1) as (F1 & V1); [reflexivity|].
    assert (S1 : Rabs (B2R y + B2R (nof 1 : f64)) <= bpow radix2 51).
    { rewrite V1. eapply Rle_trans; [apply Rabs_triang|]. rewrite Rabs_R1. lra. }
    destruct (add_ok 51 ltac:(lia) y (nof 1) Fy F1 S1) as (Fa & Va).
    split. { split; [exact Fa|]. rewrite Va. apply Rle_trans with (bpow radix2 51); [apply rd_bound; [lia|exact S1]|apply bpow_le; lia]. }
    rewrite Va. rewrite V1 in *. pose proof (rd_err 51 _ ltac:(lia) S1) as Er. change (51 - 54)%Z with (-3)%Z in Er.
    apply Rabs_le_inv in Er. change (bpow radix2 (-3)) with (/ 8) in Er. lra.
  - split; [split; [exact Fy|]; apply Rle_trans with (bpow radix2 50); [exact Wy|apply bpow_le; lia]|]. intros E. apply N. auto.
Qed.

Lemma non_zero_within (b : box f64) : box_within 50 b -> box_within 100 (ensure_non_zero b) /\
  B2R (vx (b_tl (ensure_non_zero b))) <> B2R (vx (b_br (ensure_non_zero b))) /\
  B2R (vy (b_tl (ensure_non_zero b))) <> B2R (vy (b_br (ensure_non_zero b))).
Proof.
  intros ((X1 & Y1) & (X2 & Y2)). destruct (bumped _ _ X1 X2) as (WX & NX). destruct (bumped _ _ Y1 Y2) as (WY & NY).
  assert (Up : forall x, within 50 x -> within 100 x) by (intros x (F & W); split; [exact F|]; apply Rle_trans with (bpow radix2 50); [exact W|apply bpow_le; lia]).
  split; [|split; assumption]. split; split; cbn [ensure_non_zero b_tl b_br vx vy]; auto.
Qed.
