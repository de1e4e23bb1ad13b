(** Single-precision arithmetic on non-negative numbers. *)

From Coq Require Import ZArith Reals Bool List Lia Lra.
From Flocq Require Import Core IEEE754.BinarySingleNaN.
From Verif Require Import Num.
Local Open Scope R_scope.

Definition inf32 : f32 := B754_infinity false.
(** Non-negative: zero, a positive number or +infinity. *)
Definition nn (x : f32) : Prop := Bsign x = false /\ is_nan x = false.

Notation rnd32 := (round radix2 (SpecFloat.fexp 24 128) (round_mode mode_NE)).

Lemma nn_cases x : nn x -> x = inf32 \/ (is_finite x = true /\ 0 <= B2R x /\ Bsign x = false).
Proof.
  intros [S N]. destruct x as [s|s| |s m e h]; cbn in *; try discriminate; subst.
  - right; repeat split; lra.
  - left; reflexivity.
  - right. split; auto. split; auto. apply F2R_ge_0. cbn. lia.
Qed.

Lemma rnd_mono x y : x <= y -> rnd32 x <= rnd32 y.
Proof. apply round_le. { apply fexp_correct. reflexivity. } apply valid_rnd_round_mode. Qed.
Lemma rnd_gen (x : f32) : rnd32 (B2R x) = B2R x.
Proof. apply round_generic. { apply valid_rnd_round_mode. } apply generic_format_B2R. Qed.
Lemma rnd_0 : rnd32 0 = 0.
Proof. apply round_0. apply valid_rnd_round_mode. Qed.

Lemma overflow_inf (x : f32) : B2SF x = binary_overflow 24 128 mode_NE false -> x = inf32.
Proof. intros E. apply B2SF_inj. rewrite E. reflexivity. Qed.

Lemma le_inf x : nn x -> nleb x inf32 = true.
Proof. intros [S N]. destruct x as [s|s| |s m e h]; cbn in *; try discriminate; subst; reflexivity. Qed.

Lemma le_trans32 (x y z : f32) : nn x -> nn y -> nn z -> nleb x y = true -> nleb y z = true -> nleb x z = true.
Proof.
  intros X Y Z A B. destruct (nn_cases z Z) as [->|[Fz [Pz _]]]. { apply le_inf; auto. }
  destruct (nn_cases y Y) as [->|[Fy [Py _]]]. { destruct z as [s|s| |s m e h]; cbn in B; try discriminate; cbn in Fz; discriminate. }
  destruct (nn_cases x X) as [->|[Fx [Px _]]]. { destruct y as [s|s| |s m e h]; cbn in A; try discriminate; cbn in Fy; discriminate. }
  cbn [nleb Num_f32 Num_IEEE] in *. rewrite Bleb_correct in * by auto.
  destruct (Rle_bool_spec (B2R x) (B2R y)); try discriminate. destruct (Rle_bool_spec (B2R y) (B2R z)); try discriminate.
  apply Rle_bool_true. lra.
Qed.

Lemma add_nn x y : nn x -> nn y -> nn (nadd x y) /\ nleb x (nadd x y) = true /\ nleb y (nadd x y) = true.
Proof.
  intros X Y. destruct (nn_cases x X) as [->|[Fx [Px Sx]]].
  { destruct Y as [S N]. destruct y as [s|s| |s m e h]; cbn in S, N; try discriminate; subst; repeat split. }
  destruct (nn_cases y Y) as [->|[Fy [Py Sy]]].
  { destruct X as [S N]. destruct x as [s|s| |s m e h]; cbn in S, N; try discriminate; subst; repeat split. }
  cbn [nadd nleb Num_f32 Num_IEEE].
  generalize (Bplus_correct 24 128 Hprec32 Hemax32 mode_NE x y Fx Fy).
  case Rlt_bool_spec; intros O C.
  - destruct C as [E [F S]]. assert (N : nn (Bplus mode_NE x y)).
    { split. 2: { destruct (Bplus mode_NE x y); auto; discriminate. }
      rewrite S. case Rcompare_spec; auto; [intros; exfalso; lra|]. rewrite Sx. reflexivity. }
    split; auto. rewrite !Bleb_correct by auto. rewrite E.
    split; apply Rle_bool_true; [rewrite <- (rnd_gen x) at 1|rewrite <- (rnd_gen y) at 1]; apply rnd_mono; lra.
  - destruct C as [E _]. rewrite Sx in E. apply overflow_inf in E. rewrite E. split; [split; reflexivity|].
    split; [apply (le_inf x X)|apply (le_inf y Y)].
Qed.

Lemma lt_pos (l : f32) : nltb (nof 0) l = true -> l = inf32 \/ (is_finite l = true /\ 0 < B2R l /\ Bsign l = false).
Proof.
  intros L. destruct l as [s|s| |s m e h]; try discriminate; destruct s; try discriminate.
  - left; reflexivity.
  - right. split; auto. split; auto. apply F2R_gt_0. cbn. lia.
Qed.

Lemma div_nn x l : nn x -> is_finite x = true -> nltb (nof 0) l = true -> nn (ndiv x l).
Proof.
  intros X Fx P. destruct (lt_pos l P) as [->|[Fl [Pl Sl]]].
  { destruct X as [S N]. destruct x as [s|s| |s m e h]; cbn in *; try discriminate; subst; split; reflexivity. }
  cbn [ndiv Num_f32 Num_IEEE]. assert (NZ : B2R l <> 0) by lra.
  generalize (Bdiv_correct 24 128 Hprec32 Hemax32 mode_NE x l NZ).
  destruct X as [S N]. rewrite S, Sl. cbn [xorb].
  case Rlt_bool_spec; intros O C.
  - destruct C as [E [F G]]. rewrite Fx in F. assert (M : is_nan (Bdiv mode_NE x l) = false) by (destruct (Bdiv mode_NE x l); auto; discriminate).
    split; auto.
  - apply overflow_inf in C. rewrite C. split; reflexivity.
Qed.

Lemma of_u32 z : (0 <= z < 2 ^ 32)%Z -> nn (nof z) /\ is_finite (nof z : f32) = true /\ B2R (nof z : f32) = rnd32 (IZR z).
Proof.
  intros Hz. cbn [nof Num_f32 Num_IEEE].
  generalize (binary_normalize_correct 24 128 Hprec32 Hemax32 mode_NE z 0 false).
  cbn zeta. replace (F2R {| Fnum := z; Fexp := 0 |}) with (IZR z) by (unfold F2R; cbn; lra).
  assert (P : 0 <= IZR z) by (apply IZR_le; lia).
  rewrite Rlt_bool_true.
  - intros [E [F S]]. split; [|split; auto]. split.
    + rewrite S. case Rcompare_spec; auto. intros; exfalso; lra.
    + destruct (binary_normalize 24 128 Hprec32 Hemax32 mode_NE z 0 false); auto; discriminate.
  - rewrite Rabs_pos_eq by (rewrite <- rnd_0; apply rnd_mono; auto).
    apply Rle_lt_trans with (bpow radix2 32); [|apply bpow_lt; lia].
    replace (bpow radix2 32) with (rnd32 (bpow radix2 32)).
    + apply rnd_mono. cbn. apply IZR_le. lia.
    + apply round_generic; [apply valid_rnd_round_mode|]. apply generic_format_bpow. cbn. lia.
Qed.
