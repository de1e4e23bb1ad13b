(** The zoom transform in [float] and [double]: error of the drawn point. *)

From Coq Require Import ZArith Reals Bool List Lia Lra Psatz.
From Flocq Require Import Core Relative IEEE754.BinarySingleNaN.
From Verif Require Import Num Geometry Steppers Transforms SpecAnim SpecPixel SpecDouble SpecFinal LemReal LemDouble LemFloat LemLinear32 LemProcess LemFinal.
Import ListNotations.
Local Open Scope R_scope.

(** ** Rounded operations *)

Definition fits (r : R) : Prop := Rabs (rnd32 r) < bpow radix2 128.

Lemma is_add_r (x y : f32) a b : is x a -> is y b -> fits (a + b) -> is (nadd x y) (rnd32 (a + b)).
Proof.
  intros (Fx & <-) (Fy & <-) L. pose proof (Bplus_correct 24 128 _ _ mode_NE x y Fx Fy) as C.
  rewrite Rlt_bool_true in C by exact L. destruct C as (C1 & C2 & _). split; assumption.
Qed.
Lemma is_mul_r (x y : f32) a b : is x a -> is y b -> fits (a * b) -> is (nmul x y) (rnd32 (a * b)).
Proof.
  intros (Fx & <-) (Fy & <-) L. pose proof (Bmult_correct 24 128 _ _ mode_NE x y) as C.
  rewrite Rlt_bool_true in C by exact L. destruct C as (C1 & C2 & _). split; [etransitivity; [exact C2|rewrite Fx, Fy; reflexivity]|assumption].
Qed.

Lemma fits_small r : Rabs r <= bpow radix2 120 -> fits r.
Proof.
  intros L. apply Rle_lt_trans with (bpow radix2 120); [|apply bpow_lt; lia].
  apply abs_round_le_generic; [apply fexp_correct; reflexivity|apply valid_rnd_round_mode| |exact L].
  apply generic_format_bpow. cbn. lia.
Qed.

(** ** Matrices that scale and shift *)

Definition diag (m : mat4 f32) (sx sy x y : R) : Prop :=
  is4 (c0 m) sx 0 0 0 /\ is4 (c1 m) 0 sy 0 0 /\ is4 (c2 m) 0 0 1 0 /\ is4 (c3 m) x y 0 1.

Lemma diag_mul m n sx sy x y sx' sy' x' y' : diag m sx sy x y -> diag n sx' sy' x' y' ->
  fits (sx * sx') -> fits (sy * sy') -> fits (sx * x') -> fits (sy * y') ->
  fits (rnd32 (sx * x') + x) -> fits (rnd32 (sy * y') + y) ->
  diag (m_mul m n) (rnd32 (sx * sx')) (rnd32 (sy * sy')) (rnd32 (rnd32 (sx * x') + x)) (rnd32 (rnd32 (sy * y') + y)).
Proof.
  intros M N F1 F2 F3 F4 F5 F6. open_shift M. open_shift N.
  assert (A1 : is (nmul (v4x (c0 m)) (v4x (c0 n))) (rnd32 (sx * sx'))) by (apply is_mul_r; assumption).
  assert (A2 : is (nmul (v4y (c1 m)) (v4y (c1 n))) (rnd32 (sy * sy'))) by (apply is_mul_r; assumption).
  assert (A3 : is (nmul (v4x (c0 m)) (v4x (c3 n))) (rnd32 (sx * x'))) by (apply is_mul_r; assumption).
  assert (A4 : is (nmul (v4y (c1 m)) (v4y (c3 n))) (rnd32 (sy * y'))) by (apply is_mul_r; assumption).
  unfold diag, m_mul, m_col, v4_add, v4_scale. cbn [c0 c1 c2 c3 v4x v4y v4z v4w].
  split; [four; ex|]. split; [four; ex|]. split; [four; ex|].
  four; [apply is_add_r; [ex|ex|assumption]|apply is_add_r; [ex|ex|assumption]|ex|ex].
Qed.

Lemma diag_apply m v sx sy x y a b : diag m sx sy x y -> is4 v a b 0 1 ->
  fits (sx * a) -> fits (sy * b) -> fits (rnd32 (sx * a) + x) -> fits (rnd32 (sy * b) + y) ->
  is4 (m_apply m v) (rnd32 (rnd32 (sx * a) + x)) (rnd32 (rnd32 (sy * b) + y)) 0 1.
Proof.
  intros M (V1 & V2 & V3 & V4) F1 F2 F3 F4. open_shift M.
  assert (A1 : is (nmul (v4x (c0 m)) (v4x v)) (rnd32 (sx * a))) by (apply is_mul_r; assumption).
  assert (A2 : is (nmul (v4y (c1 m)) (v4y v)) (rnd32 (sy * b))) by (apply is_mul_r; assumption).
  unfold m_apply, v4_add, v4_scale. cbn [v4x v4y v4z v4w].
  four; [apply is_add_r; [ex|ex|assumption]|apply is_add_r; [ex|ex|assumption]|ex|ex].
Qed.

Lemma diag_translate (x y z : f32) a b : is x a -> is y b -> is z 0 -> diag (m_translate m_id x y z) 1 1 a b.
Proof.
  intros X Y Z. unfold diag, m_translate, m_id, v4_add, v4_scale. cbn [c0 c1 c2 c3 v4x v4y v4z v4w].
  split; [|split; [|split]]; four; ex.
Qed.

Lemma diag_scale (x y z : f32) a b : is x a -> is y b -> is z 1 -> diag (m_scale m_id x y z) a b 0 0.
Proof.
  intros X Y Z. unfold diag, m_scale, m_id, v4_scale. cbn [c0 c1 c2 c3 v4x v4y v4z v4w].
  split; [|split; [|split]]; four; ex.
Qed.

(** ** One axis, over the reals *)

Lemma rd_rel x : Rabs (rd x - x) <= bpow radix2 (-53) * Rabs x + bpow radix2 (-1075).
Proof.
  destruct (error_N_FLT radix2 (-1074) 53 eq_refl (fun x => negb (Z.even x)) x) as (eps & eta & A & B & _ & E).
  change (round radix2 (FLT_exp (-1074) 53) (Znearest (fun x => negb (Z.even x))) x) with (rd x) in E. rewrite E.
  replace (x * (1 + eps) + eta - x) with (eps * x + eta) by ring.
  eapply Rle_trans; [apply Rabs_triang|]. apply Rplus_le_compat.
  - rewrite Rabs_mult. apply Rmult_le_compat_r; [apply Rabs_pos|].
    eapply Rle_trans; [exact A|]. change (-53)%Z with (-1 + (-53 + 1))%Z. rewrite (bpow_plus radix2 (-1)). right. reflexivity.
  - eapply Rle_trans; [exact B|]. change (-1075)%Z with (-1 + -1074)%Z. rewrite (bpow_plus radix2 (-1)). right. reflexivity.
Qed.

Lemma tri a b c e f : Rabs (a - b) <= e -> Rabs (b - c) <= f -> Rabs (a - c) <= e + f.
Proof. intros A B. replace (a - c) with ((a - b) + (b - c)) by ring. eapply Rle_trans; [apply Rabs_triang|lra]. Qed.

Lemma near_size a b e m : Rabs (a - b) <= e -> Rabs b <= m -> Rabs a <= m + e.
Proof. intros A B. replace a with ((a - b) + b) by ring. eapply Rle_trans; [apply Rabs_triang|lra]. Qed.

(** A rounded sum or product of known error and size, in units of [h * M]. *)
Section Axis.
Context (M h : R) (Hh : h = bpow radix2 (-24)) (HM : 1 <= M).

Let eta_small : bpow radix2 (-150) <= h / 1000000 * M.
Proof.
  apply Rle_trans with (bpow radix2 (-24) * bpow radix2 (-20)); [rewrite <- bpow_plus; apply bpow_le; lia|].
  rewrite Hh. pose proof (bpow_gt_0 radix2 (-24)). assert (bpow radix2 (-20) <= / 1000000 * M) by (cbn; lra). nra.
Qed.

Lemma round_step a b c s : Rabs (a - b) <= c * (h * M) -> Rabs b <= s * M -> 0 <= c <= 30 -> 0 <= s <= 10 ->
  Rabs (rnd32 a - b) <= (c + s + 1 / 1000) * (h * M) /\ Rabs (rnd32 a) <= (s + 1 / 1000) * M.
Proof.
  intros E S Hc Hs. assert (Hp : 0 < h) by (rewrite Hh; apply bpow_gt_0).
  assert (H1 : h <= / 10000000) by (rewrite Hh; cbn; lra).
  pose proof (near_size _ _ _ _ E S) as Sa. pose proof (rnd_rel a) as D. rewrite <- Hh in D.
  assert (P : 0 <= h * M) by nra. assert (Q : h * (h * M) <= / 10000000 * (h * M)) by (apply Rmult_le_compat_r; lra).
  assert (Q' : h * M <= / 10000000 * M) by (apply Rmult_le_compat_r; lra).
  assert (E1 : Rabs (rnd32 a - a) <= (s + / 2000) * (h * M)).
  { eapply Rle_trans; [exact D|]. apply Rle_trans with (h * (s * M + c * (h * M)) + h / 1000000 * M); [apply Rplus_le_compat; [apply Rmult_le_compat_l; lra|exact eta_small]|].
    assert (c * (h * (h * M)) <= 30 * (/ 10000000 * (h * M))) by (apply Rmult_le_compat; nra). nra. }
  assert (T : Rabs (rnd32 a - b) <= (c + s + 1 / 1000) * (h * M)).
  { eapply Rle_trans; [apply (tri _ _ _ _ _ E1 E)|]. nra. }
  split; [exact T|]. eapply Rle_trans; [apply (near_size _ _ _ _ T S)|]. 
  assert ((c + s + 1 / 1000) * (h * M) <= 41 * (/ 10000000 * M)) by (apply Rmult_le_compat; nra). nra.
Qed.

Lemma axis_real tw n T x s0 o0 t0 x0 :
  1 <= tw <= 2 * M -> Rabs n <= 2 * M -> Rabs T <= 2 * M -> 0 <= x <= tw ->
  Rabs (s0 * tw - n) <= 21 / 10 * (h * M) -> Rabs (o0 - tw / 2) <= 51 / 100 * (h * tw) ->
  Rabs (t0 - T) <= 41 / 10 * (h * M) -> Rabs (x0 - x) <= 101 / 100 * (h * tw) ->
  Rabs s0 <= 3 * M /\ Rabs o0 <= 2 * M /\ Rabs t0 <= 3 * M /\ Rabs (s0 * x0) <= 3 * M /\ Rabs (s0 * - o0) <= 3 * M /\ Rabs (o0 + t0) <= 4 * M /\
  Rabs (rnd32 (s0 * - o0) + rnd32 (o0 + t0)) <= 5 * M /\
  Rabs (rnd32 (s0 * x0) + rnd32 (rnd32 (s0 * - o0) + rnd32 (o0 + t0))) <= 7 * M /\
  Rabs (rnd32 (rnd32 (s0 * x0) + rnd32 (rnd32 (s0 * - o0) + rnd32 (o0 + t0))) - (n / tw * x - n / tw * (tw / 2) + (tw / 2 + T))) <= 32 * (h * M).
Proof.
  intros Htw Hn HT Hx Hs Ho Ht Hx0. assert (Hp : 0 < h) by (rewrite Hh; apply bpow_gt_0).
  assert (H1 : h <= / 10000000) by (rewrite Hh; cbn; lra).
  assert (P : 0 <= h * M) by nra. assert (Q' : h * M <= / 10000000 * M) by (apply Rmult_le_compat_r; lra).
  assert (Ptw : 0 <= h * tw) by nra. assert (Qtw : h * tw <= 2 * (h * M)) by nra.
  assert (Stw : Rabs s0 * tw <= 201 / 100 * M).
  { pose proof (near_size _ _ _ _ Hs Hn) as Z. rewrite Rabs_mult, (Rabs_pos_eq tw) in Z by lra. lra. }
  assert (S0 : Rabs s0 <= 201 / 100 * M) by (pose proof (Rabs_pos s0); nra).
  (* s0 times a part of the width *)
  assert (SP : forall y, 0 <= y <= tw -> Rabs (s0 * y - n / tw * y) <= y / tw * (21 / 10 * (h * M))).
  { intros y Hy. replace (s0 * y - n / tw * y) with (y / tw * (s0 * tw - n)) by (field; lra).
    rewrite Rabs_mult, (Rabs_pos_eq (y / tw)) by (apply Rmult_le_pos; [lra|left; apply Rinv_0_lt_compat; lra]).
    apply Rmult_le_compat_l; [apply Rmult_le_pos; [lra|left; apply Rinv_0_lt_compat; lra]|exact Hs]. }
  assert (NP : forall y, 0 <= y <= tw -> Rabs (n / tw * y) <= y / tw * (2 * M)).
  { intros y Hy. replace (n / tw * y) with (y / tw * n) by (field; lra).
    rewrite Rabs_mult, (Rabs_pos_eq (y / tw)) by (apply Rmult_le_pos; [lra|left; apply Rinv_0_lt_compat; lra]).
    apply Rmult_le_compat_l; [apply Rmult_le_pos; [lra|left; apply Rinv_0_lt_compat; lra]|exact Hn]. }
  assert (X1 : 0 <= x / tw <= 1).
  { split; [apply Rmult_le_pos; [lra|left; apply Rinv_0_lt_compat; lra]|]. apply Rmult_le_reg_r with tw; [lra|]. unfold Rdiv. rewrite Rmult_assoc, Rinv_l by lra. lra. }
  assert (H2 : tw / 2 / tw = 1 / 2) by (field; lra).
  (* A *)
  assert (A : Rabs (s0 * x0 - n / tw * x) <= 42 / 10 * (h * M)).
  { apply Rle_trans with (204 / 100 * (h * M) + 21 / 10 * (h * M)); [|lra]. apply (tri _ (s0 * x)).
    - replace (s0 * x0 - s0 * x) with (s0 * (x0 - x)) by ring. rewrite Rabs_mult.
      apply Rle_trans with (Rabs s0 * (101 / 100 * (h * tw))); [apply Rmult_le_compat_l; [apply Rabs_pos|exact Hx0]|].
      replace (Rabs s0 * (101 / 100 * (h * tw))) with (101 / 100 * h * (Rabs s0 * tw)) by ring.
      apply Rle_trans with (101 / 100 * h * (201 / 100 * M)); [apply Rmult_le_compat_l; [lra|exact Stw]|]. lra.
    - eapply Rle_trans; [apply (SP x); lra|]. assert (x / tw * (21 / 10 * (h * M)) <= 1 * (21 / 10 * (h * M))) by (apply Rmult_le_compat_r; lra). lra. }
  assert (A' : Rabs (n / tw * x) <= 2 * M).
  { eapply Rle_trans; [apply NP; lra|]. assert (x / tw * (2 * M) <= 1 * (2 * M)) by (apply Rmult_le_compat_r; lra). lra. }
  (* B *)
  assert (B : Rabs (s0 * - o0 - - (n / tw * (tw / 2))) <= 21 / 10 * (h * M)).
  { replace (s0 * - o0 - - (n / tw * (tw / 2))) with (- (s0 * o0 - n / tw * (tw / 2))) by ring. rewrite Rabs_Ropp.
    apply Rle_trans with (104 / 100 * (h * M) + 105 / 100 * (h * M)); [|lra]. apply (tri _ (s0 * (tw / 2))).
    - replace (s0 * o0 - s0 * (tw / 2)) with (s0 * (o0 - tw / 2)) by ring. rewrite Rabs_mult.
      apply Rle_trans with (Rabs s0 * (51 / 100 * (h * tw))); [apply Rmult_le_compat_l; [apply Rabs_pos|exact Ho]|].
      replace (Rabs s0 * (51 / 100 * (h * tw))) with (51 / 100 * h * (Rabs s0 * tw)) by ring.
      apply Rle_trans with (51 / 100 * h * (201 / 100 * M)); [apply Rmult_le_compat_l; [lra|exact Stw]|]. lra.
    - eapply Rle_trans; [apply (SP (tw / 2)); lra|]. rewrite H2. lra. }
  assert (B' : Rabs (- (n / tw * (tw / 2))) <= 1 * M).
  { rewrite Rabs_Ropp. eapply Rle_trans; [apply NP; lra|]. rewrite H2. lra. }
  (* C *)
  assert (O : Rabs (o0 - tw / 2) <= 102 / 100 * (h * M)) by lra.
  assert (C : Rabs ((o0 + t0) - (tw / 2 + T)) <= 512 / 100 * (h * M)).
  { replace ((o0 + t0) - (tw / 2 + T)) with ((o0 - tw / 2) + (t0 - T)) by ring. eapply Rle_trans; [apply Rabs_triang|]. lra. }
  assert (C' : Rabs (tw / 2 + T) <= 3 * M).
  { eapply Rle_trans; [apply Rabs_triang|]. rewrite (Rabs_pos_eq (tw / 2)) by lra. lra. }
  destruct (round_step _ _ _ _ A A') as (A1 & A2); try lra.
  destruct (round_step _ _ _ _ B B') as (B1 & B2); try lra.
  destruct (round_step _ _ _ _ C C') as (C1 & C2); try lra.
  set (ra := rnd32 (s0 * x0)) in *. set (rb := rnd32 (s0 * - o0)) in *. set (rc := rnd32 (o0 + t0)) in *.
  assert (D : Rabs ((rb + rc) - (- (n / tw * (tw / 2)) + (tw / 2 + T))) <= 113 / 10 * (h * M)).
  { replace ((rb + rc) - (- (n / tw * (tw / 2)) + (tw / 2 + T))) with ((rb - - (n / tw * (tw / 2))) + (rc - (tw / 2 + T))) by ring.
    eapply Rle_trans; [apply Rabs_triang|]. lra. }
  assert (D' : Rabs (- (n / tw * (tw / 2)) + (tw / 2 + T)) <= 4 * M) by (eapply Rle_trans; [apply Rabs_triang|]; lra).
  destruct (round_step _ _ _ _ D D') as (D1 & D2); try lra. set (rdd := rnd32 (rb + rc)) in *.
  assert (E : Rabs ((ra + rdd) - (n / tw * x + (- (n / tw * (tw / 2)) + (tw / 2 + T)))) <= 219 / 10 * (h * M)).
  { replace ((ra + rdd) - (n / tw * x + (- (n / tw * (tw / 2)) + (tw / 2 + T)))) with ((ra - n / tw * x) + (rdd - (- (n / tw * (tw / 2)) + (tw / 2 + T)))) by ring.
    eapply Rle_trans; [apply Rabs_triang|]. lra. }
  assert (E' : Rabs (n / tw * x + (- (n / tw * (tw / 2)) + (tw / 2 + T))) <= 6 * M) by (eapply Rle_trans; [apply Rabs_triang|]; lra).
  destruct (round_step _ _ _ _ E E') as (E1 & E2); try lra.
  pose proof (near_size _ _ _ _ A A'). pose proof (near_size _ _ _ _ B B'). pose proof (near_size _ _ _ _ C C').
  pose proof (near_size _ _ _ _ D D'). pose proof (near_size _ _ _ _ E E'). pose proof (near_size _ _ _ _ Ht HT).
  assert (Hh2 : Rabs (tw / 2) <= M) by (rewrite Rabs_pos_eq; lra). pose proof (near_size _ _ _ _ O Hh2).
  repeat split; try lra.
  replace (n / tw * x - n / tw * (tw / 2) + (tw / 2 + T)) with (n / tw * x + (- (n / tw * (tw / 2)) + (tw / 2 + T))) by ring. lra.
Qed.

End Axis.

(** ** One axis, in [double] *)

Lemma axis_double k (fl fr tl tr x : f64) (p : f32) : (0 <= k <= 100)%Z ->
  within k fl -> within k fr -> within k tl -> within k tr -> 1 <= B2R tr - B2R tl ->
  is_finite x = true -> 0 <= B2R x <= B2R tr - B2R tl -> is_finite p = true -> 0 <= B2R p <= 1 ->
  let M := bpow radix2 k in let h := bpow radix2 (-24) in
  let tw := B2R tr - B2R tl in let fw := B2R fr - B2R fl in
  let off := ndiv (nsub tr tl) (nof 2) in
  let tc := nadd tl off in
  let fc := nadd fl (ndiv (nsub fr fl) (nof 2)) in
  let t := nmul (nsub fc tc) (widen (nsub (nof 1) p)) in
  let s := ndiv (nadd (nmul (nsub tr tl) (widen p)) (nmul (nsub fr fl) (nsub (nof 1) (widen p)))) (nsub tr tl) in
  exists s0 o0 t0 x0,
    is (narrow s : f32) s0 /\ is (narrow off : f32) o0 /\ is (narrow (nmul (nof (-1)) off) : f32) (- o0) /\ is (narrow t : f32) t0 /\ is (narrow x : f32) x0 /\
    tw <= 2 * M /\ Rabs (tw * B2R p + fw * (1 - B2R p)) <= 2 * M /\
    Rabs (((B2R fl + B2R fr) / 2 - (B2R tl + B2R tr) / 2) * (1 - B2R p)) <= 2 * M /\
    Rabs (s0 * tw - (tw * B2R p + fw * (1 - B2R p))) <= 21 / 10 * (h * M) /\
    Rabs (o0 - tw / 2) <= 51 / 100 * (h * tw) /\
    Rabs (t0 - ((B2R fl + B2R fr) / 2 - (B2R tl + B2R tr) / 2) * (1 - B2R p)) <= 41 / 10 * (h * M) /\
    Rabs (x0 - B2R x) <= 101 / 100 * (h * tw).
Proof.
  intros Hk Wfl Wfr Wtl Wtr Htw Fx Hx Fp Hp M h tw fw off tc fc t s.
  set (d := bpow radix2 (k - 53)).
  assert (HM : 1 <= M) by (change 1 with (bpow radix2 0); apply bpow_le; lia).
  assert (Hd : d = bpow radix2 (-53) * M) by (unfold d, M; rewrite <- bpow_plus; f_equal; lia).
  assert (H53 : bpow radix2 (-53) <= h / 100000000) by (unfold h; cbn; lra).
  assert (Hh0 : 0 < h) by apply bpow_gt_0.
  assert (Hh : h <= / 10000000) by (unfold h; cbn; lra).
  assert (D0 : 0 < d) by apply bpow_gt_0.
  assert (Dh : d <= h * M / 100000000) by (rewrite Hd; nra).
  assert (P1 : bpow radix2 (k + 1) = 2 * M) by (unfold M; rewrite bpow_plus; cbn; lra).
  assert (P2 : bpow radix2 (k + 2) = 4 * M) by (unfold M; rewrite bpow_plus; cbn; lra).
  assert (Q1 : bpow radix2 (k + 1 - 54) = d) by (unfold d; f_equal; lia).
  assert (Q2 : bpow radix2 (k + 2 - 54) = 2 * d) by (replace (k + 2 - 54)%Z with (1 + (k - 53))%Z by lia; unfold d; rewrite bpow_plus; cbn; lra).
  assert (Q0 : bpow radix2 (k - 54) = d / 2) by (replace (k - 54)%Z with (-1 + (k - 53))%Z by lia; unfold d; rewrite bpow_plus; cbn; lra).
  assert (EF : bpow radix2 (-150) <= h / 1000000).
  { apply Rle_trans with (bpow radix2 (-24 + -20)); [apply bpow_le; lia|]. rewrite bpow_plus. fold h. assert (bpow radix2 (-20) <= / 1000000 * 1) by (cbn; lra). nra. }
  assert (ED : bpow radix2 (-1075) <= bpow radix2 (-53)) by (apply bpow_le; lia).
  destruct Wfl as (Ffl & Lfl), Wfr as (Ffr & Lfr), Wtl as (Ftl & Ltl), Wtr as (Ftr & Ltr). fold M in Lfl, Lfr, Ltl, Ltr.
  apply Rabs_le_inv in Lfl. apply Rabs_le_inv in Lfr. apply Rabs_le_inv in Ltl. apply Rabs_le_inv in Ltr.
  destruct (of_ok 2 ltac:(lia)) as (F2 & V2). destruct (of_ok 1 ltac:(lia)) as (F1 & V1).
  (* widths *)
  destruct (sub_ok (k + 1) ltac:(lia) tr tl Ftr Ftl) as (Ftw & Vtw). { rewrite P1. apply Rabs_le. lra. }
  destruct (sub_ok (k + 1) ltac:(lia) fr fl Ffr Ffl) as (Ffw & Vfw). { rewrite P1. apply Rabs_le. lra. }
  set (TW := nsub tr tl) in *. set (FW := nsub fr fl) in *. fold tw in Vtw. fold fw in Vfw.
  assert (Btw : 1 <= tw <= 2 * M) by (unfold tw; lra). assert (Bfw : Rabs fw <= 2 * M) by (unfold fw; apply Rabs_le; lra).
  assert (Etw : Rabs (B2R TW - tw) <= d) by (rewrite Vtw, <- Q1; apply rd_err; [lia|rewrite P1; apply Rabs_le; lra]).
  assert (Efw : Rabs (B2R FW - fw) <= d) by (rewrite Vfw, <- Q1; apply rd_err; [lia|rewrite P1; exact Bfw]).
  assert (Gtw : 1 <= B2R TW) by (rewrite Vtw; replace 1 with (rd 1); [apply rd_mono; lra|apply rd_gen; change 1 with (bpow radix2 0); apply gen_bpow; lia]).
  assert (Ltw : B2R TW <= 2 * M) by (rewrite Vtw, <- P1; eapply Rle_trans; [apply Rle_abs|apply rd_bound; [lia|rewrite P1; apply Rabs_le; lra]]).
  assert (Lfw : Rabs (B2R FW) <= 2 * M) by (rewrite Vfw, <- P1; apply rd_bound; [lia|rewrite P1; exact Bfw]).
  assert (Rtw : Rabs (B2R TW - tw) <= 2 * bpow radix2 (-53) * tw).
  { rewrite Vtw. eapply Rle_trans; [apply rd_rel|]. rewrite (Rabs_pos_eq tw) by lra. pose proof (bpow_gt_0 radix2 (-53)). nra. }
  (* offset *)
  assert (Hlf : Rabs (B2R TW / B2R (nof 2 : f64)) <= bpow radix2 k) by (rewrite V2; fold M; apply Rabs_le; lra).
  destruct (div_ok k ltac:(lia) TW (nof 2) Ftw ltac:(rewrite V2; lra) Hlf) as (Fo & Vo). fold off in Fo, Vo. rewrite V2 in Vo, Hlf.
  assert (Eo : Rabs (B2R off - tw / 2) <= d).
  { rewrite Vo. pose proof (rd_err k _ ltac:(lia) Hlf) as Z. rewrite Q0 in Z. apply Rabs_le_inv in Z. apply Rabs_le_inv in Etw. apply Rabs_le. lra. }
  assert (Ro : Rabs (B2R off - tw / 2) <= 4 * bpow radix2 (-53) * tw).
  { rewrite Vo. pose proof (rd_rel (B2R TW / 2)) as Z. rewrite (Rabs_pos_eq (B2R TW / 2)) in Z by lra.
    apply Rabs_le_inv in Z. apply Rabs_le_inv in Rtw. pose proof (bpow_gt_0 radix2 (-53)). set (u := bpow radix2 (-53)) in *.
    assert (B2R TW <= 2 * tw) by nra. assert (u * (B2R TW / 2) <= u * tw) by nra.
    assert (bpow radix2 (-1075) <= u * tw) by nra. apply Rabs_le. lra. }
  assert (Hlf' : Rabs (B2R FW / B2R (nof 2 : f64)) <= bpow radix2 k) by (rewrite V2; fold M; apply Rabs_le_inv in Lfw; apply Rabs_le; lra).
  destruct (div_ok k ltac:(lia) FW (nof 2) Ffw ltac:(rewrite V2; lra) Hlf') as (Fo' & Vo'). rewrite V2 in Vo', Hlf'.
  set (foff := ndiv FW (nof 2)) in *.
  assert (Eo' : Rabs (B2R foff - fw / 2) <= d).
  { rewrite Vo'. pose proof (rd_err k _ ltac:(lia) Hlf') as Z. rewrite Q0 in Z. apply Rabs_le_inv in Z. apply Rabs_le_inv in Efw. apply Rabs_le. lra. }
  apply Rabs_le_inv in Eo. apply Rabs_le_inv in Eo'. apply Rabs_le_inv in Bfw. apply Rabs_le_inv in Lfw.
  (* centers *)
  assert (Dm : d <= M / 1000) by nra.
  assert (Cm : Rabs (B2R tl + B2R off) <= bpow radix2 (k + 1)) by (rewrite P1; unfold tw in *; apply Rabs_le; lra).
  destruct (add_ok (k + 1) ltac:(lia) tl off Ftl Fo Cm) as (Fc & Vc). fold tc in Fc, Vc.
  assert (Ec : Rabs (B2R tc - (B2R tl + B2R tr) / 2) <= 2 * d).
  { rewrite Vc. pose proof (rd_err (k + 1) _ ltac:(lia) Cm) as Z. rewrite Q1 in Z. apply Rabs_le_inv in Z. unfold tw in *. apply Rabs_le. lra. }
  assert (Cm' : Rabs (B2R fl + B2R foff) <= bpow radix2 (k + 1)) by (rewrite P1; unfold fw in *; apply Rabs_le; lra).
  destruct (add_ok (k + 1) ltac:(lia) fl foff Ffl Fo' Cm') as (Fc' & Vc'). fold fc in Fc', Vc'.
  assert (Ec' : Rabs (B2R fc - (B2R fl + B2R fr) / 2) <= 2 * d).
  { rewrite Vc'. pose proof (rd_err (k + 1) _ ltac:(lia) Cm') as Z. rewrite Q1 in Z. apply Rabs_le_inv in Z. unfold fw in *. apply Rabs_le. lra. }
  set (c := (B2R fl + B2R fr) / 2 - (B2R tl + B2R tr) / 2).
  assert (Bc : Rabs c <= 2 * M) by (unfold c; apply Rabs_le; lra).
  apply Rabs_le_inv in Ec. apply Rabs_le_inv in Ec'.
  assert (Dc : Rabs (B2R fc - B2R tc) <= bpow radix2 (k + 2)) by (rewrite P2; unfold c in Bc; apply Rabs_le_inv in Bc; apply Rabs_le; lra).
  destruct (sub_ok (k + 2) ltac:(lia) fc tc Fc' Fc Dc) as (Fd & Vd). set (dd := nsub fc tc) in *.
  assert (Ed : Rabs (B2R dd - c) <= 6 * d).
  { rewrite Vd. pose proof (rd_err (k + 2) _ ltac:(lia) Dc) as Z. rewrite Q2 in Z. apply Rabs_le_inv in Z. unfold c. apply Rabs_le. lra. }
  assert (Ld : Rabs (B2R dd) <= 4 * M) by (rewrite Vd, <- P2; apply rd_bound; [lia|exact Dc]).
  (* one minus progress *)
  set (q := B2R p) in *.
  assert (Ip : is (nsub (nof 1) p : f32) (rnd32 (1 - q))).
  { destruct one32 as (O1 & O2). pose proof (Bminus_correct 24 128 _ _ mode_NE (nof 1 : f32) p O1 Fp) as Z. rewrite O2 in Z. fold q in Z.
    rewrite Rlt_bool_true in Z; [destruct Z as (Z1 & Z2 & _); split; assumption|]. apply fits_small. apply Rle_trans with 1; [apply Rabs_le; lra|].
    change 1 with (bpow radix2 0). apply bpow_le. lia. }
  apply widen_is in Ip. destruct Ip as (Fi & Vi). set (ip := widen (nsub (nof 1) p)) in *.
  assert (Ei : Rabs (B2R ip - (1 - q)) <= 101 / 100 * h).
  { rewrite Vi. eapply Rle_trans; [apply rnd_rel|]. fold h. rewrite (Rabs_pos_eq (1 - q)) by lra. nra. }
  assert (Bi : 0 <= B2R ip <= 1).
  { destruct one32 as (_ & O2). assert (R1 : rnd32 1 = 1) by (rewrite <- O2; apply rnd_gen).
    rewrite Vi. pose proof (rnd_mono 0 (1 - q) ltac:(lra)) as Y1. pose proof (rnd_mono (1 - q) 1 ltac:(lra)) as Y2.
    rewrite rnd_0 in Y1. rewrite R1 in Y2. lra. }
  (* t *)
  assert (Tm : Rabs (B2R dd * B2R ip) <= bpow radix2 (k + 2)).
  { rewrite P2, Rabs_mult, (Rabs_pos_eq (B2R ip)) by lra. pose proof (Rabs_pos (B2R dd)). nra. }
  destruct (mul_ok (k + 2) ltac:(lia) dd ip Fd Fi Tm) as (Ft & Vt). fold t in Ft, Vt.
  assert (Et : Rabs (B2R t - c * (1 - q)) <= 8 * d + 202 / 100 * (h * M)).
  { rewrite Vt. pose proof (rd_err (k + 2) _ ltac:(lia) Tm) as Z. rewrite Q2 in Z.
    assert (Y : Rabs (B2R dd * B2R ip - c * (1 - q)) <= 6 * d + 202 / 100 * (h * M)).
    { apply (tri _ (c * B2R ip)).
      - replace (B2R dd * B2R ip - c * B2R ip) with ((B2R dd - c) * B2R ip) by ring. rewrite Rabs_mult, (Rabs_pos_eq (B2R ip)) by lra.
        pose proof (Rabs_pos (B2R dd - c)). nra.
      - replace (c * B2R ip - c * (1 - q)) with (c * (B2R ip - (1 - q))) by ring. rewrite Rabs_mult.
        apply Rle_trans with (2 * M * (101 / 100 * h)); [apply Rmult_le_compat; auto using Rabs_pos|]. lra. }
    pose proof (tri _ _ _ _ _ Z Y). lra. }
  assert (BT : Rabs (c * (1 - q)) <= 2 * M).
  { rewrite Rabs_mult, (Rabs_pos_eq (1 - q)) by lra. pose proof (Rabs_pos c). nra. }
  (* numerator *)
  pose proof (widen_is p q (conj Fp eq_refl)) as (Fq & Vq). set (dp := widen p) in *.
  assert (Om : Rabs (B2R (nof 1 : f64) - B2R dp) <= bpow radix2 0) by (rewrite V1, Vq; apply Rabs_le; cbn; lra).
  destruct (sub_ok 0 ltac:(lia) (nof 1) dp F1 Fq Om) as (Fm & Vm). set (om := nsub (nof 1) dp) in *.
  assert (Em : Rabs (B2R om - (1 - q)) <= bpow radix2 (-54)).
  { pose proof (rd_err 0 _ ltac:(lia) Om) as Z. rewrite <- Vm, V1, Vq in Z. exact Z. }
  assert (Bm : Rabs (B2R om) <= 1) by (rewrite Vm; apply (rd_bound 0); [lia|exact Om]).
  assert (M1 : Rabs (B2R TW * B2R dp) <= bpow radix2 (k + 1)) by (rewrite P1, Vq; apply Rabs_le; nra).
  destruct (mul_ok (k + 1) ltac:(lia) TW dp Ftw Fq M1) as (Fa & Va). set (aa := nmul TW dp) in *.
  assert (M2 : Rabs (B2R FW * B2R om) <= bpow radix2 (k + 1)).
  { rewrite P1, Rabs_mult. replace (2 * M) with (2 * M * 1) by ring. apply Rmult_le_compat; try apply Rabs_pos; [apply Rabs_le; lra|exact Bm]. }
  destruct (mul_ok (k + 1) ltac:(lia) FW om Ffw Fm M2) as (Fb & Vb). set (bb := nmul FW om) in *.
  pose proof (rd_err (k + 1) _ ltac:(lia) M1) as Ea. rewrite <- Va, Q1 in Ea.
  pose proof (rd_err (k + 1) _ ltac:(lia) M2) as Eb. rewrite <- Vb, Q1 in Eb.
  pose proof (rd_bound (k + 1) _ ltac:(lia) M1) as Ba. rewrite <- Va, P1 in Ba.
  pose proof (rd_bound (k + 1) _ ltac:(lia) M2) as Bb. rewrite <- Vb, P1 in Bb.
  assert (M3 : Rabs (B2R aa + B2R bb) <= bpow radix2 (k + 2)) by (rewrite P2; eapply Rle_trans; [apply Rabs_triang|lra]).
  destruct (add_ok (k + 2) ltac:(lia) aa bb Fa Fb M3) as (Fn & Vn). set (N := nadd aa bb) in *.
  set (n := tw * q + fw * (1 - q)).
  assert (En : Rabs (B2R N - n) <= 7 * d).
  { pose proof (rd_err (k + 2) _ ltac:(lia) M3) as Z. rewrite <- Vn, Q2 in Z.
    assert (X1 : Rabs (B2R aa - tw * q) <= 2 * d).
    { replace (2 * d) with (d + d) by ring. apply (tri _ _ _ _ _ Ea). rewrite Vq. replace (B2R TW * q - tw * q) with ((B2R TW - tw) * q) by ring.
      rewrite Rabs_mult, (Rabs_pos_eq q) by lra. pose proof (Rabs_pos (B2R TW - tw)). nra. }
    assert (X2 : Rabs (B2R bb - fw * (1 - q)) <= 3 * d).
    { replace (3 * d) with (d + (d + d)) by ring. apply (tri _ _ _ _ _ Eb). apply (tri _ (fw * B2R om)).
      - replace (B2R FW * B2R om - fw * B2R om) with ((B2R FW - fw) * B2R om) by ring. rewrite Rabs_mult.
        replace d with (d * 1) by ring. apply Rmult_le_compat; auto using Rabs_pos.
      - replace (fw * B2R om - fw * (1 - q)) with (fw * (B2R om - (1 - q))) by ring. rewrite Rabs_mult.
        apply Rle_trans with (2 * M * bpow radix2 (-54)); [apply Rmult_le_compat; try apply Rabs_pos; [apply Rabs_le; lra|exact Em]|].
        rewrite Hd. change (-53)%Z with (1 + -54)%Z. rewrite bpow_plus. cbn [bpow]. right. cbn. lra. }
    apply Rabs_le_inv in Z. apply Rabs_le_inv in X1. apply Rabs_le_inv in X2. unfold n. apply Rabs_le. lra. }
  assert (Bn : Rabs n <= 2 * M) by (unfold n; apply Rabs_le; nra).
  pose proof (near_size _ _ _ _ En Bn) as BN.
  (* scale *)
  assert (Sm : Rabs (B2R N / B2R TW) <= bpow radix2 (k + 2)).
  { unfold Rdiv. rewrite P2, Rabs_mult, (Rabs_pos_eq (/ B2R TW)) by (left; apply Rinv_0_lt_compat; lra).
    assert (0 < / B2R TW <= 1) by (split; [apply Rinv_0_lt_compat; lra|rewrite <- Rinv_1; apply Rinv_le; lra]).
    pose proof (Rabs_pos (B2R N)). nra. }
  destruct (div_ok (k + 2) ltac:(lia) N TW Fn ltac:(lra) Sm) as (Fs & Vs). fold s in Fs, Vs.
  assert (Es : Rabs (B2R s * B2R TW - B2R N) <= 8 * d).
  { replace (B2R s * B2R TW - B2R N) with ((B2R s - B2R N / B2R TW) * B2R TW) by (field; lra).
    rewrite Rabs_mult, (Rabs_pos_eq (B2R TW)) by lra. pose proof (rd_rel (B2R N / B2R TW)) as Z. rewrite <- Vs in Z.
    apply Rle_trans with ((bpow radix2 (-53) * Rabs (B2R N / B2R TW) + bpow radix2 (-1075)) * B2R TW); [apply Rmult_le_compat_r; lra|].
    assert (Y : Rabs (B2R N / B2R TW) * B2R TW = Rabs (B2R N)).
    { rewrite <- (Rabs_pos_eq (B2R TW)) at 2 by lra. rewrite <- Rabs_mult. f_equal. field. lra. }
    replace ((bpow radix2 (-53) * Rabs (B2R N / B2R TW) + bpow radix2 (-1075)) * B2R TW)
      with (bpow radix2 (-53) * (Rabs (B2R N / B2R TW) * B2R TW) + bpow radix2 (-1075) * B2R TW) by ring. rewrite Y.
    pose proof (bpow_gt_0 radix2 (-53)) as U0. pose proof (bpow_gt_0 radix2 (-1075)).
    apply Rle_trans with (bpow radix2 (-53) * (4 * M) + bpow radix2 (-53) * (2 * M)); [apply Rplus_le_compat; [apply Rmult_le_compat_l; lra|apply Rmult_le_compat; lra]|]. rewrite Hd. nra. }
  assert (Bs : Rabs (B2R s) * B2R TW <= 2 * M + 15 * d).
  { pose proof (near_size _ _ _ _ Es BN) as Z. rewrite Rabs_mult, (Rabs_pos_eq (B2R TW)) in Z by lra. lra. }
  assert (L100 : M <= bpow radix2 100) by (apply bpow_le; lia).
  assert (L126 : 4 * M <= bpow radix2 126). { apply Rle_trans with (4 * bpow radix2 100); [lra|]. replace 126%Z with (26 + 100)%Z by lia. rewrite bpow_plus. pose proof (bpow_gt_0 radix2 100). assert (4 <= bpow radix2 26) by (cbn; lra). nra. }
  assert (Ws : within 126 s). { split; [exact Fs|]. pose proof (Rabs_pos (B2R s)). assert (Rabs (B2R s) <= Rabs (B2R s) * B2R TW) by nra. lra. }
  assert (Wo : within 126 off). { split; [exact Fo|]. rewrite Vo. apply Rle_trans with (bpow radix2 k); [apply rd_bound; [lia|exact Hlf]|apply bpow_le; lia]. }
  assert (Wt : within 126 t). { split; [exact Ft|]. rewrite Vt. apply Rle_trans with (bpow radix2 (k + 2)); [apply rd_bound; [lia|exact Tm]|apply bpow_le; lia]. }
  assert (Wx : within 126 x). { split; [exact Fx|]. rewrite Rabs_pos_eq by lra. fold tw in Hx. lra. }
  exists (rnd32 (B2R s)), (rnd32 (B2R off)), (rnd32 (B2R t)), (rnd32 (B2R x)).
  split; [apply narrow_is; exact Ws|]. split; [apply narrow_is; exact Wo|].
  split; [apply narrow_neg; [exact Wo|apply narrow_is; exact Wo]|].
  split; [apply narrow_is; exact Wt|]. split; [apply narrow_is; exact Wx|].
  split; [lra|]. split; [exact Bn|]. split; [exact BT|].
  pose proof (bpow_gt_0 radix2 (-53)) as U0.
  repeat split.
  - fold n. pose proof (rnd_rel (B2R s)) as Z. fold h in Z.
    assert (Y : Rabs (rnd32 (B2R s) * B2R TW - B2R N) <= 8 * d + (h * (2 * M + 15 * d) + h / 1000000 * (2 * M))).
    { replace (8 * d + (h * (2 * M + 15 * d) + h / 1000000 * (2 * M))) with ((h * (2 * M + 15 * d) + h / 1000000 * (2 * M)) + 8 * d) by ring.
      apply (tri _ (B2R s * B2R TW)); [|exact Es].
      replace (rnd32 (B2R s) * B2R TW - B2R s * B2R TW) with ((rnd32 (B2R s) - B2R s) * B2R TW) by ring. rewrite Rabs_mult, (Rabs_pos_eq (B2R TW)) by lra.
      apply Rle_trans with ((h * Rabs (B2R s) + bpow radix2 (-150)) * B2R TW); [apply Rmult_le_compat_r; lra|].
      replace ((h * Rabs (B2R s) + bpow radix2 (-150)) * B2R TW) with (h * (Rabs (B2R s) * B2R TW) + bpow radix2 (-150) * B2R TW) by ring.
      pose proof (bpow_gt_0 radix2 (-150)). apply Rplus_le_compat; [apply Rmult_le_compat_l; lra|apply Rmult_le_compat; lra]. }
    assert (HhM : 0 <= h * M) by nra. assert (HHM : h * d <= h * M / 100000000) by nra.
    assert (Y2 : Rabs (rnd32 (B2R s) * B2R TW - B2R N) <= 201 / 100 * (h * M)) by lra.
    pose proof (near_size _ _ _ _ Y2 BN) as Y3. rewrite Rabs_mult, (Rabs_pos_eq (B2R TW)) in Y3 by lra.
    assert (hM : h * M <= / 10000000 * M) by (apply Rmult_le_compat_r; lra).
    assert (Y4 : Rabs (rnd32 (B2R s)) * B2R TW <= 201 / 100 * M) by lra.
    assert (Y5 : Rabs (rnd32 (B2R s) * tw - rnd32 (B2R s) * B2R TW) <= 10 * d).
    { replace (rnd32 (B2R s) * tw - rnd32 (B2R s) * B2R TW) with (- (rnd32 (B2R s) * (B2R TW - tw))) by ring. rewrite Rabs_Ropp, Rabs_mult.
      apply Rle_trans with (Rabs (rnd32 (B2R s)) * (2 * bpow radix2 (-53) * tw)); [apply Rmult_le_compat_l; [apply Rabs_pos|exact Rtw]|].
      assert (tw <= 2 * B2R TW). { apply Rabs_le_inv in Rtw. assert (bpow radix2 (-53) <= / 1000) by lra. nra. }
      apply Rle_trans with (2 * bpow radix2 (-53) * (Rabs (rnd32 (B2R s)) * (2 * B2R TW))).
      - replace (Rabs (rnd32 (B2R s)) * (2 * bpow radix2 (-53) * tw)) with (2 * bpow radix2 (-53) * (Rabs (rnd32 (B2R s)) * tw)) by ring.
        apply Rmult_le_compat_l; [lra|]. apply Rmult_le_compat_l; [apply Rabs_pos|lra].
      - rewrite Hd. nra. }
    pose proof (tri _ _ _ _ _ Y5 Y2) as Y6. pose proof (tri _ _ _ _ _ Y6 En) as Y7. lra.
  - pose proof (rnd_rel (B2R off)) as Z. fold h in Z. apply Rabs_le_inv in Ro.
    assert (U3 : bpow radix2 (-53) * tw <= h / 100000000 * tw) by (apply Rmult_le_compat_r; lra).
    assert (U4 : h / 100000000 * tw <= / 1000000 * tw) by (apply Rmult_le_compat_r; lra).
    assert (A1 : Rabs (B2R off) <= 502 / 1000 * tw) by (apply Rabs_le; lra).
    assert (A2 : h * Rabs (B2R off) <= h * (502 / 1000 * tw)) by (apply Rmult_le_compat_l; lra).
    assert (A3 : h / 1000000 * 1 <= h / 1000000 * tw) by (apply Rmult_le_compat_l; lra).
    apply Rabs_le_inv in Z. apply Rabs_le. lra.
  - pose proof (rnd_rel (B2R t)) as Z. fold h in Z. pose proof (near_size _ _ _ _ Et BT) as B1.
    assert (HhM : 0 <= h * M) by (apply Rmult_le_pos; lra).
    assert (hM : h * M <= / 10000000 * M) by (apply Rmult_le_compat_r; lra).
    assert (B2 : h * Rabs (B2R t) <= h * (202 / 100 * M)) by (apply Rmult_le_compat_l; lra).
    assert (A3 : h / 1000000 * 1 <= h / 1000000 * M) by (apply Rmult_le_compat_l; lra).
    pose proof (tri _ _ _ _ _ Z Et). fold c. lra.
  - pose proof (rnd_rel (B2R x)) as Z. fold h in Z. rewrite (Rabs_pos_eq (B2R x)) in Z by lra. fold tw in Hx.
    assert (h * B2R x <= h * tw) by (apply Rmult_le_compat_l; lra).
    assert (A3 : h / 1000000 * 1 <= h / 1000000 * tw) by (apply Rmult_le_compat_l; lra). lra.
Qed.

(** ** Both axes *)

Lemma rnd_of (x : f32) a : is x a -> rnd32 a = a.
Proof. intros (_ & <-). apply rnd_gen. Qed.

Lemma seven k : (0 <= k <= 100)%Z -> 7 * bpow radix2 k <= bpow radix2 120.
Proof.
  intros Hk. apply Rle_trans with (bpow radix2 (20 + 100)); [|apply bpow_le; lia]. rewrite bpow_plus.
  apply Rmult_le_compat; [lra|apply bpow_ge_0|cbn; lra|apply bpow_le; lia].
Qed.

(** From a bound by a smaller multiple. *)
Ltac le7 := match goal with H : Rabs ?x <= _ |- Rabs ?x <= _ => eapply Rle_trans; [exact H|lra] end.
Ltac fit := match goal with
  | FT : forall r, Rabs r <= _ -> fits r |- fits ?r => apply FT; le7
  | FR : forall r, Rabs r <= _ -> fits (rnd32 r) |- fits (rnd32 ?r) => apply FR; le7
  end.

Lemma zoom_near (L1 : Libm f32) (L2 : Libm f64) k (pr : f32) (from to : box f64) (p : vec f64) u v :
  (0 <= k <= 100)%Z -> is_finite pr = true -> 0 <= B2R pr <= 1 -> box_within k from -> box_within k to ->
  of_some_size (real_box to) -> lies_at p (real_box to) u v ->
  drawn_near (bpow radix2 (k - 19)) (transform_point p (zoom_transform pr from to))
    (between (vx (in_box (real_box from) u v)) (vx (in_box (real_box to) u v)) (B2R pr) - B2R (vx (b_tl to)))
    (between (vy (in_box (real_box from) u v)) (vy (in_box (real_box to) u v)) (B2R pr) - B2R (vy (b_tl to))).
Proof.
  intros Hk Fp Hp ((Afx & Afy) & (Bfx & Bfy)) ((Atx & Aty) & (Btx & Bty)) (Sx & Sy) ((Fx & Fy) & Hu & Hv & E).
  cbn [real_box b_tl b_br real_point vx vy] in Sx, Sy.
  assert (Ex : B2R (vx p) = u * (B2R (vx (b_br to)) - B2R (vx (b_tl to)))) by (apply (f_equal vx) in E; exact E).
  assert (Ey : B2R (vy p) = v * (B2R (vy (b_br to)) - B2R (vy (b_tl to)))) by (apply (f_equal vy) in E; exact E).
  assert (Rx : 0 <= B2R (vx p) <= B2R (vx (b_br to)) - B2R (vx (b_tl to))) by (rewrite Ex; nra).
  assert (Ry : 0 <= B2R (vy p) <= B2R (vy (b_br to)) - B2R (vy (b_tl to))) by (rewrite Ey; nra).
  destruct (axis_double k _ _ _ _ _ pr Hk Afx Bfx Atx Btx Sx Fx Rx Fp Hp) as (sx & ox & tx & px & Isx & Iox & Jox & Itx & Ipx & X1 & X2 & X3 & X4 & X5 & X6 & X7).
  destruct (axis_double k _ _ _ _ _ pr Hk Afy Bfy Aty Bty Sy Fy Ry Fp Hp) as (sy & oy & ty & py & Isy & Ioy & Joy & Ity & Ipy & Y1 & Y2 & Y3 & Y4 & Y5 & Y6 & Y7).
  assert (HM : 1 <= bpow radix2 k) by (change 1 with (bpow radix2 0); apply bpow_le; lia).
  pose proof (axis_real (bpow radix2 k) _ eq_refl HM _ _ _ _ _ _ _ _ (conj Sx X1) X2 X3 Rx X4 X5 X6 X7) as (KX1 & KX2 & KX3 & KX4 & KX5 & KX6 & KX7 & KX8 & KX9).
  pose proof (axis_real (bpow radix2 k) _ eq_refl HM _ _ _ _ _ _ _ _ (conj Sy Y1) Y2 Y3 Ry Y4 Y5 Y6 Y7) as (KY1 & KY2 & KY3 & KY4 & KY5 & KY6 & KY7 & KY8 & KY9).
  pose proof (seven k Hk) as S7.
  assert (Z32 : is (narrow (nzero : f64) : f32) 0) by (apply narrow_exact; [exact zero64|apply rep_0]).
  assert (O32 : is (narrow (nof 1 : f64) : f32) 1) by (apply narrow_exact; [exact one64|eexists; exact one32]).
  assert (M0 : 0 < bpow radix2 k) by apply bpow_gt_0.
  assert (FT : forall r, Rabs r <= 7 * bpow radix2 k -> fits r) by (intros r Hr; apply fits_small; lra).
  assert (R1 : rnd32 1 = 1) by (apply (rnd_of _ _ one32)).
  assert (A1 : Rabs 1 <= bpow radix2 k) by (rewrite Rabs_pos_eq by lra; exact HM).
  unfold transform_point, zoom_transform. cbv zeta. unfold box_center, vadd. cbn [vx vy box_center_offset].
  (* translation and offset *)
  pose proof (diag_translate _ _ _ _ _ Itx Ity Z32) as D1. pose proof (diag_translate _ _ _ _ _ Iox Ioy Z32) as D2.
  pose proof (diag_mul _ _ _ _ _ _ _ _ _ _ D1 D2) as D3.
  rewrite !Rmult_1_l, (rnd_of _ _ Iox), (rnd_of _ _ Ioy), !R1 in D3.
  do 6 (match type of D3 with ?P -> _ => let K := fresh in assert (K : P) by fit; specialize (D3 K); clear K end).
  (* scale *)
  pose proof (diag_scale _ _ _ _ _ Isx Isy O32) as D4. pose proof (diag_mul _ _ _ _ _ _ _ _ _ _ D3 D4) as D5.
  rewrite !Rmult_1_l, rnd_0, !Rplus_0_l, (rnd_of _ _ Isx), (rnd_of _ _ Isy) in D5.
  assert (I32 : forall r, rnd32 (rnd32 r) = rnd32 r).
  { intros r. apply round_generic; [apply valid_rnd_round_mode|]. apply generic_format_round; [apply fexp_correct; reflexivity|apply valid_rnd_round_mode]. }
  rewrite !I32 in D5.
  assert (B0 : Rabs 0 <= 7 * bpow radix2 k) by (rewrite Rabs_R0; lra).
  assert (FR : forall r, Rabs r <= 7 * bpow radix2 k -> fits (rnd32 r)).
  { intros r Hr. unfold fits. rewrite I32. apply FT. exact Hr. }
  do 6 (match type of D5 with ?P -> _ => let K := fresh in assert (K : P) by fit; specialize (D5 K); clear K end).
  (* center *)
  pose proof (diag_translate _ _ _ _ _ Jox Joy Z32) as D6. pose proof (diag_mul _ _ _ _ _ _ _ _ _ _ D5 D6) as D7.
  rewrite !Rmult_1_r, (rnd_of _ _ Isx), (rnd_of _ _ Isy) in D7.
  do 6 (match type of D7 with ?P -> _ => let K := fresh in assert (K : P) by fit; specialize (D7 K); clear K end).
  (* point *)
  set (m := m_mul _ (m_translate m_id (narrow (nmul (nof (-1)) _)) _ _)) in *. clearbody m.
  assert (V : is4 (mk4 (narrow (vx p)) (narrow (vy p)) (narrow (nzero : f64)) (narrow (nof 1 : f64)) : vec4 f32) px py 0 1) by (repeat split; try apply Ipx; try apply Ipy; try apply Z32; try apply O32).
  pose proof (diag_apply _ _ _ _ _ _ _ _ D7 V) as D8.
  do 4 (match type of D8 with ?P -> _ => let K := fresh in assert (K : P) by fit; specialize (D8 K); clear K end).
  destruct D8 as (Q1 & Q2 & Q3 & Q4).
  apply widen_is in Q1, Q2, Q3, Q4.
  assert (U : 32 * (bpow radix2 (-24) * bpow radix2 k) = bpow radix2 (k - 19)).
  { rewrite <- bpow_plus. replace (k - 19)%Z with (5 + (-24 + k))%Z by lia. rewrite (bpow_plus radix2 5). cbn [bpow]. reflexivity. }
  rewrite U in KX9, KY9.
  destruct Q1 as (P1 & Q1), Q2 as (P2 & Q2), Q3 as (P3 & Q3), Q4 as (P4 & Q4).
  unfold drawn_near. cbn [v4x v4y v4z v4w]. rewrite Q1, Q2, Q3, Q4.
  repeat (split; [assumption|]). unfold between, in_box. cbn [real_box b_tl b_br real_point vx vy].
  split; [|split; [|split; reflexivity]].
  - eapply Rle_trans; [|exact KX9]. right. f_equal. f_equal. rewrite Ex. field. lra.
  - eapply Rle_trans; [|exact KY9]. right. f_equal. f_equal. rewrite Ey. field. lra.
Qed.
