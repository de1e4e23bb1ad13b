(** * Rounding errors of the geometric computations in [double] *)

From Coq Require Import ZArith Reals Bool List Lia Lra.
From Flocq Require Import Core Relative IEEE754.BinarySingleNaN.
From Verif Require Import Num Geometry Outcome Wobbly Spec SpecDouble LemBasic LemInv LemSprings LemHistory LemNetwork LemLifo LemSafe LemMoves LemAnchors LemAnchorFacts LemSearch LemDouble LemHang.
Import ListNotations.
Local Open Scope R_scope.

(** ** The pull of a spring *)

Lemma offset_err j (a b l : f64) : (-900 <= j <= 1020)%Z -> within j a -> within j b -> within j l ->
  Rabs (B2R (offset a b l) - (B2R b - B2R a + B2R l) / 2) <= bpow radix2 (j - 51).
Proof.
  intros Hj Wa Wb Wl. destruct (offset_ok j a b l ltac:(lia) Wa Wb Wl) as (_ & E & _). rewrite E.
  destruct Wa as (Fa & La), Wb as (Fb & Lb), Wl as (Fl & Ll).
  pose proof (bpow_ge_0 radix2 j) as P0.
  assert (P1 : bpow radix2 (j + 1) = 2 * bpow radix2 j) by (rewrite bpow_plus; cbn; lra).
  assert (P2 : bpow radix2 (j + 2) = 4 * bpow radix2 j) by (rewrite bpow_plus; cbn; lra).
  assert (Q1 : bpow radix2 (j + 1 - 54) = 1 / 4 * bpow radix2 (j - 51)).
  { replace (j + 1 - 54)%Z with (j - 51 + -2)%Z by lia. rewrite bpow_plus. cbn. lra. }
  assert (Q2 : bpow radix2 (j + 2 - 54) = 1 / 2 * bpow radix2 (j - 51)).
  { replace (j + 2 - 54)%Z with (j - 51 + -1)%Z by lia. rewrite bpow_plus. cbn. lra. }
  apply Rabs_le_inv in La, Lb, Ll.
  assert (D : Rabs (B2R b - B2R a) <= bpow radix2 (j + 1)) by (apply Rabs_le; lra).
  pose proof (rd_err (j + 1) _ ltac:(lia) D) as D1. pose proof (rd_bound (j + 1) _ ltac:(lia) D) as D2.
  set (x := rd (B2R b - B2R a)) in *. apply Rabs_le_inv in D1, D2.
  assert (S : Rabs (x + B2R l) <= bpow radix2 (j + 2)) by (apply Rabs_le; lra).
  pose proof (rd_err (j + 2) _ ltac:(lia) S) as S1. pose proof (rd_bound (j + 2) _ ltac:(lia) S) as S2.
  set (y := rd (x + B2R l)) in *. apply Rabs_le_inv in S1, S2.
  assert (H : Rabs (1 / 2 * y) <= bpow radix2 (j + 1)) by (apply Rabs_le; lra).
  pose proof (rd_err (j + 1) _ ltac:(lia) H) as H1. apply Rabs_le_inv in H1.
  apply Rabs_le. lra.
Qed.

(** The two ends of one axis of a spring: exactly opposite. *)
Lemma offset_opp j (a b l : f64) : (-900 <= j <= 1020)%Z -> within j a -> within j b -> within j l ->
  B2R (offset b a l) = - B2R (offset a b (nmul l (nof (-1)))).
Proof.
  intros Hj Wa Wb Wl. destruct (neg_len j l ltac:(lia) Wl) as (Wn & En).
  destruct (offset_ok j b a l ltac:(lia) Wb Wa Wl) as (_ & E1 & _).
  destruct (offset_ok j a b _ ltac:(lia) Wa Wb Wn) as (_ & E2 & _).
  rewrite E1, E2, En. rewrite <- rd_opp. f_equal. rewrite Ropp_mult_distr_r. f_equal. rewrite <- rd_opp. f_equal.
  replace (B2R a - B2R b) with (- (B2R b - B2R a)) by lra. rewrite rd_opp. lra.
Qed.

Lemma clipped_opp (c d : f64) : is_finite c = true -> is_finite d = true -> B2R d = - B2R c -> B2R (clipped d) = - B2R (clipped c).
Proof.
  intros Fc Fd E. unfold clipped. destruct (abs_ok c Fc) as (F1 & R1). destruct (abs_ok d Fd) as (F2 & R2).
  destruct half_ok as (Fh & Rh). destruct zero_ok as (Fz & Rz).
  rewrite !ltb_ok, R1, R2, Rh, E, Rabs_Ropp by auto. case Rlt_bool_spec; intros; [rewrite Rz; lra|exact E].
Qed.

Lemma axis_force j (a b l k : f64) : (0 <= j <= 50)%Z -> within j a -> within j b -> within j l -> within 10 k ->
  let fa := nmul (clipped (offset a b (nmul l (nof (-1))))) k in
  let fb := nmul (clipped (offset b a l)) k in
  let e := B2R b - B2R a - B2R l in
  is_finite fa = true /\ is_finite fb = true /\ B2R fb = - B2R fa /\
  (Rabs e <= 1 / 2 -> B2R fa = 0) /\
  (2 <= Rabs e -> Rabs (B2R fa - B2R k * (e / 2)) <= bpow radix2 (j - 40)).
Proof.
  intros Hj Wa Wb Wl (Fk & Lk) fa fb e.
  destruct (neg_len j l ltac:(lia) Wl) as (Wn & En).
  destruct (offset_ok j a b _ ltac:(lia) Wa Wb Wn) as (F1 & _ & L1).
  destruct (offset_ok j b a l ltac:(lia) Wb Wa Wl) as (F2 & _ & L2).
  pose proof (offset_opp j a b l ltac:(lia) Wa Wb Wl) as Op.
  pose proof (offset_err j a b _ ltac:(lia) Wa Wb Wn) as Er. rewrite En in Er.
  replace ((B2R b - B2R a + - B2R l) / 2) with (e / 2) in Er by (unfold e; lra).
  set (oa := offset a b (nmul l (nof (-1)))) in *. set (ob := offset b a l) in *.
  pose proof (clipped_opp oa ob F1 F2 Op) as Cp.
  destruct (clipped_ok (j + 1) oa (conj F1 L1)) as ((Ga & Ma) & Za & Ka).
  destruct (clipped_ok (j + 1) ob (conj F2 L2)) as ((Gb & Mb) & _ & _).
  assert (PP : bpow radix2 (j + 11) = bpow radix2 (j + 1) * bpow radix2 10) by (rewrite <- bpow_plus; f_equal; lia).
  assert (Pa : Rabs (B2R (clipped oa) * B2R k) <= bpow radix2 (j + 11)).
  { rewrite Rabs_mult, PP. apply Rmult_le_compat; auto using Rabs_pos. }
  assert (Pb : Rabs (B2R (clipped ob) * B2R k) <= bpow radix2 (j + 11)).
  { rewrite Rabs_mult, PP. apply Rmult_le_compat; auto using Rabs_pos. }
  destruct (mul_ok (j + 11) ltac:(lia) _ k Ga Fk Pa) as (A1 & B1).
  destruct (mul_ok (j + 11) ltac:(lia) _ k Gb Fk Pb) as (A2 & B2).
  split; [exact A1|]. split; [exact A2|]. unfold fa, fb. rewrite B1, B2, Cp. split.
  { rewrite Ropp_mult_distr_l_reverse. apply rd_opp. }
  assert (W : forall x, within j x -> within 50 x) by (intros x Hx; apply (within_le j); [lia|exact Hx]).
  split.
  - intros Near. rewrite Za; [rewrite Rmult_0_l; apply rd_0|]. apply offset_near; auto. rewrite En.
    replace (B2R b - B2R a + - B2R l) with e by (unfold e; lra). exact Near.
  - intros Far. rewrite Ka.
    2:{ apply offset_far; auto. rewrite En. replace (B2R b - B2R a + - B2R l) with e by (unfold e; lra). exact Far. }
    assert (Pk : Rabs (B2R oa * B2R k) <= bpow radix2 (j + 11)).
    { rewrite Rabs_mult, PP. apply Rmult_le_compat; auto using Rabs_pos. }
    pose proof (rd_err (j + 11) _ ltac:(lia) Pk) as E1.
    replace (rd (B2R oa * B2R k) - B2R k * (e / 2)) with ((rd (B2R oa * B2R k) - B2R oa * B2R k) + B2R k * (B2R oa - e / 2)) by lra.
    eapply Rle_trans; [apply Rabs_triang|]. rewrite Rabs_mult.
    assert (E2 : Rabs (B2R k) * Rabs (B2R oa - e / 2) <= bpow radix2 10 * bpow radix2 (j - 51)) by (apply Rmult_le_compat; auto using Rabs_pos).
    rewrite <- bpow_plus in E2. replace (10 + (j - 51))%Z with (j - 40 + -1)%Z in E2 by lia. rewrite bpow_plus in E2.
    replace (j + 11 - 54)%Z with (j - 40 + -3)%Z in E1 by lia. rewrite bpow_plus in E1. cbn [bpow] in E1, E2.
    change (Z.pow_pos radix2 1) with 2%Z in E2. change (Z.pow_pos radix2 3) with 8%Z in E1.
    pose proof (bpow_ge_0 radix2 (j - 40)). lra.
Qed.

(** ** Distances *)

(** Relative and absolute error of one rounding. *)
Lemma rd_rel x : Rabs (rd x - x) <= bpow radix2 (-53) * Rabs x + bpow radix2 (-1075).
Proof.
  destruct (error_N_FLT radix2 (-1074) 53 eq_refl (fun x => negb (Z.even x)) x) as (eps & eta & A & B & _ & E).
  change (round radix2 (FLT_exp (-1074) 53) (Znearest (fun x => negb (Z.even x))) x) with (rd x) in E. rewrite E.
  replace (x * (1 + eps) + eta - x) with (eps * x + eta) by ring.
  eapply Rle_trans; [apply Rabs_triang|]. apply Rplus_le_compat.
  - rewrite Rabs_mult. apply Rmult_le_compat_r; [apply Rabs_pos|].
    eapply Rle_trans; [exact A|]. change (-53)%Z with (-1 + (-53 + 1))%Z. rewrite (bpow_plus radix2 (-1)). right. reflexivity.
  - eapply Rle_trans; [exact B|]. change (-1075)%Z with (-1 + -1074)%Z. rewrite (bpow_plus radix2 (-1)). right. reflexivity.
Qed.

Section DistanceError.
Context (u t : R) (Hu0 : 0 <= u) (Hu : u <= 1 / 1000) (Ht0 : 0 <= t) (Ht : t <= u / 1000).

Lemma sq_err d x : Rabs (x - d) <= u * Rabs d + t -> Rabs (x ^ 2 - d ^ 2) <= 21 / 10 * u * d ^ 2 + 3 * t.
Proof using Hu0 Hu Ht0 Ht.
  intros E. replace (x ^ 2 - d ^ 2) with ((x - d) * (2 * d + (x - d))) by ring. rewrite Rabs_mult.
  pose proof (Rabs_pos d) as Pa. pose proof (Rabs_pos (x - d)) as Pd.
  assert (T : Rabs (2 * d + (x - d)) <= 2 * Rabs d + Rabs (x - d)).
  { eapply Rle_trans; [apply Rabs_triang|]. rewrite Rabs_mult, (Rabs_right 2) by lra. lra. }
  replace (d ^ 2) with (Rabs d * Rabs d) by (rewrite <- Rabs_mult, Rabs_right; [ring|nra]).
  set (a := Rabs d) in *. set (e := Rabs (x - d)) in *. clearbody a e.
  apply Rle_trans with ((u * a + t) * (2 * a + (u * a + t))).
  - apply Rmult_le_compat; auto using Rabs_pos; lra.
  - assert (Ua : 0 <= u * (a * a)) by (apply Rmult_le_pos; [auto|nra]).
    assert (A1 : u * (u * (a * a)) <= 1 / 1000 * (u * (a * a))) by (apply Rmult_le_compat_r; auto).
    assert (A2 : 2 * (a * t) <= t * (1 + a * a)) by (replace (2 * (a * t)) with (t * (2 * a)) by ring; apply Rmult_le_compat_l; [auto|]; pose proof (Rle_0_sqr (a - 1)) as Sq; unfold Rsqr in Sq; lra).
    assert (A3 : t * (a * a) <= u / 1000 * (a * a)) by (apply Rmult_le_compat_r; nra).
    assert (A4 : t * t <= 1 / 1000 * t) by (apply Rmult_le_compat_r; lra).
    assert (A5 : u * (a * t) <= 1 / 1000 * (a * t)) by (apply Rmult_le_compat_r; [apply Rmult_le_pos|]; auto).
    replace ((u * a + t) * (2 * a + (u * a + t))) with (2 * (u * (a * a)) + u * (u * (a * a)) + 2 * (a * t) + 2 * (u * (a * t)) + t * t) by ring.
    replace (u / 1000 * (a * a)) with (1 / 1000 * (u * (a * a))) in A3 by field.
    assert (A6 : 0 <= a * t) by (apply Rmult_le_pos; auto). lra.
Qed.

Lemma sq2_err d x y : Rabs (x - d) <= u * Rabs d + t -> Rabs (y - x ^ 2) <= u * Rabs (x ^ 2) + t ->
  Rabs (y - d ^ 2) <= 32 / 10 * u * d ^ 2 + 5 * t.
Proof using Hu0 Hu Ht0 Ht.
  intros E1 E2. apply sq_err in E1. rewrite (Rabs_right (x ^ 2)) in E2 by nra.
  assert (P : 0 <= d ^ 2) by nra. set (q := d ^ 2) in *. set (z := x ^ 2) in *. clearbody q z.
  apply Rabs_le_inv in E1, E2. apply Rabs_le.
  assert (0 <= u * q) by nra. assert (u * (u * q) <= 1 / 1000 * (u * q)) by (apply Rmult_le_compat_r; auto).
  assert (u * z <= u * (q + 21 / 10 * u * q + 3 * t)) by (apply Rmult_le_compat_l; lra).
  assert (u * t <= 1 / 1000 * t) by (apply Rmult_le_compat_r; auto).
  lra.
Qed.

Lemma sum_err dx dy x2 y2 s : Rabs (x2 - dx ^ 2) <= 32 / 10 * u * dx ^ 2 + 5 * t -> Rabs (y2 - dy ^ 2) <= 32 / 10 * u * dy ^ 2 + 5 * t ->
  Rabs (s - (y2 + x2)) <= u * Rabs (y2 + x2) + t -> Rabs (s - (dx ^ 2 + dy ^ 2)) <= 5 * u * (dx ^ 2 + dy ^ 2) + 12 * t.
Proof using Hu0 Hu Ht0 Ht.
  intros E1 E2 E3. set (q := dx ^ 2) in *. set (z := dy ^ 2) in *. assert (0 <= q) by (unfold q; nra). assert (0 <= z) by (unfold z; nra).
  clearbody q z. assert (Rabs ((y2 + x2) - (q + z)) <= 32 / 10 * u * (q + z) + 10 * t) as E4.
  { apply Rabs_le_inv in E1, E2. apply Rabs_le. lra. }
  assert (B : Rabs (y2 + x2) <= (q + z) + (32 / 10 * u * (q + z) + 10 * t)).
  { replace (y2 + x2) with ((q + z) + ((y2 + x2) - (q + z))) by ring. eapply Rle_trans; [apply Rabs_triang|]. rewrite (Rabs_right (q + z)) by lra. lra. }
  assert (u * Rabs (y2 + x2) <= u * ((q + z) + (32 / 10 * u * (q + z) + 10 * t))) by (apply Rmult_le_compat_l; auto).
  set (w := q + z) in *. assert (0 <= w) by (unfold w; lra). clearbody w.
  assert (0 <= u * w) by nra. assert (u * (u * w) <= 1 / 1000 * (u * w)) by (apply Rmult_le_compat_r; auto).
  assert (u * t <= 1 / 1000 * t) by (apply Rmult_le_compat_r; auto).
  apply Rabs_le_inv in E3, E4. apply Rabs_le. lra.
Qed.

Lemma sqrt_err e2 s r : 0 <= e2 -> 0 <= s -> Rabs (s - e2) <= 5 * u * e2 + 12 * t -> 0 <= r -> 12 * t <= r * r ->
  Rabs (sqrt s - sqrt e2) <= 5 * u * sqrt e2 + r.
Proof using Hu0 Hu Ht0 Ht.
  intros P S E R T. pose proof (sqrt_pos e2) as Pe. pose proof (sqrt_pos s) as Ps.
  assert (Q : e2 = sqrt e2 * sqrt e2) by (symmetry; apply sqrt_sqrt; auto). assert (Qs : s = sqrt s * sqrt s) by (symmetry; apply sqrt_sqrt; auto).
  set (e := sqrt e2) in *. set (x := sqrt s) in *. clearbody e x. subst e2 s.
  apply Rabs_le_inv in E. apply Rabs_le. assert (0 <= u * e) by nra. split.
  - apply Rnot_lt_le. intros C. set (a := e - 5 * u * e) in *.
    assert (0 <= a) by (unfold a; nra). assert (r <= a) by (unfold a in *; lra).
    assert (x * x < (a - r) * (a - r)) by (apply Rmult_le_0_lt_compat; unfold a in *; lra).
    assert (a * a <= e * e - 5 * u * (e * e)).
    { replace (a * a) with (e * e - 5 * u * (e * e) - a * (5 * (u * e))) by (unfold a; ring). nra. }
    nra.
  - apply Rnot_lt_le. intros C. set (a := e + 5 * u * e) in *. assert (0 <= a) by (unfold a; nra).
    assert ((a + r) * (a + r) < x * x) by (apply Rmult_le_0_lt_compat; unfold a in *; lra).
    assert (e * e + 5 * u * (e * e) <= a * a).
    { replace (a * a) with (e * e + 5 * u * (e * e) + a * (5 * (u * e))) by (unfold a; ring). nra. }
    nra.
Qed.

Lemma last_err e x y r : 0 <= e -> 0 <= x -> 0 <= r -> t <= r -> Rabs (x - e) <= 5 * u * e + r -> Rabs (y - x) <= u * Rabs x + t ->
  Rabs (y - e) <= 7 * u * e + 3 * r.
Proof using Hu0 Hu Ht0 Ht.
  intros P Px R T E1 E2. rewrite (Rabs_right x) in E2 by lra. apply Rabs_le_inv in E1, E2. apply Rabs_le.
  assert (0 <= u * e) by nra. assert (u * (u * e) <= 1 / 1000 * (u * e)) by (apply Rmult_le_compat_r; auto).
  assert (u * x <= u * (e + 5 * u * e + r)) by (apply Rmult_le_compat_l; lra).
  assert (u * r <= 1 / 1000 * r) by (apply Rmult_le_compat_r; auto). lra.
Qed.
End DistanceError.

Lemma dist_ok (p q : vec f64) : point_within 500 p -> point_within 500 q ->
  is_finite (vdist p q) = true /\
  Rabs (B2R (vdist p q) - euclid (real_point p) (real_point q)) <= bpow radix2 (-50) * euclid (real_point p) (real_point q) + bpow radix2 (-528).
Proof.
  intros ((Fpx & Lpx) & (Fpy & Lpy)) ((Fqx & Lqx) & (Fqy & Lqy)). unfold vdist.
  assert (P1 : bpow radix2 501 = 2 * bpow radix2 500) by (change 501%Z with (500 + 1)%Z; rewrite bpow_plus; cbn [bpow]; change (Z.pow_pos radix2 1) with 2%Z; lra).
  assert (P2 : bpow radix2 1002 = bpow radix2 501 * bpow radix2 501) by (rewrite <- bpow_plus; reflexivity).
  assert (P3 : bpow radix2 1003 = 2 * bpow radix2 1002) by (change 1003%Z with (1002 + 1)%Z; rewrite bpow_plus; cbn [bpow]; change (Z.pow_pos radix2 1) with 2%Z; lra).
  assert (Dx : Rabs (B2R (vx p) - B2R (vx q)) <= bpow radix2 501).
  { apply Rabs_le_inv in Lpx, Lqx. apply Rabs_le. lra. }
  assert (Dy : Rabs (B2R (vy p) - B2R (vy q)) <= bpow radix2 501).
  { apply Rabs_le_inv in Lpy, Lqy. apply Rabs_le. lra. }
  destruct (sub_ok 501 ltac:(lia) (vx p) (vx q) Fpx Fqx Dx) as (A1 & B1).
  destruct (sub_ok 501 ltac:(lia) (vy p) (vy q) Fpy Fqy Dy) as (A2 & B2).
  pose proof (rd_bound 501 _ ltac:(lia) Dx) as Dx'. pose proof (rd_bound 501 _ ltac:(lia) Dy) as Dy'.
  pose proof (rd_rel (B2R (vx p) - B2R (vx q))) as Rx. pose proof (rd_rel (B2R (vy p) - B2R (vy q))) as Ry.
  rewrite <- B1 in Dx', Rx. rewrite <- B2 in Dy', Ry.
  set (dx := nsub (vx p) (vx q)) in *. set (dy := nsub (vy p) (vy q)) in *. clearbody dx dy.
  assert (Sx : Rabs (B2R dx * B2R dx) <= bpow radix2 1002).
  { rewrite Rabs_mult, P2. apply Rmult_le_compat; auto using Rabs_pos. }
  assert (Sy : Rabs (B2R dy * B2R dy) <= bpow radix2 1002).
  { rewrite Rabs_mult, P2. apply Rmult_le_compat; auto using Rabs_pos. }
  destruct (mul_ok 1002 ltac:(lia) dx dx A1 A1 Sx) as (A3 & B3).
  destruct (mul_ok 1002 ltac:(lia) dy dy A2 A2 Sy) as (A4 & B4).
  pose proof (rd_bound 1002 _ ltac:(lia) Sx) as Sx'. pose proof (rd_bound 1002 _ ltac:(lia) Sy) as Sy'.
  pose proof (rd_rel (B2R dx * B2R dx)) as Rx2. pose proof (rd_rel (B2R dy * B2R dy)) as Ry2.
  assert (Zx : 0 <= B2R (nmul dx dx)) by (rewrite B3, <- rd_0; apply rd_mono; nra).
  assert (Zy : 0 <= B2R (nmul dy dy)) by (rewrite B4, <- rd_0; apply rd_mono; nra).
  rewrite <- B3 in Sx', Rx2. rewrite <- B4 in Sy', Ry2.
  set (x2 := nmul dx dx) in *. set (y2 := nmul dy dy) in *. clearbody x2 y2.
  destruct zero_ok as (Fz & Rz).
  destruct (add_ok 1002 ltac:(lia) nzero y2 Fz A4) as (A5 & B5); [rewrite Rz, Rplus_0_l; exact Sy'|].
  rewrite Rz, Rplus_0_l, rd_val in B5. set (y3 := nadd nzero y2) in *. clearbody y3.
  assert (SS : Rabs (B2R y3 + B2R x2) <= bpow radix2 1003).
  { rewrite B5, P3. eapply Rle_trans; [apply Rabs_triang|]. lra. }
  destruct (add_ok 1003 ltac:(lia) y3 x2 A5 A3 SS) as (A6 & B6).
  pose proof (rd_rel (B2R y3 + B2R x2)) as Rs. rewrite <- B6 in Rs.
  assert (Zs : 0 <= B2R (nadd y3 x2)) by (rewrite B6, <- rd_0; apply rd_mono; lra).
  set (s := nadd y3 x2) in *. clearbody s.
  destruct (sqrt_ok s A6 Zs) as (A7 & B7). split; [exact A7|].
  pose proof (rd_rel (sqrt (B2R s))) as Rr. rewrite <- B7 in Rr. set (r := nsqrt s) in *. clearbody r.
  unfold euclid, real_point. cbn [vx vy]. rewrite B5 in Rs.
  replace (B2R dx * B2R dx) with (B2R dx ^ 2) in Rx2 by ring. replace (B2R dy * B2R dy) with (B2R dy ^ 2) in Ry2 by ring.
  set (u := bpow radix2 (-53)) in *. set (t := bpow radix2 (-1075)) in *.
  assert (Hu0 : 0 <= u) by apply bpow_ge_0. assert (Ht0 : 0 <= t) by apply bpow_ge_0.
  assert (Hu : u <= 1 / 1000) by (unfold u; eapply Rle_trans; [apply (bpow_le radix2 (-53) (-10)); lia|cbn; lra]).
  assert (Ht : t <= u / 1000).
  { unfold t, u. change (-1075)%Z with (-53 + -1022)%Z. rewrite bpow_plus. apply Rmult_le_compat_l; [apply bpow_ge_0|].
    eapply Rle_trans; [apply (bpow_le radix2 (-1022) (-10)); lia|cbn; lra]. }
  set (g := bpow radix2 (-530)). assert (Hg : 0 <= g) by apply bpow_ge_0.
  assert (Hgg : 12 * t <= g * g).
  { unfold g, t. rewrite <- bpow_plus. change (-530 + -530)%Z with (4 + 11 + -1075)%Z. rewrite !bpow_plus.
    apply Rmult_le_compat_r; [apply bpow_ge_0|]. cbn. lra. }
  assert (Htg : t <= g) by (apply bpow_le; lia).
  assert (Q : 0 <= (B2R (vx p) - B2R (vx q)) ^ 2 + (B2R (vy p) - B2R (vy q)) ^ 2) by (apply Rplus_le_le_0_compat; apply pow2_ge_0).
  pose proof (sum_err u t Hu0 Hu Ht0 Ht _ _ _ _ _ (sq2_err u t Hu0 Hu Ht0 Ht _ _ _ Rx Rx2) (sq2_err u t Hu0 Hu Ht0 Ht _ _ _ Ry Ry2) Rs) as E1.
  pose proof (sqrt_err u t Hu0 Hu Ht0 Ht _ _ g Q Zs E1 Hg Hgg) as E2.
  pose proof (last_err u t Hu0 Hu Ht0 Ht _ _ _ g (sqrt_pos _) (sqrt_pos _) Hg Htg E2 Rr) as E3.
  eapply Rle_trans; [exact E3|]. apply Rplus_le_compat.
  - apply Rmult_le_compat_r; [apply sqrt_pos|]. unfold u. change (-50)%Z with (3 + -53)%Z. rewrite bpow_plus.
    apply Rmult_le_compat_r; [apply bpow_ge_0|]. cbn. lra.
  - unfold g. change (-528)%Z with (2 + -530)%Z. rewrite bpow_plus. apply Rmult_le_compat_r; [apply bpow_ge_0|]. cbn. lra.
Qed.

Lemma euclid_bound p q : point_within 500 p -> point_within 500 q -> euclid (real_point p) (real_point q) <= bpow radix2 502.
Proof.
  intros ((Fpx & Lpx) & (Fpy & Lpy)) ((Fqx & Lqx) & (Fqy & Lqy)). unfold euclid, real_point. cbn [vx vy].
  assert (P1 : bpow radix2 502 = 4 * bpow radix2 500) by (change 502%Z with (500 + 2)%Z; rewrite bpow_plus; cbn [bpow]; change (Z.pow_pos radix2 2) with 4%Z; lra).
  rewrite P1. pose proof (bpow_ge_0 radix2 500) as P0. set (g := bpow radix2 500) in *. clearbody g.
  rewrite <- (sqrt_Rsqr (4 * g)) by lra. apply sqrt_le_1_alt. unfold Rsqr.
  apply Rabs_le_inv in Lpx, Lpy, Lqx, Lqy.
  assert ((B2R (vx p) - B2R (vx q)) ^ 2 <= (2 * g) * (2 * g)) by (rewrite <- Rsqr_pow2; apply Rsqr_le_abs_1 with (y := 2 * g); rewrite (Rabs_right (2 * g)) by lra; apply Rabs_le; lra).
  assert ((B2R (vy p) - B2R (vy q)) ^ 2 <= (2 * g) * (2 * g)) by (rewrite <- Rsqr_pow2; apply Rsqr_le_abs_1 with (y := 2 * g); rewrite (Rabs_right (2 * g)) by lra; apply Rabs_le; lra).
  assert (0 <= g * g) by nra. lra.
Qed.

Lemma nmax_big : is_finite (nmax : f64) = true /\ bpow radix2 504 < B2R (nmax : f64).
Proof.
  split; [reflexivity|].
  assert (C : Bltb (binary_normalize 53 1024 Hprec64 Hemax64 mode_NE 1 504 false) (nmax : f64) = true) by (vm_compute; reflexivity).
  rewrite Bltb_correct in C; [|reflexivity|reflexivity].
  pose proof (binary_normalize_correct 53 1024 Hprec64 Hemax64 mode_NE 1 504 false) as N.
  assert (E : F2R (Float radix2 1 504) = bpow radix2 504) by (unfold F2R; cbn [Fnum Fexp]; lra).
  assert (G : rd (bpow radix2 504) = bpow radix2 504) by (apply rd_gen, gen_bpow; lia).
  cbv zeta in N. rewrite Rlt_bool_true in N.
  2:{ rewrite E. change (Rabs (rd (bpow radix2 504)) < bpow radix2 1024). rewrite G, Rabs_right; [apply bpow_lt; lia|apply Rle_ge, bpow_ge_0]. }
  assert (N' : B2R (binary_normalize 53 1024 Hprec64 Hemax64 mode_NE 1 504 false) = bpow radix2 504).
  { destruct N as (N & _ & _). etransitivity; [exact N|]. rewrite E. exact G. }
  rewrite N' in C. destruct (Rlt_bool_spec (bpow radix2 504) (B2R (nmax : f64))); [auto|discriminate].
Qed.

Lemma dist_below_max p q : point_within 500 p -> point_within 500 q -> B2R (vdist p q) < B2R (nmax : f64).
Proof.
  intros A B. destruct (dist_ok p q A B) as (_ & E). pose proof (euclid_bound p q A B) as L. destruct nmax_big as (_ & M).
  eapply Rle_lt_trans; [|exact M]. apply Rabs_le_inv in E.
  assert (P : 0 <= euclid (real_point p) (real_point q)) by apply sqrt_pos.
  assert (bpow radix2 (-50) * euclid (real_point p) (real_point q) <= 1 * bpow radix2 502).
  { apply Rmult_le_compat; auto using bpow_ge_0. eapply Rle_trans; [apply (bpow_le radix2 (-50) 0); lia|cbn; lra]. }
  assert (bpow radix2 (-528) <= bpow radix2 502) by (apply bpow_le; lia).
  assert (bpow radix2 504 = 4 * bpow radix2 502) by (change 504%Z with (502 + 2)%Z; rewrite bpow_plus; cbn [bpow]; change (Z.pow_pos radix2 2) with 4%Z; lra).
  lra.
Qed.

Lemma about_of_le sa sb ea eb :
  0 <= ea -> 0 <= eb -> Rabs (sa - ea) <= bpow radix2 (-50) * ea + bpow radix2 (-528) ->
  Rabs (sb - eb) <= bpow radix2 (-50) * eb + bpow radix2 (-528) -> sa <= sb -> about_le ea eb.
Proof.
  intros Pa Pb Ea Eb L. unfold about_le.
  assert (U : bpow radix2 (-48) = 4 * bpow radix2 (-50)) by (change (-48)%Z with (2 + -50)%Z; rewrite bpow_plus; cbn [bpow]; change (Z.pow_pos radix2 2) with 4%Z; lra).
  assert (G : bpow radix2 (-526) = 4 * bpow radix2 (-528)) by (change (-526)%Z with (2 + -528)%Z; rewrite bpow_plus; cbn [bpow]; change (Z.pow_pos radix2 2) with 4%Z; lra).
  rewrite U, G. assert (Hu : bpow radix2 (-50) <= 1 / 1000) by (eapply Rle_trans; [apply (bpow_le radix2 (-50) (-10)); lia|cbn; lra]).
  pose proof (bpow_ge_0 radix2 (-50)) as U0. pose proof (bpow_ge_0 radix2 (-528)) as G0.
  set (u := bpow radix2 (-50)) in *. set (g := bpow radix2 (-528)) in *. clearbody u g. clear U G.
  apply Rabs_le_inv in Ea, Eb.
  assert (X : ea * (1 - u) <= eb * (1 + u) + 2 * g) by lra.
  apply Rmult_le_reg_r with (1 - u); [lra|]. eapply Rle_trans; [exact X|].
  assert (0 <= eb * u) by nra. assert (u * (eb * u) <= 1 / 1000 * (eb * u)) by (apply Rmult_le_compat_r; auto).
  assert (g * u <= g * (1 / 1000)) by (apply Rmult_le_compat_l; auto). nra.
Qed.

Lemma dist_about q a b : point_within 500 q -> point_within 500 a -> point_within 500 b ->
  B2R (vdist q a) <= B2R (vdist q b) -> about_le (euclid (real_point q) (real_point a)) (euclid (real_point q) (real_point b)).
Proof.
  intros Q A B L. destruct (dist_ok q a Q A) as (_ & Ea). destruct (dist_ok q b Q B) as (_ & Eb).
  eapply about_of_le; eauto; apply sqrt_pos.
Qed.

Lemma dist_about' q a b : point_within 500 q -> point_within 500 a -> point_within 500 b ->
  B2R (vdist a q) <= B2R (vdist b q) -> about_le (euclid (real_point a) (real_point q)) (euclid (real_point b) (real_point q)).
Proof.
  intros Q A B L. destruct (dist_ok a q A Q) as (_ & Ea). destruct (dist_ok b q B Q) as (_ & Eb).
  eapply about_of_le; eauto; apply sqrt_pos.
Qed.

(** ** Grabbing *)

Definition fin (x : f64) : Prop := is_finite x = true.
Definition val (x : f64) : R := B2R x.

Lemma grab_double p w h st ops (m : model f64) q fuel :
  reached p w h st ops m -> point_within 500 q -> (forall r, In r (mpos m) -> point_within 500 r) ->
  step_op fuel m (OpGrab q) <> Err AssertFailed /\
  forall m' n, step_op fuel m (OpGrab q) = Ok (m', OHandle n) ->
    exists i r, nth_error (mpos m) i = Some r /\ lookup_handle (mhandles m') n = Some (HGrab i) /\
      (forall j s, nth_error (mpos m) j = Some s -> about_le (euclid (real_point q) (real_point r)) (euclid (real_point q) (real_point s))) /\
      mpos m' = mpos m /\ mvel m' = mvel m.
Proof.
  intros Hr Q W. pose proof (inv_reached _ _ _ _ _ _ Hr) as I.
  assert (Fd : forall r, In r (mpos m) -> fin (vdist q r)) by (intros r Hin; apply dist_ok; auto).
  assert (Fm : fin (nmax : f64)) by reflexivity. split.
  - intros E. unfold step_op in E. destruct (needs_model (OpGrab q) && negb (malive m))%bool; [discriminate|].
    unfold grab_anchor in E. destruct (closest_index (mpos m) q) as [i|] eqn:C.
    + cbn [of_option bind] in E. destruct (activate fuel (set_unequal m true)) as [m1|e] eqn:A.
      * cbn [bind] in E. unfold tracked_lock in E. destruct (nth_error (t_counts (mtracked m1)) i); discriminate E.
      * cbn [bind] in E. apply (activate_err _ _ m) in A; auto. congruence.
    + clear E. pose proof (LemInv.inv_pos _ I) as L. destruct (mpos m) as [|a l] eqn:El; [discriminate|].
      unfold closest_index in C. pose proof (closest_from_none_any val fin ltb_ok (a :: l) q Fd 0 nmax Fm C 0%nat a eq_refl) as X.
      pose proof (dist_below_max q a Q (W a (or_introl eq_refl))) as Y. unfold val in X. lra.
  - intros m' n E. unfold step_op in E. destruct (needs_model (OpGrab q) && negb (malive m))%bool; [discriminate|].
    inv_ok. destruct a as [m1 n1]. cbn [fst snd] in *.
    match goal with X : grab_anchor _ _ _ = Ok _ |- _ =>
      destruct (grab_anchor_handle _ _ _ _ _ I X) as (i & A & B & C & D & _) end.
    unfold closest_index in B. apply (closest_from_any val fin ltb_ok _ _ Fd) in B; auto.
    destruct B as [[B _]|(_ & r & B & _ & K)]; [discriminate|]. rewrite Nat.sub_0_r in B. exists i, r.
    split; [exact B|]. split; [exact A|]. split; [|auto]. intros j s Hs. apply dist_about; auto; try (apply W; eapply nth_error_In; eauto).
    destruct (K j s Hs) as [K'|[K' _]]; unfold val in K'; lra.
Qed.

(** ** Inserting *)

Lemma insert_double p w h st ops (m m' : model f64) q fuel n :
  reached p w h st ops m -> lifo_history ops -> point_within 500 q ->
  (forall l r, place m l = Some r -> point_within 500 r) ->
  step_op fuel m (OpInsert q) = Ok (m', OHandle n) ->
  exists idx s pa pb s1 s2 blk,
    nth_error (msprings m) idx = Some s /\ place m (s_pa s) = Some pa /\ place m (s_pb s) = Some pb /\
    (forall j r ra rb, nth_error (msprings m) j = Some r -> place m (s_pa r) = Some ra -> place m (s_pb r) = Some rb ->
       about_le (euclid (real_point pa) (real_point q)) (euclid (real_point ra) (real_point q)) /\
       (ra = pa -> about_le (euclid (real_point pb) (real_point q)) (euclid (real_point rb) (real_point q)))) /\
    msprings m' = list_del idx (msprings m) ++ [s1; s2] /\
    s_pa s1 = LBlk blk /\ s_pb s1 = s_pa s /\ s_fa s1 = LBlk blk /\ s_fb s1 = s_fa s /\
    s_pa s2 = LBlk blk /\ s_pb s2 = s_pb s /\ s_fa s2 = LBlk blk /\ s_fb s2 = s_fb s /\
    place m (LBlk blk) = None /\ place m' (LBlk blk) = Some q /\ anchor_point m' n = Some q /\
    mpos m' = mpos m /\ mvel m' = mvel m /\
    (live_anchors ops <> [] -> s_len s1 = vsub pa q /\ s_len s2 = vsub pb q) /\
    (live_anchors ops = [] -> exists i j ra rb ta tb,
       nth_error (mpos m) i = Some ra /\ same_point_value pa ra /\ nth_error (mtargets m') i = Some ta /\ s_len s1 = vsub ta q /\
       nth_error (mpos m) j = Some rb /\ same_point_value pb rb /\ nth_error (mtargets m') j = Some tb /\ s_len s2 = vsub tb q).
Proof.
  intros Hr Lf Q W E.
  destruct (insert_shape _ _ _ _ _ _ _ _ _ _ Hr Lf E) as (idx & s & pa & pb & s1 & s2 & blk & Hf & Hs & Ha & Hb & X).
  exists idx, s, pa, pb, s1, s2, blk. split; [exact Hs|]. split; [exact Ha|]. split; [exact Hb|]. split.
  - pose proof (place_valid_any _ _ _ _ _ _ Hr Lf) as V.
    assert (G : forall r ra rb, place m (s_pa r) = Some ra -> place m (s_pb r) = Some rb ->
       spring_key_any (mem_of m) q r (vdist ra q, vdist rb q) /\ good val fin (vdist ra q, vdist rb q)).
    { intros r ra rb Pa Pb. split.
      - exists ra, rb. split; [apply place_rd_any; auto|]. split; [apply place_rd_any; auto|reflexivity].
      - unfold good. cbn [fst snd]. split; [|split; [|split]]; try (apply dist_ok; eauto); apply dist_below_max; eauto. }
    assert (Fm : fin (nmax : f64)) by reflexivity.
    destruct (find_spring_any val fin ltb_ok eqb_ok Fm (mem_of m) q (msprings m) idx) as (s' & k & Hs' & Hk & Hmin); auto.
    { intros r Hin. destruct (V r Hin) as ((ra & Pa) & (rb & Pb)). exists (vdist ra q, vdist rb q). eauto. }
    assert (s' = s) by congruence. subst s'.
    assert (k = (vdist pa q, vdist pb q)).
    { destruct Hk as (ka & kb & K1 & K2 & ->). apply place_rd_any in K1, K2. congruence. }
    subst k. intros j r ra rb Hj Pa Pb. destruct (G r ra rb Pa Pb) as (G1 & _). specialize (Hmin j r _ Hj G1).
    unfold vals, val, key_less in Hmin. cbn [fst snd] in Hmin. split.
    + apply dist_about'; eauto. destruct Hmin as [[M|[M _]]|[M _]]; [lra|lra|]. apply pair_equal_spec in M. destruct M as (M1 & M2). lra.
    + intros ->. apply dist_about'; eauto. destruct Hmin as [[M|[M M']]|[M _]]; [lra|lra|]. apply pair_equal_spec in M. destruct M as (M1 & M2). lra.
  - repeat match goal with |- _ /\ _ => let Y := fresh "Y" in destruct X as (Y & X); split; [exact Y|] end.
    intros Z. destruct (X Z) as (i & j & ra & rb & ta & tb & X1 & X2 & X3 & X4 & X5 & X6 & X7 & X8).
    exists i, j, ra, rb, ta, tb.
    assert (EQ : forall a b, point_within 500 a -> point_within 500 b -> vequals a b = true -> same_point_value a b).
    { intros a b ((Fax & _) & (Fay & _)) ((Fbx & _) & (Fby & _)) H. unfold vequals in H. apply andb_prop in H. destruct H as (H1 & H2).
      cbn [andb] in H1. rewrite eqb_ok in H1, H2 by auto.
      destruct (Req_bool_spec (B2R (vy a)) (B2R (vy b))); [|discriminate]. destruct (Req_bool_spec (B2R (vx a)) (B2R (vx b))); [|discriminate].
      repeat split; auto. }
    assert (S1 : same_point_value pa ra) by (apply EQ; eauto; eapply (W (LMesh i)); exact X1).
    assert (S2 : same_point_value pb rb) by (apply EQ; eauto; eapply (W (LMesh j)); exact X5).
    do 7 (split; [assumption|]). assumption.
Qed.
