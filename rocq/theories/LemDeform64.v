(** The texture mapping in [double] arithmetic with [long double] products. *)

From Coq Require Import ZArith Reals Bool List Lia Lra.
From Flocq Require Import Core IEEE754.BinarySingleNaN.
From Verif Require Import Num Geometry Outcome Wobbly Spec SpecDouble SpecMesh LemBasic LemInv LemHistory LemProcess LemBezier LemDouble.
Import ListNotations.
Local Open Scope R_scope.

Notation rd80 := (round radix2 (SpecFloat.fexp 64 16384) ZnearestE).

Lemma gen80_bpow e : (-1074 <= e)%Z -> generic_format radix2 (SpecFloat.fexp 64 16384) (bpow radix2 e).
Proof. intros He. apply format_widen, gen_bpow. exact He. Qed.

Lemma rd80_bound k x : (-1000 <= k)%Z -> Rabs x <= bpow radix2 k -> Rabs (rd80 x) <= bpow radix2 k.
Proof. intros Hk L. apply abs_round_le_generic; try typeclasses eauto; auto. apply gen80_bpow. lia. Qed.

Lemma rd80_err k x : (-1000 <= k)%Z -> Rabs x <= bpow radix2 k -> Rabs (rd80 x - x) <= bpow radix2 (k - 64).
Proof.
  intros Hk L. eapply Rle_trans; [apply error_le_half_ulp; typeclasses eauto|].
  assert (U : ulp radix2 (SpecFloat.fexp 64 16384) x <= bpow radix2 (k - 63)).
  { destruct (Req_dec x 0) as [->|Nz].
    - apply Rle_trans with (bpow radix2 (-16445)); [|apply bpow_le; lia].
      rewrite <- (ulp_FLT_0 radix2 (-16445) 64). apply Rle_refl.
    - rewrite ulp_neq_0 by auto. apply bpow_le. unfold cexp, SpecFloat.fexp, SpecFloat.emin.
      assert (L' : Rabs x < bpow radix2 (k + 1)) by (eapply Rle_lt_trans; [exact L|apply bpow_lt; lia]).
      pose proof (mag_le_bpow radix2 x (k + 1) Nz L'). lia. }
  replace (k - 63)%Z with (k - 64 + 1)%Z in U by lia. rewrite bpow_plus in U. cbn in U. lra.
Qed.

Lemma small_rd80 k x : (-1000 <= k <= 1100)%Z -> Rabs x <= bpow radix2 k -> Rabs (rd80 x) < bpow radix2 16384.
Proof. intros Hk L. eapply Rle_lt_trans; [apply (rd80_bound k); [lia|auto]|apply bpow_lt; lia]. Qed.

Lemma mul80_ok k (x y : f80) : (-1000 <= k <= 1100)%Z -> is_finite x = true -> is_finite y = true -> Rabs (B2R x * B2R y) <= bpow radix2 k ->
  is_finite (nmul x y) = true /\ B2R (nmul x y) = rd80 (B2R x * B2R y).
Proof.
  intros Hk Fx Fy L. generalize (Bmult_correct 64 16384 Hprec80 Hemax80 mode_NE x y).
  rewrite Rlt_bool_true by exact (small_rd80 k _ Hk L). intros (A & B & _). rewrite Fx, Fy in B. auto.
Qed.

Lemma add80_ok k (x y : f80) : (-1000 <= k <= 1100)%Z -> is_finite x = true -> is_finite y = true -> Rabs (B2R x + B2R y) <= bpow radix2 k ->
  is_finite (nadd x y) = true /\ B2R (nadd x y) = rd80 (B2R x + B2R y).
Proof.
  intros Hk Fx Fy L. generalize (Bplus_correct 64 16384 Hprec80 Hemax80 mode_NE x y Fx Fy).
  rewrite Rlt_bool_true by exact (small_rd80 k _ Hk L). intros (A & B & _). auto.
Qed.

Lemma narrow80_ok k (x : f80) : (-1000 <= k <= 1023)%Z -> is_finite x = true -> Rabs (B2R x) <= bpow radix2 k ->
  is_finite (narrow x : f64) = true /\ B2R (narrow x : f64) = rd (B2R x).
Proof.
  intros Hk F L. destruct (bconv_finite 53 1024 Hprec64 Hemax64 x F) as (A & _ & C); [exact (small_rd k _ Hk L)|]. split; [exact A|exact C].
Qed.

(** ** The coefficients *)

Definition coef_ok (c : f80) (r : R) : Prop := is_finite c = true /\ Rabs (B2R c - r) <= bpow radix2 (-49).

Definition app64 (x : f64) (r e b : R) : Prop := is_finite x = true /\ Rabs (B2R x - r) <= e /\ Rabs r <= b.

Lemma app_mul x y r s e f b c k g : app64 x r e b -> app64 y s f c -> (-1000 <= k <= 1023)%Z ->
  (b + e) * (c + f) <= bpow radix2 k -> e * c + f * (b + e) + bpow radix2 (k - 54) <= g -> app64 (nmul x y) (r * s) g (b * c).
Proof.
  intros (Fx & Ex & Bx) (Fy & Ey & By) Hk L G.
  assert (0 <= e) by (eapply Rle_trans; [apply Rabs_pos|exact Ex]). assert (0 <= f) by (eapply Rle_trans; [apply Rabs_pos|exact Ey]).
  assert (0 <= b) by (eapply Rle_trans; [apply Rabs_pos|exact Bx]). assert (0 <= c) by (eapply Rle_trans; [apply Rabs_pos|exact By]).
  assert (Ax : Rabs (B2R x) <= b + e).
  { replace (B2R x) with ((B2R x - r) + r) by ring. eapply Rle_trans; [apply Rabs_triang|]. lra. }
  assert (Ay : Rabs (B2R y) <= c + f).
  { replace (B2R y) with ((B2R y - s) + s) by ring. eapply Rle_trans; [apply Rabs_triang|]. lra. }
  assert (M : Rabs (B2R x * B2R y) <= bpow radix2 k).
  { rewrite Rabs_mult. eapply Rle_trans; [|exact L]. apply Rmult_le_compat; auto using Rabs_pos. }
  destruct (mul_ok k Hk x y Fx Fy M) as (F & V). split; [exact F|]. split.
  - pose proof (rd_err k _ ltac:(lia) M) as E. rewrite <- V in E.
    replace (B2R (nmul x y) - r * s) with ((B2R (nmul x y) - B2R x * B2R y) + ((B2R x - r) * s + (B2R y - s) * B2R x)) by ring.
    eapply Rle_trans; [apply Rabs_triang|].
    assert (Rabs ((B2R x - r) * s + (B2R y - s) * B2R x) <= e * c + f * (b + e)).
    { eapply Rle_trans; [apply Rabs_triang|]. rewrite !Rabs_mult. apply Rplus_le_compat; apply Rmult_le_compat; auto using Rabs_pos. }
    lra.
  - rewrite Rabs_mult. apply Rmult_le_compat; auto using Rabs_pos.
Qed.

Lemma app_exact x b : is_finite x = true -> Rabs (B2R x) <= b -> app64 x (B2R x) 0 b.
Proof. intros F B. split; [exact F|]. split; [|exact B]. rewrite Rminus_diag_eq, Rabs_R0 by reflexivity. lra. Qed.

Lemma coefs_ok (u : f64) : is_finite u = true -> 0 <= B2R u <= 1 ->
  exists c0 c1 c2 c3 : f80, bezier_coefs u = [c0; c1; c2; c3] /\
    coef_ok c0 (bernstein 0 (B2R u)) /\ coef_ok c1 (bernstein 1 (B2R u)) /\ coef_ok c2 (bernstein 2 (B2R u)) /\ coef_ok c3 (bernstein 3 (B2R u)).
Proof.
  intros Fu Hu. unfold bezier_coefs. cbn [map].
  set (e := bpow radix2 (-54)). assert (e0 : 0 < e) by apply bpow_gt_0.
  assert (e1 : e <= 1 / 1000) by (unfold e; eapply Rle_trans; [apply (bpow_le radix2 (-54) (-10)); lia|cbn; lra]).
  assert (B0 : bpow radix2 (0 - 54) = e) by reflexivity.
  assert (B1 : bpow radix2 (1 - 54) = 2 * e) by (unfold e; change (1 - 54)%Z with (1 + -54)%Z; rewrite bpow_plus; reflexivity).
  assert (B2 : bpow radix2 (2 - 54) = 4 * e) by (unfold e; change (2 - 54)%Z with (2 + -54)%Z; rewrite bpow_plus; reflexivity).
  assert (ee : e * e <= 1 / 1000 * e) by (apply Rmult_le_compat_r; lra).
  destruct (of_ok 1) as (F1 & R1); [reflexivity|]. destruct (of_ok 3) as (F3 & R3); [reflexivity|].
  assert (A : app64 (nsub (nof 1) u) (1 - B2R u) e 1).
  { assert (L : Rabs (B2R (nof 1 : f64) - B2R u) <= bpow radix2 0) by (rewrite R1; cbn; apply Rabs_le; lra).
    destruct (sub_ok 0 ltac:(lia) (nof 1) u F1 Fu L) as (F & V). split; [exact F|]. split; [|apply Rabs_le; lra].
    pose proof (rd_err 0 _ ltac:(lia) L) as E. rewrite <- V, R1 in E. exact E. }
  assert (Au : app64 u (B2R u) 0 1) by (apply app_exact; [exact Fu|apply Rabs_le; lra]).
  assert (A3 : app64 (nof 3) 3 0 3).
  { pose proof (app_exact (nof 3) 3 F3) as X. rewrite R3 in X. apply X. rewrite Rabs_right; lra. }
  assert (T : app64 (nmul (nof 3) u) (3 * B2R u) (4 * e) (3 * 1)).
  { apply (app_mul _ _ _ _ 0 0 3 1 2); auto; [lia|cbn; lra|rewrite B2; lra]. }
  assert (U2 : app64 (nmul u u) (B2R u * B2R u) e (1 * 1)).
  { apply (app_mul _ _ _ _ 0 0 1 1 0); auto; [lia|cbn; lra|rewrite B0; lra]. }
  assert (N2 : app64 (nmul (nsub (nof 1) u) (nsub (nof 1) u)) ((1 - B2R u) * (1 - B2R u)) (5 * e) (1 * 1)).
  { apply (app_mul _ _ _ _ e e 1 1 1); auto; [lia|cbn; nra|rewrite B1; nra]. }
  assert (N3 : app64 (nmul (nmul (nsub (nof 1) u) (nsub (nof 1) u)) (nsub (nof 1) u)) ((1 - B2R u) * (1 - B2R u) * (1 - B2R u)) (9 * e) (1 * 1 * 1)).
  { apply (app_mul _ _ _ _ (5 * e) e (1 * 1) 1 1); auto; [lia|cbn; nra|rewrite B1; nra]. }
  assert (C1 : app64 (nmul (nmul (nof 3) u) (nmul (nsub (nof 1) u) (nsub (nof 1) u))) (3 * B2R u * ((1 - B2R u) * (1 - B2R u))) (24 * e) (3 * 1 * (1 * 1))).
  { apply (app_mul _ _ _ _ (4 * e) (5 * e) (3 * 1) (1 * 1) 2); auto; [lia|cbn; nra|rewrite B2; nra]. }
  assert (T2 : app64 (nmul (nof 3) (nmul u u)) (3 * (B2R u * B2R u)) (8 * e) (3 * (1 * 1))).
  { apply (app_mul _ _ _ _ 0 e 3 (1 * 1) 2); auto; [lia|cbn; nra|rewrite B2; nra]. }
  assert (C2 : app64 (nmul (nmul (nof 3) (nmul u u)) (nsub (nof 1) u)) (3 * (B2R u * B2R u) * (1 - B2R u)) (16 * e) (3 * (1 * 1) * 1)).
  { apply (app_mul _ _ _ _ (8 * e) e (3 * (1 * 1)) 1 2); auto; [lia|cbn; nra|rewrite B2; nra]. }
  assert (C3 : app64 (nmul (nmul u u) u) (B2R u * B2R u * B2R u) (4 * e) (1 * 1 * 1)).
  { apply (app_mul _ _ _ _ e 0 (1 * 1) 1 1); auto; [lia|cbn; nra|rewrite B1; nra]. }
  assert (W : forall x r g b s, app64 x r g b -> r = s -> g <= 32 * e -> coef_ok (widen x) s).
  { intros x r g b s (F & E & _) <- G. destruct (widen_finite x F) as (F' & V). split; [exact F'|]. rewrite V.
    assert (bpow radix2 (-49) = 32 * e) by (unfold e; change (-49)%Z with (5 + -54)%Z; rewrite bpow_plus; reflexivity). lra. }
  do 4 eexists. split; [reflexivity|]. cbn [bernstein].
  split; [eapply W; [exact N3|ring|lra]|]. split; [eapply W; [exact C1|ring|lra]|]. split; [eapply W; [exact C2|ring|lra]|]. eapply W; [exact C3|ring|lra].
Qed.

(** ** One term *)

Definition weight_ok (uv : f80 * f80) (w : R) : Prop :=
  0 <= w <= 1 /\ exists a b, 0 <= a <= 1 /\ 0 <= b <= 1 /\ w = a * b /\ coef_ok (fst uv) a /\ coef_ok (snd uv) b.

Lemma term_ok j (uc vc : f80) w (m acc : f64) s n : (-400 <= j <= 900)%Z -> weight_ok (uc, vc) w -> within j m -> is_finite acc = true ->
  0 <= n <= 16 -> Rabs s <= bpow radix2 j -> Rabs (s + w * B2R m) <= bpow radix2 j -> Rabs (B2R acc - s) <= n * bpow radix2 (j - 47) ->
  is_finite (bezier_acc uc vc m acc) = true /\
  Rabs (B2R (bezier_acc uc vc m acc) - (s + w * B2R m)) <= (n + 1) * bpow radix2 (j - 47).
Proof.
  intros Hj (Hw & a & b & Ha & Hb & -> & (Fu & Eu) & (Fv & Ev)) (Fm & Lm) Fa Hn Hs Hs' Ea. cbn [fst snd] in *. unfold bezier_acc.
  set (d := bpow radix2 (-49)) in *. assert (d0 : 0 < d) by apply bpow_gt_0.
  assert (d1 : d <= 1 / 1000) by (unfold d; eapply Rle_trans; [apply (bpow_le radix2 (-49) (-10)); lia|cbn; lra]).
  set (J := bpow radix2 j) in *. assert (J0 : 0 < J) by apply bpow_gt_0.
  assert (D47 : bpow radix2 (j - 47) = 4 * d * J).
  { unfold d, J. replace (j - 47)%Z with (2 + (-49 + j))%Z by lia. rewrite !bpow_plus. change (bpow radix2 2) with 4. ring. }
  assert (r64 : bpow radix2 (1 - 64) <= 1 / 1000 * d).
  { apply Rle_trans with (bpow radix2 (-10) * d); [unfold d; rewrite <- bpow_plus; apply bpow_le; lia|]. apply Rmult_le_compat_r; [lra|]. cbn. lra. }
  apply Rabs_le_inv in Eu, Ev.
  assert (P : Rabs (B2R uc * B2R vc - a * b) <= 2 * d + d * d).
  { replace (B2R uc * B2R vc - a * b) with ((B2R uc - a) * b + (B2R vc - b) * a + (B2R uc - a) * (B2R vc - b)) by ring.
    assert (- d * 1 <= (B2R uc - a) * b <= d * 1) by (split; nra). assert (- d * 1 <= (B2R vc - b) * a <= d * 1) by (split; nra).
    assert (- (d * d) <= (B2R uc - a) * (B2R vc - b) <= d * d) by (split; nra). apply Rabs_le. lra. }
  assert (dd : d * d <= 1 / 1000 * d) by (apply Rmult_le_compat_r; lra).
  assert (P1 : Rabs (B2R uc * B2R vc) <= bpow radix2 1) by (change (bpow radix2 1) with 2; apply Rabs_le_inv in P; apply Rabs_le; nra).
  destruct (mul80_ok 1 uc vc ltac:(lia) Fu Fv P1) as (Fw & Vw). pose proof (rd80_err 1 _ ltac:(lia) P1) as Ew. pose proof (rd80_bound 1 _ ltac:(lia) P1) as Bw.
  rewrite <- Vw in Ew, Bw. change (bpow radix2 1) with 2 in Bw. set (wc := nmul uc vc) in *.
  assert (Q : Rabs (B2R wc - a * b) <= 21 / 10 * d) by (apply Rabs_le_inv in P, Ew; apply Rabs_le; lra).
  destruct (widen_finite m Fm) as (Fm' & Vm). destruct (widen_finite acc Fa) as (Fa' & Va).
  assert (T0 : Rabs (B2R wc * B2R (widen m : f80)) <= bpow radix2 (j + 1)).
  { rewrite Vm, Rabs_mult, bpow_plus. change (bpow radix2 1) with 2. rewrite (Rmult_comm (bpow radix2 j)). apply Rmult_le_compat; auto using Rabs_pos. }
  destruct (mul80_ok (j + 1) wc (widen m) ltac:(lia) Fw Fm' T0) as (Ft & Vt). pose proof (rd80_err (j + 1) _ ltac:(lia) T0) as Et. rewrite <- Vt in Et.
  set (t := nmul wc (widen m)) in *. rewrite Vm in Et.
  assert (r2 : bpow radix2 (j + 1 - 64) <= 1 / 1000 * (d * J)).
  { apply Rle_trans with (bpow radix2 (-10) * (d * J)); [unfold d, J; rewrite <- !bpow_plus; apply bpow_le; lia|]. apply Rmult_le_compat_r; [nra|]. cbn. lra. }
  assert (dJ : d * J <= 1 / 1000 * J) by (apply Rmult_le_compat_r; lra). assert (dJ0 : 0 < d * J) by nra.
  assert (S : Rabs (B2R t - a * b * B2R m) <= 22 / 10 * (d * J)).
  { replace (B2R t - a * b * B2R m) with ((B2R t - B2R wc * B2R m) + (B2R wc - a * b) * B2R m) by ring. eapply Rle_trans; [apply Rabs_triang|].
    rewrite Rabs_mult. assert (Rabs (B2R wc - a * b) * Rabs (B2R m) <= 21 / 10 * d * J) by (apply Rmult_le_compat; auto using Rabs_pos). lra. }
  assert (nJ : n * bpow radix2 (j - 47) <= 64 * (d * J)) by (rewrite D47; nra). assert (nJ0 : 0 <= n * bpow radix2 (j - 47)) by (rewrite D47; nra).
  assert (A0 : Rabs (B2R (widen acc : f80) + B2R t - (s + a * b * B2R m)) <= n * bpow radix2 (j - 47) + 22 / 10 * (d * J)).
  { rewrite Va. replace (B2R acc + B2R t - (s + a * b * B2R m)) with ((B2R acc - s) + (B2R t - a * b * B2R m)) by ring. eapply Rle_trans; [apply Rabs_triang|]. lra. }
  assert (A1 : Rabs (B2R (widen acc : f80) + B2R t) <= bpow radix2 (j + 1)).
  { rewrite bpow_plus. change (bpow radix2 1) with 2. fold J. apply Rabs_le_inv in A0, Hs'. apply Rabs_le. lra. }
  destruct (add80_ok (j + 1) (widen acc) t ltac:(lia) Fa' Ft A1) as (F2 & V2). pose proof (rd80_err (j + 1) _ ltac:(lia) A1) as E2. pose proof (rd80_bound (j + 1) _ ltac:(lia) A1) as B2.
  rewrite <- V2 in E2, B2. set (x := nadd (widen acc) t) in *.
  destruct (narrow80_ok (j + 1) x ltac:(lia) F2 B2) as (F3 & V3). pose proof (rd_err (j + 1) _ ltac:(lia) B2) as E3. rewrite <- V3 in E3. split; [exact F3|].
  assert (r3 : bpow radix2 (j + 1 - 54) = 1 / 16 * (d * J)).
  { unfold d, J. replace (j + 1 - 54)%Z with (-4 + (-49 + j))%Z by lia. rewrite !bpow_plus. change (bpow radix2 (-4)) with (/ 16). field. }
  rewrite D47 in *. apply Rabs_le_inv in A0, E2, E3. apply Rabs_le. lra.
Qed.

(** ** All terms *)

Lemma fold_ok j : (-400 <= j <= 900)%Z -> forall (l : list ((f80 * f80) * vec f64)) ws acc (n sx sy sg : R),
  Forall2 (fun wp w => weight_ok (fst wp) w /\ point_within j (snd wp)) l ws ->
  0 <= sg -> sg + sum ws <= 1 -> Rabs sx <= sg * bpow radix2 j -> Rabs sy <= sg * bpow radix2 j ->
  0 <= n -> n + INR (length l) <= 16 ->
  is_finite (vx acc) = true -> is_finite (vy acc) = true ->
  Rabs (B2R (vx acc) - sx) <= n * bpow radix2 (j - 47) -> Rabs (B2R (vy acc) - sy) <= n * bpow radix2 (j - 47) ->
  let c := combination ws (map (fun wp => real_point (snd wp)) l) in
  near_point ((n + INR (length l)) * bpow radix2 (j - 47)) (fold_left acc_step l acc) (mkV (sx + vx c) (sy + vy c)).
Proof.
  intros Hj. induction l as [|[[uc vc] p] l IH]; intros ws acc n sx sy sg F Hg Hs Hx Hy Hn HL Fx Fy Ex Ey c.
  - inversion F; subst. unfold c, combination. cbn [map combine sum vx vy fold_left length INR]. rewrite !Rplus_0_r.
    repeat split; cbn [vx vy]; auto.
  - inversion F as [|? w ? ws' (W & (Px & Py)) F']; subst. cbn [fst snd] in *. cbn [sum] in Hs. pose proof (bpow_gt_0 radix2 j) as J0.
    assert (Sp : 0 <= sum ws').
    { clear - F'. induction F' as [|? ? ? ? ((? & _) & _)]; cbn [sum]; lra. }
    assert (Lm : length (((uc, vc), p) :: l) = S (length l)) by reflexivity. rewrite Lm, S_INR in HL. pose proof (pos_INR (length l)) as PL.
    pose proof W as (Hw & _).
    assert (Hx' : Rabs (sx + w * B2R (vx p)) <= (sg + w) * bpow radix2 j).
    { eapply Rle_trans; [apply Rabs_triang|]. rewrite Rabs_mult, (Rabs_right w) by lra.
      assert (w * Rabs (B2R (vx p)) <= w * bpow radix2 j) by (apply Rmult_le_compat_l; [lra|apply Px]). lra. }
    assert (Hy' : Rabs (sy + w * B2R (vy p)) <= (sg + w) * bpow radix2 j).
    { eapply Rle_trans; [apply Rabs_triang|]. rewrite Rabs_mult, (Rabs_right w) by lra.
      assert (w * Rabs (B2R (vy p)) <= w * bpow radix2 j) by (apply Rmult_le_compat_l; [lra|apply Py]). lra. }
    assert (M : forall x q, 0 <= q <= 1 -> Rabs x <= q * bpow radix2 j -> Rabs x <= bpow radix2 j) by (intros x q Q X; nra).
    destruct (term_ok j uc vc w (vx p) (vx acc) sx n Hj W Px Fx) as (Fx' & Ex'); try lra; [eapply M; [|exact Hx]; lra|eapply M; [|exact Hx']; lra|].
    destruct (term_ok j uc vc w (vy p) (vy acc) sy n Hj W Py Fy) as (Fy' & Ey'); try lra; [eapply M; [|exact Hy]; lra|eapply M; [|exact Hy']; lra|].
    specialize (IH ws' (acc_step acc ((uc, vc), p)) (n + 1) _ _ (sg + w) F' ltac:(lra) ltac:(lra) Hx' Hy' ltac:(lra) ltac:(lra) Fx' Fy' Ex' Ey').
    cbv zeta in IH. unfold c, combination in *. cbn [map combine sum vx vy fold_left fst snd] in *. rewrite Lm, S_INR.
    change (B2R (vx p)) with (vx (real_point p)) in IH. change (B2R (vy p)) with (vy (real_point p)) in IH.
    rewrite !Rplus_assoc in IH. rewrite (Rplus_comm 1) in IH. exact IH.
Qed.

Lemma bernstein_le k t : 0 <= t <= 1 -> 0 <= bernstein k t <= 1.
Proof.
  intros H. split; [apply bernstein_nonneg; auto|].
  assert (S0 : bernstein 0 t + bernstein 1 t + bernstein 2 t + bernstein 3 t = 1) by (cbn [bernstein]; ring).
  pose proof (bernstein_nonneg 0 t H). pose proof (bernstein_nonneg 1 t H). pose proof (bernstein_nonneg 2 t H). pose proof (bernstein_nonneg 3 t H).
  destruct k as [|[|[|k]]]; try lra. change (bernstein (S (S (S k))) t) with (bernstein 3 t). lra.
Qed.

Lemma deform_near j (pts : list (vec f64)) (u v : f64) : (-400 <= j <= 900)%Z -> length pts = 16%nat ->
  (forall q, In q pts -> point_within j q) -> is_finite u = true -> is_finite v = true -> 0 <= B2R u <= 1 -> 0 <= B2R v <= 1 ->
  near_point (bpow radix2 (j - 43)) (deform_points (L:=f80) pts (mkV u v)) (combination (bezier_weights (B2R u) (B2R v)) (map real_point pts)).
Proof.
  intros Hj L Wp Fu Fv Hu Hv. unfold deform_points. cbn [vx vy].
  destruct (coefs_ok u Fu Hu) as (a0 & a1 & a2 & a3 & -> & A0 & A1 & A2 & A3). destruct (coefs_ok v Fv Hv) as (b0 & b1 & b2 & b3 & -> & B0 & B1 & B2 & B3).
  rewrite rows_fold by (rewrite L; reflexivity).
  set (w := bezier_weights (B2R u) (B2R v)).
  destruct (bezier_weights_convex (B2R u) (B2R v) Hu Hv) as (_ & S1). fold w in S1.
  assert (Wk : forall i k a b, coef_ok a (bernstein i (B2R u)) -> coef_ok b (bernstein k (B2R v)) -> weight_ok (a, b) (bernstein i (B2R u) * bernstein k (B2R v))).
  { intros i k a b Ca Cb. pose proof (bernstein_le i _ Hu). pose proof (bernstein_le k _ Hv). split; [split; nra|].
    exists (bernstein i (B2R u)), (bernstein k (B2R v)). auto. }
  destruct zero_ok as (Fz & Rz).
  assert (G : Forall2 (fun wp w => weight_ok (fst wp) w /\ point_within j (snd wp)) (combine (list_prod [a0; a1; a2; a3] [b0; b1; b2; b3]) pts) w).
  { unfold w, bezier_weights. cbn [list_prod map app seq].
    do 16 (destruct pts as [|? pts]; [discriminate L|]). destruct pts; [|discriminate L]. cbn [combine].
    repeat (apply Forall2_cons; [cbn [fst snd]; split; [|apply Wp; cbn [In]; tauto]|]); [..|apply Forall2_nil];
      match goal with |- weight_ok _ (bernstein ?i _ * bernstein ?k _) => let i' := eval compute in i in let k' := eval compute in k in
        change i with i'; change k with k'; apply Wk; assumption end. }
  assert (E2 : map (fun wp : (f80 * f80) * vec f64 => real_point (snd wp)) (combine (list_prod [a0; a1; a2; a3] [b0; b1; b2; b3]) pts) = map real_point pts).
  { clear - L. do 16 (destruct pts as [|? pts]; [discriminate L|]). destruct pts; [|discriminate L]. reflexivity. }
  pose proof (bpow_gt_0 radix2 j). pose proof (bpow_gt_0 radix2 (j - 47)).
  assert (LL : INR (length (combine (list_prod [a0; a1; a2; a3] [b0; b1; b2; b3]) pts)) = 16).
  { rewrite combine_length, L. cbn [list_prod map app length Nat.min]. rewrite INR_IZR_INZ. reflexivity. }
  pose proof (fold_ok j Hj _ w (mkV nzero nzero) 0 0 0 0 G) as X. rewrite LL, E2 in X. cbv zeta in X. cbn [vx vy] in X.
  replace (bpow radix2 (j - 43)) with ((0 + 16) * bpow radix2 (j - 47)) by (replace (j - 43)%Z with (4 + (j - 47))%Z by lia; rewrite bpow_plus; change (bpow radix2 4) with 16; ring).
  set (c := combination w (map real_point pts)) in *.
  replace c with (mkV (0 + vx c) (0 + vy c)) by (rewrite !Rplus_0_l; destruct c; reflexivity).
  apply X; try (rewrite ?Rz, ?Rminus_diag_eq, ?Rabs_R0 by reflexivity); auto; try lra.
Qed.

(** ** On reachable models *)

Lemma deform_double p w h st ops (m : model f64) j (u v : f64) : reached p w h st ops m -> (-400 <= j <= 900)%Z ->
  (forall q, In q (mpos m) -> point_within j q) -> is_finite u = true -> is_finite v = true -> 0 <= B2R u <= 1 -> 0 <= B2R v <= 1 ->
  convex_weights (bezier_weights (B2R u) (B2R v)) /\
  near_point (bpow radix2 (j - 43)) (deform_texcoords (L:=f80) m (mkV u v)) (combination (bezier_weights (B2R u) (B2R v)) (map real_point (mpos m))).
Proof.
  intros Hr Hj W Fu Fv Hu Hv. split; [apply bezier_weights_convex; auto|]. apply deform_near; auto. apply (inv_pos _ (inv_reached _ _ _ _ _ _ Hr)).
Qed.

Lemma half_plane_double p w h st ops (m : model f64) j (u v : f64) (a b c : R) : reached p w h st ops m -> (-400 <= j <= 900)%Z ->
  (forall q, In q (mpos m) -> point_within j q) -> is_finite u = true -> is_finite v = true -> 0 <= B2R u <= 1 -> 0 <= B2R v <= 1 ->
  (forall q, In q (mpos m) -> a * B2R (vx q) + b * B2R (vy q) <= c) ->
  a * B2R (vx (deform_texcoords (L:=f80) m (mkV u v))) + b * B2R (vy (deform_texcoords (L:=f80) m (mkV u v))) <= c + (Rabs a + Rabs b) * bpow radix2 (j - 43).
Proof.
  intros Hr Hj W Fu Fv Hu Hv C. destruct (deform_double _ _ _ _ _ _ _ _ _ Hr Hj W Fu Fv Hu Hv) as ((P & S1) & (_ & Ex & Ey)).
  pose proof (inv_pos _ (inv_reached _ _ _ _ _ _ Hr)) as L.
  pose proof (combination_half (bezier_weights (B2R u) (B2R v)) (map real_point (mpos m)) a b c) as H.
  set (d := deform_texcoords (L:=f80) m (mkV u v)) in *. set (e := bpow radix2 (j - 43)) in *.
  set (q := combination (bezier_weights (B2R u) (B2R v)) (map real_point (mpos m))) in *.
  assert (Q : a * vx q + b * vy q <= c).
  { unfold q. rewrite <- (Rmult_1_r c), <- S1. apply H; auto.
    - rewrite map_length, L. reflexivity.
    - intros r Hr'. apply in_map_iff in Hr'. destruct Hr' as (r0 & <- & I). exact (C _ I). }
  assert (A : a * (B2R (vx d) - vx q) <= Rabs a * e).
  { eapply Rle_trans; [apply Rle_abs|]. rewrite Rabs_mult. apply Rmult_le_compat_l; auto using Rabs_pos. }
  assert (B : b * (B2R (vy d) - vy q) <= Rabs b * e).
  { eapply Rle_trans; [apply Rle_abs|]. rewrite Rabs_mult. apply Rmult_le_compat_l; auto using Rabs_pos. }
  lra.
Qed.

(** ** The undeformed grid *)

Lemma coord_near j (p w : f64) (c : Z) : (-400 <= j <= 900)%Z -> (0 <= c <= 3)%Z -> within j p -> within j w ->
  within (j + 2) (nadd p (nmul (nof c) (ndiv w (nof 3)))) /\
  Rabs (B2R (nadd p (nmul (nof c) (ndiv w (nof 3)))) - (B2R p + IZR c * (B2R w / 3))) <= bpow radix2 (j - 50).
Proof.
  intros Hj Hc (Fp & Lp) (Fw & Lw). destruct (of_ok c) as (Fc & Rc); [lia|]. destruct (of_ok 3) as (F3 & R3); [reflexivity|].
  assert (C : 0 <= IZR c <= 3) by (split; apply IZR_le; lia).
  set (J := bpow radix2 j) in *. assert (J0 : 0 < J) by apply bpow_gt_0.
  assert (J2 : bpow radix2 (j + 2) = 4 * J) by (rewrite bpow_plus; change (bpow radix2 2) with 4; fold J; ring).
  set (e := bpow radix2 (j - 50)). assert (e0 : 0 < e) by apply bpow_gt_0.
  assert (E54 : bpow radix2 (j - 54) = 1 / 16 * e) by (unfold e; replace (j - 54)%Z with (-4 + (j - 50))%Z by lia; rewrite bpow_plus; change (bpow radix2 (-4)) with (/ 16); field).
  assert (E52 : bpow radix2 (j + 2 - 54) = 1 / 4 * e) by (unfold e; replace (j + 2 - 54)%Z with (-2 + (j - 50))%Z by lia; rewrite bpow_plus; change (bpow radix2 (-2)) with (/ 4); field).
  assert (D0 : Rabs (B2R w / B2R (nof 3 : f64)) <= J) by (rewrite R3; apply Rabs_le_inv in Lw; apply Rabs_le; lra).
  destruct (div_ok j ltac:(lia) w (nof 3) Fw ltac:(rewrite R3; lra) D0) as (Ft & Vt). pose proof (rd_err j _ ltac:(lia) D0) as Et. pose proof (rd_bound j _ ltac:(lia) D0) as Bt.
  rewrite <- Vt in Et, Bt. rewrite R3, E54 in Et. fold J in Bt. set (t := ndiv w (nof 3)) in *.
  apply Rabs_le_inv in Bt, Et, Lp.
  assert (M0 : - (3 * J) <= IZR c * B2R t <= 3 * J) by nra.
  assert (M1 : Rabs (B2R (nof c : f64) * B2R t) <= bpow radix2 (j + 2)) by (rewrite Rc, J2; apply Rabs_le; lra).
  destruct (mul_ok (j + 2) ltac:(lia) (nof c) t Fc Ft M1) as (Fm & Vm). pose proof (rd_err (j + 2) _ ltac:(lia) M1) as Em.
  assert (Bm : - (3 * J) <= B2R (nmul (nof c) t) <= 3 * J).
  { rewrite Vm, Rc. split.
    - replace (- (3 * J)) with (IZR (-3) * bpow radix2 j) by (fold J; ring). apply rd_ge; [reflexivity|lia|fold J; lra].
    - replace (3 * J) with (IZR 3 * bpow radix2 j) by (fold J; ring). apply rd_le; [reflexivity|lia|fold J; lra]. }
  rewrite <- Vm in Em. rewrite Rc, E52 in Em. set (x := nmul (nof c) t) in *.
  assert (S : Rabs (B2R p + B2R x) <= bpow radix2 (j + 2)) by (rewrite J2; apply Rabs_le; lra).
  destruct (add_ok (j + 2) ltac:(lia) p x Fp Fm S) as (Fs & Vs). pose proof (rd_err (j + 2) _ ltac:(lia) S) as Es. pose proof (rd_bound (j + 2) _ ltac:(lia) S) as Bs.
  rewrite <- Vs in Es, Bs. rewrite E52 in Es. split; [split; [exact Fs|exact Bs]|].
  assert (T : - (3 / 16 * e) <= IZR c * B2R t - IZR c * (B2R w / 3) <= 3 / 16 * e) by (rewrite <- Rmult_minus_distr_l; nra).
  apply Rabs_le_inv in Em, Es. apply Rabs_le. lra.
Qed.

Lemma combination_close e : forall ws (l l' : list (vec R)), (forall w, In w ws -> 0 <= w) ->
  Forall2 (fun p q => Rabs (vx p - vx q) <= e /\ Rabs (vy p - vy q) <= e) l l' -> length ws = length l ->
  Rabs (vx (combination ws l) - vx (combination ws l')) <= sum ws * e /\ Rabs (vy (combination ws l) - vy (combination ws l')) <= sum ws * e.
Proof.
  unfold combination. cbn [vx vy]. induction ws as [|w ws IH]; intros l l' P F L.
  - cbn [combine map sum]. rewrite !Rminus_diag_eq, Rabs_R0 by reflexivity. lra.
  - inversion F as [|p q l0 l0' (X & Y) F']; subst; [discriminate L|]. cbn [combine map sum fst snd].
    destruct (IH l0 l0' (fun w Hw => P w (or_intror Hw)) F' ltac:(cbn in L; lia)) as (Ix & Iy). pose proof (P w (or_introl eq_refl)) as W.
    assert (Ax : Rabs (w * vx p - w * vx q) <= w * e) by (rewrite <- Rmult_minus_distr_l, Rabs_mult, (Rabs_right w) by lra; apply Rmult_le_compat_l; auto).
    assert (Ay : Rabs (w * vy p - w * vy q) <= w * e) by (rewrite <- Rmult_minus_distr_l, Rabs_mult, (Rabs_right w) by lra; apply Rmult_le_compat_l; auto).
    apply Rabs_le_inv in Ix, Iy, Ax, Ay. split; apply Rabs_le; lra.
Qed.

Lemma deform_grid_double (p : vec f64) (w h : f64) st next j (u v : f64) : (-400 <= j <= 800)%Z -> point_within j p -> within j w -> within j h ->
  is_finite u = true -> is_finite v = true -> 0 <= B2R u <= 1 -> 0 <= B2R v <= 1 ->
  near_point (bpow radix2 (j - 40)) (deform_texcoords (L:=f80) (model_init p w h st next) (mkV u v))
    (mkV (B2R (vx p) + B2R v * B2R w) (B2R (vy p) + B2R u * B2R h)).
Proof.
  intros Hj (Wx & Wy) Ww Wh Fu Fv Hu Hv. unfold deform_texcoords.
  change (mpos (model_init p w h st next)) with (position_array p (tile_size w h)).
  set (gr := position_array p (tile_size w h)). set (ge := position_array (T:=R) (real_point p) (tile_size (B2R w) (B2R h))).
  assert (F : Forall2 (fun (q : vec f64) (r : vec R) => point_within (j + 2) q /\ Rabs (B2R (vx q) - vx r) <= bpow radix2 (j - 50) /\ Rabs (B2R (vy q) - vy r) <= bpow radix2 (j - 50)) gr ge).
  { unfold gr, ge, position_array, mesh_n, mesh_w, mesh_h. assert (B : forall i, In i (seq 0 (4 * 4)) -> (0 <= Z.of_nat (i / 4) <= 3)%Z /\ (0 <= Z.of_nat (i mod 4) <= 3)%Z).
    { intros i Hi. apply in_seq in Hi. split; [assert ((i / 4 < 4)%nat) by (apply Nat.div_lt_upper_bound; lia)|assert ((i mod 4 < 4)%nat) by (apply Nat.mod_upper_bound; lia)]; lia. }
    change (4 * 4)%nat with 16%nat in *. revert B. generalize (seq 0 16). intros l. induction l as [|i l IH]; intros B; cbn [map]; [apply Forall2_nil|]. apply Forall2_cons; [|apply IH; intros k Hk; apply B; right; exact Hk].
    destruct (B i (or_introl eq_refl)) as (B1 & B2). cbn [vadd tile_size vx vy real_point].
    destruct (coord_near j (vx p) w (Z.of_nat (i mod 4)) ltac:(lia) B2 Wx Ww) as (X1 & X2). destruct (coord_near j (vy p) h (Z.of_nat (i / 4)) ltac:(lia) B1 Wy Wh) as (Y1 & Y2).
    split; [split; assumption|]. split; assumption. }
  assert (L : length gr = 16%nat) by apply position_array_length. assert (L' : length ge = 16%nat) by apply position_array_length.
  assert (G : forall q, In q gr -> point_within (j + 2) q).
  { intros q Hq. clear - F Hq. induction F as [|? ? ? ? (P & _)]; [destruct Hq|]. destruct Hq as [<-|Hq]; auto. }
  destruct (bezier_weights_convex (B2R u) (B2R v) Hu Hv) as (P & S1).
  destruct (deform_near (j + 2) gr u v ltac:(lia) L G Fu Fv Hu Hv) as (Fd & Ex & Ey).
  assert (F' : Forall2 (fun p q => Rabs (vx p - vx q) <= bpow radix2 (j - 50) /\ Rabs (vy p - vy q) <= bpow radix2 (j - 50)) (map real_point gr) ge).
  { clear - F. induction F as [|? ? ? ? (_ & H)]; cbn [map]; constructor; auto. }
  destruct (combination_close (bpow radix2 (j - 50)) (bezier_weights (B2R u) (B2R v)) _ _ P F' ltac:(rewrite map_length, L; reflexivity)) as (Cx & Cy).
  rewrite S1, Rmult_1_l in Cx, Cy.
  pose proof (deform_grid (real_point p) (B2R w) (B2R h) (B2R u) (B2R v)) as Dg. fold ge in Dg. rewrite (deform_combination ge _ _ L') in Dg. rewrite Dg in Cx, Cy. cbn [real_point vx vy] in Cx, Cy.
  assert (E1 : bpow radix2 (j + 2 - 43) = 1 / 2 * bpow radix2 (j - 40)) by (replace (j + 2 - 43)%Z with (-1 + (j - 40))%Z by lia; rewrite bpow_plus; change (bpow radix2 (-1)) with (/ 2); field).
  assert (E2 : bpow radix2 (j - 50) <= 1 / 2 * bpow radix2 (j - 40)) by (rewrite <- E1; apply bpow_le; lia).
  rewrite E1 in Ex, Ey. split; [exact Fd|]. cbn [vx vy]. apply Rabs_le_inv in Ex, Ey, Cx, Cy. split; apply Rabs_le; lra.
Qed.
