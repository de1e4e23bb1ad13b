(** The last frame of bounce, glide and zoom in [float] and [double]. *)

From Coq Require Import ZArith Reals Bool List Lia Lra.
From Flocq Require Import Core Plus_error Sterbenz IEEE754.BinarySingleNaN.
From Verif Require Import Num Geometry Steppers Transforms SpecDouble SpecFinal LemReal LemDouble LemProcess.
Import ListNotations.
Local Open Scope R_scope.

(** ** Operations with exact results *)

Section Exact.
Context {prec emax : Z} {Hp : Prec_gt_0 prec} {He : Prec_lt_emax prec emax}.
Notation fl := (binary_float prec emax).
Notation fexp := (SpecFloat.fexp prec emax).

Definition is (x : fl) (r : R) : Prop := is_finite x = true /\ B2R x = r.
Definition rep (r : R) : Prop := exists x : fl, is x r.

Lemma is_rep x r : is x r -> rep r.
Proof. intros I. exists x. exact I. Qed.
Lemma rep_opp r : rep r -> rep (- r).
Proof. intros (x & F & <-). exists (Bopp x). split; [rewrite is_finite_Bopp; exact F|apply B2R_Bopp]. Qed.
Lemma rep_0 : rep 0.
Proof. exists (B754_zero false). split; reflexivity. Qed.
Lemma is_opp x r : is x r -> is (Bopp x) (- r).
Proof. intros (F & <-). split; [rewrite is_finite_Bopp; exact F|apply B2R_Bopp]. Qed.

Lemma rep_round r : rep r -> round radix2 fexp (round_mode mode_NE) r = r /\ Rabs r < bpow radix2 emax.
Proof.
  intros (x & F & <-). split; [|apply abs_B2R_lt_emax]. apply round_generic; [apply valid_rnd_round_mode|apply generic_format_B2R].
Qed.

Lemma is_add x y a b r : is x a -> is y b -> r = a + b -> rep r -> is (Bplus mode_NE x y) r.
Proof.
  intros (Fx & <-) (Fy & <-) -> Rr. apply rep_round in Rr. destruct Rr as (E & L).
  pose proof (Bplus_correct prec emax Hp He mode_NE x y Fx Fy) as C. rewrite E, Rlt_bool_true in C by exact L.
  destruct C as (C1 & C2 & _). split; assumption.
Qed.
Lemma is_sub x y a b r : is x a -> is y b -> r = a - b -> rep r -> is (Bminus mode_NE x y) r.
Proof.
  intros (Fx & <-) (Fy & <-) -> Rr. apply rep_round in Rr. destruct Rr as (E & L).
  pose proof (Bminus_correct prec emax Hp He mode_NE x y Fx Fy) as C. rewrite E, Rlt_bool_true in C by exact L.
  destruct C as (C1 & C2 & _). split; assumption.
Qed.
Lemma is_mul x y a b r : is x a -> is y b -> r = a * b -> rep r -> is (Bmult mode_NE x y) r.
Proof.
  intros (Fx & <-) (Fy & <-) -> Rr. apply rep_round in Rr. destruct Rr as (E & L).
  pose proof (Bmult_correct prec emax Hp He mode_NE x y) as C. rewrite E, Rlt_bool_true in C by exact L.
  destruct C as (C1 & C2 & _). split; [rewrite C2, Fx, Fy; reflexivity|assumption].
Qed.
Lemma is_div x y a b r : is x a -> is y b -> b <> 0 -> r = a / b -> rep r -> is (Bdiv mode_NE x y) r.
Proof.
  intros (Fx & <-) (Fy & <-) Ny -> Rr. apply rep_round in Rr. destruct Rr as (E & L).
  pose proof (Bdiv_correct prec emax Hp He mode_NE x y Ny) as C. rewrite E, Rlt_bool_true in C by exact L.
  destruct C as (C1 & C2 & _). split; [rewrite C2; exact Fx|assumption].
Qed.

End Exact.


(** ** Matrices that shift *)

Lemma one32 : is (nof 1 : f32) 1.
Proof.
  split; [reflexivity|]. assert (E : B2SF (nof 1 : f32) = SpecFloat.S754_finite false 8388608 (-23)) by (vm_compute; reflexivity).
  rewrite <- SF2R_B2SF, E. unfold SF2R, F2R. cbn. lra.
Qed.
Lemma minus32 : is (nof (-1) : f32) (-1).
Proof.
  split; [reflexivity|]. assert (E : B2SF (nof (-1) : f32) = SpecFloat.S754_finite true 8388608 (-23)) by (vm_compute; reflexivity).
  rewrite <- SF2R_B2SF, E. unfold SF2R, F2R. cbn. lra.
Qed.
Lemma zero32 : is (nzero : f32) 0.
Proof. split; reflexivity. Qed.
Lemma zero32' : is (nof 0 : f32) 0.
Proof. split; reflexivity. Qed.
Lemma one64 : is (nof 1 : f64) 1.
Proof.
  split; [reflexivity|]. assert (E : B2SF (nof 1 : f64) = SpecFloat.S754_finite false 4503599627370496 (-52)) by (vm_compute; reflexivity).
  rewrite <- SF2R_B2SF, E. unfold SF2R, F2R. cbn. lra.
Qed.
Lemma minus64 : is (nof (-1) : f64) (-1).
Proof.
  split; [reflexivity|]. assert (E : B2SF (nof (-1) : f64) = SpecFloat.S754_finite true 4503599627370496 (-52)) by (vm_compute; reflexivity).
  rewrite <- SF2R_B2SF, E. unfold SF2R, F2R. cbn. lra.
Qed.
Lemma zero64 : is (nzero : f64) 0.
Proof. split; reflexivity. Qed.

Lemma add0l (x y : f32) b : is x 0 -> is y b -> is (nadd x y) b.
Proof. intros X Y. eapply is_add; eauto; [lra|eapply is_rep; eauto]. Qed.
Lemma add0r (x y : f32) b : is x b -> is y 0 -> is (nadd x y) b.
Proof. intros X Y. eapply is_add; eauto; [lra|eapply is_rep; eauto]. Qed.
Lemma sub0r (x y : f32) b : is x b -> is y 0 -> is (nsub x y) b.
Proof. intros X Y. eapply is_sub; eauto; [lra|eapply is_rep; eauto]. Qed.
Lemma mul0l (x y : f32) b : is x 0 -> is y b -> is (nmul x y) 0.
Proof. intros X Y. eapply is_mul; eauto; [lra|eapply is_rep; eauto]. Qed.
Lemma mul0r (x y : f32) b : is x b -> is y 0 -> is (nmul x y) 0.
Proof. intros X Y. eapply is_mul; eauto; [lra|eapply is_rep; eauto]. Qed.
Lemma mul1l (x y : f32) b : is x 1 -> is y b -> is (nmul x y) b.
Proof. intros X Y. eapply is_mul; eauto; [lra|eapply is_rep; eauto]. Qed.
Lemma mul1r (x y : f32) b : is x b -> is y 1 -> is (nmul x y) b.
Proof. intros X Y. eapply is_mul; eauto; [lra|eapply is_rep; eauto]. Qed.

(** The value of an expression of exact operations. *)
Ltac pf t :=
  lazymatch t with
  | nadd ?x ?y =>
      let a := pf x in let b := pf y in
      match goal with
      | |- _ => constr:(add0l x y _ a b)
      | |- _ => constr:(add0r x y _ a b)
      end
  | nsub ?x ?y => let a := pf x in let b := pf y in constr:(sub0r x y _ a b)
  | nmul ?x ?y =>
      match goal with
      | H : is (nmul x y) _ |- _ => H
      | |- _ =>
        let a := pf x in let b := pf y in
        match goal with
        | |- _ => constr:(mul0l x y _ a b)
        | |- _ => constr:(mul0r x y _ a b)
        | |- _ => constr:(mul1l x y _ a b)
        | |- _ => constr:(mul1r x y _ a b)
        end
      end
  | nof 1 => one32
  | nzero => zero32
  | nof 0 => zero32'
  | ?x => match goal with H : is x _ |- _ => H end
  end.
Ltac ex := lazymatch goal with |- is ?t _ => let p := pf t in exact p end.

Definition is4 (v : vec4 f32) (a b c d : R) : Prop := is (v4x v) a /\ is (v4y v) b /\ is (v4z v) c /\ is (v4w v) d.
Definition shift (m : mat4 f32) (d x y z : R) : Prop :=
  is4 (c0 m) 1 0 0 0 /\ is4 (c1 m) 0 1 0 0 /\ is4 (c2 m) 0 0 d 0 /\ is4 (c3 m) x y z 1.

Ltac open_shift H := destruct H as ((?H & ?H & ?H & ?H) & (?H & ?H & ?H & ?H) & (?H & ?H & ?H & ?H) & (?H & ?H & ?H & ?H)).

Ltac four := split; [|split; [|split]]; cbn [v4x v4y v4z v4w].

Notation rep32 := (rep (prec := 24) (emax := 128)).

Lemma col0 m v d x y z a b c : shift m d x y z -> is4 v a b c 0 -> rep32 (d * c) -> is4 (m_col m v) a b (d * c) 0.
Proof.
  intros M (V1 & V2 & V3 & V4) Rd. open_shift M.
  assert (X : is (nmul (v4z (c2 m)) (v4z v)) (d * c)) by (eapply is_mul; eauto).
  unfold m_col, v4_add, v4_scale. cbn [v4x v4y v4z v4w]. four; ex.
Qed.

Lemma col1 m v d x y z a b c : shift m d x y z -> is4 v a b c 1 ->
  rep32 (a + x) -> rep32 (b + y) -> rep32 (d * c) -> rep32 (d * c + z) -> is4 (m_col m v) (a + x) (b + y) (d * c + z) 1.
Proof.
  intros M (V1 & V2 & V3 & V4) Rx Ry Rd Rz. open_shift M.
  assert (X : is (nmul (v4z (c2 m)) (v4z v)) (d * c)) by (eapply is_mul; eauto).
  unfold m_col, v4_add, v4_scale. cbn [v4x v4y v4z v4w]. four.
  - eapply is_add; [ex|ex|reflexivity|exact Rx].
  - eapply is_add; [ex|ex|reflexivity|exact Ry].
  - eapply is_add; [ex|ex|reflexivity|exact Rz].
  - ex.
Qed.

Lemma apply1 m v d z a b : shift m d 0 0 z -> is4 v a b 0 1 -> is4 (m_apply m v) a b z 1.
Proof.
  intros M (V1 & V2 & V3 & V4). open_shift M.
  unfold m_apply, v4_add, v4_scale. cbn [v4x v4y v4z v4w]. four; ex.
Qed.

Lemma shift_mul m n d x y z d' x' y' z' : shift m d x y z -> shift n d' x' y' z' ->
  rep32 (x' + x) -> rep32 (y' + y) -> rep32 (d * d') -> rep32 (d * z') -> rep32 (d * z' + z) ->
  shift (m_mul m n) (d * d') (x' + x) (y' + y) (d * z' + z).
Proof.
  intros M (N0 & N1 & N2 & N3) R1 R2 R3 R4 R5. unfold m_mul. 
  assert (Z0 : rep32 (d * 0)) by (rewrite Rmult_0_r; apply rep_0).
  unfold shift. cbn [c0 c1 c2 c3].
  split; [replace 0 with (d * 0) at 2 by lra; apply (col0 _ _ _ _ _ _ _ _ _ M N0 Z0)|].
  split; [replace 0 with (d * 0) at 2 by lra; apply (col0 _ _ _ _ _ _ _ _ _ M N1 Z0)|].
  split; [apply (col0 _ _ _ _ _ _ _ _ _ M N2 R3)|]. apply (col1 _ _ _ _ _ _ _ _ _ M N3); assumption.
Qed.

Lemma is_shift m d x y z d' x' y' z' : shift m d x y z -> d = d' -> x = x' -> y = y' -> z = z' -> shift m d' x' y' z'.
Proof. intros; subst; assumption. Qed.

Lemma id_shift : shift m_id 1 0 0 0.
Proof. unfold shift, m_id. cbn [c0 c1 c2 c3]. split; [|split; [|split]]; four; ex. Qed.

Lemma translate_shift (x y z : f32) a b c : is x a -> is y b -> is z c -> shift (m_translate m_id x y z) 1 a b c.
Proof.
  intros X Y Z. unfold shift, m_translate, m_id, v4_add, v4_scale. cbn [c0 c1 c2 c3 v4x v4y v4z v4w].
  split; [|split; [|split]]; four; ex.
Qed.

Lemma scale_shift (x y z : f32) : is x 1 -> is y 1 -> is z 1 -> shift (m_scale m_id x y z) 1 0 0 0.
Proof.
  intros X Y Z. unfold shift, m_scale, m_id, v4_scale. cbn [c0 c1 c2 c3 v4x v4y v4z v4w].
  split; [|split; [|split]]; four; ex.
Qed.

Lemma rotate_shift `{Libm f32} (g x y z : f32) a b c : is (tcos g) 1 -> is (tsin g) 0 -> is x a -> is y b -> is z c ->
  shift (m_rotate m_id g x y z) 1 0 0 0.
Proof.
  intros C S X Y Z. assert (T : is (nsub (nof 1) (tcos g)) 0) by (eapply is_sub; [exact one32|exact C|lra|apply rep_0]).
  unfold shift, m_rotate, m_id, v4_add, v4_scale. cbv zeta. cbn [c0 c1 c2 c3 v4x v4y v4z v4w].
  set (t := nsub (nof 1) (tcos g)) in *. clearbody t.
  split; [|split; [|split]]; four; ex.
Qed.

(** Three or four factors whose shifts cancel. *)
Lemma round_trip m n k d z a b : shift m 1 a b 0 -> shift n 1 0 0 0 -> shift k d (- a) (- b) z -> rep32 a -> rep32 b -> rep32 d -> rep32 z ->
  shift (m_mul (m_mul m n) k) d 0 0 z.
Proof.
  intros M N K Ra Rb Rd Rz.
  assert (R1 : rep32 1) by (eexists; exact one32).
  assert (MN : shift (m_mul m n) 1 a b 0).
  { eapply is_shift; [apply (shift_mul _ _ _ _ _ _ _ _ _ _ M N)| | | |]; try lra;
      rewrite ?Rplus_0_l, ?Rmult_1_l, ?Rmult_0_r, ?Rplus_0_l; auto using rep_0. }
  eapply is_shift; [apply (shift_mul _ _ _ _ _ _ _ _ _ _ MN K)| | | |]; try lra;
    rewrite ?Rplus_opp_l, ?Rmult_1_l, ?Rplus_0_r; auto using rep_0.
Qed.


(** ** Conversions and [double] intermediates *)

Notation rnd32 := (round radix2 (SpecFloat.fexp 24 128) (round_mode mode_NE)).

Lemma rnd32_opp x : rnd32 (- x) = - rnd32 x.
Proof. apply round_NE_opp. Qed.

Lemma narrow_is (x : f64) : within 126 x -> is (narrow x : f32) (rnd32 (B2R x)).
Proof.
  intros (F & L). destruct (bconv_finite 24 128 Hprec32 Hemax32 x F) as (A & _ & C); [|split; [exact A|exact C]].
  apply Rle_lt_trans with (bpow radix2 126); [|apply bpow_lt; lia].
  apply abs_round_le_generic; [apply fexp_correct; reflexivity|apply valid_rnd_round_mode| |exact L].
  apply generic_format_bpow. cbn. lia.
Qed.

Lemma narrow_exact (x : f64) r : is x r -> rep32 r -> is (narrow x : f32) r.
Proof.
  intros (F & E) Rr. apply rep_round in Rr. destruct Rr as (G & L).
  destruct (bconv_finite 24 128 Hprec32 Hemax32 x F) as (A & _ & C); rewrite E, G in *; [exact L|]. split; [exact A|exact C].
Qed.

Lemma widen_is (x : f32) r : is x r -> is (widen x : f64) r.
Proof. intros (F & <-). destruct (widen_32 x F) as (A & _ & B). split; assumption. Qed.

Lemma narrow_neg (x : f64) r : within 126 x -> is (narrow x : f32) r -> is (narrow (nmul (nof (-1)) x) : f32) (- r).
Proof.
  intros W I. pose proof (narrow_is x W) as (_ & E). destruct I as (_ & <-). rewrite E.
  assert (M : is (nmul (nof (-1)) x) (- B2R x)).
  { destruct W as (F & _). eapply is_mul; [exact minus64|split; [exact F|reflexivity]|lra|].
    apply rep_opp. exists x. split; [exact F|reflexivity]. }
  rewrite <- rnd32_opp. destruct M as (F & M). rewrite <- M. apply narrow_is. split; [exact F|].
  rewrite M, Rabs_Ropp. apply W.
Qed.

Lemma within_sub j (a b : f64) : (-900 <= j <= 1000)%Z -> within j a -> within j b -> within (j + 1) (nsub a b).
Proof.
  intros Hj (Fa & La) (Fb & Lb).
  assert (P : bpow radix2 (j + 1) = 2 * bpow radix2 j) by (rewrite bpow_plus; cbn; lra).
  assert (L : Rabs (B2R a - B2R b) <= bpow radix2 (j + 1)).
  { apply Rabs_le_inv in La. apply Rabs_le_inv in Lb. apply Rabs_le. lra. }
  destruct (sub_ok (j + 1) ltac:(lia) a b Fa Fb L) as (F & E). split; [exact F|]. rewrite E. apply rd_bound; [lia|exact L].
Qed.
Lemma within_add j (a b : f64) : (-900 <= j <= 1000)%Z -> within j a -> within j b -> within (j + 1) (nadd a b).
Proof.
  intros Hj (Fa & La) (Fb & Lb).
  assert (P : bpow radix2 (j + 1) = 2 * bpow radix2 j) by (rewrite bpow_plus; cbn; lra).
  assert (L : Rabs (B2R a + B2R b) <= bpow radix2 (j + 1)).
  { apply Rabs_le_inv in La. apply Rabs_le_inv in Lb. apply Rabs_le. lra. }
  destruct (add_ok (j + 1) ltac:(lia) a b Fa Fb L) as (F & E). split; [exact F|]. rewrite E. apply rd_bound; [lia|exact L].
Qed.
Lemma within_mul i j (a b : f64) : (-900 <= i + j <= 1000)%Z -> within i a -> within j b -> within (i + j) (nmul a b).
Proof.
  intros Hj (Fa & La) (Fb & Lb).
  assert (L : Rabs (B2R a * B2R b) <= bpow radix2 (i + j)).
  { rewrite Rabs_mult, bpow_plus. apply Rmult_le_compat; auto using Rabs_pos. }
  destruct (mul_ok (i + j) ltac:(lia) a b Fa Fb L) as (F & E). split; [exact F|]. rewrite E. apply rd_bound; [lia|exact L].
Qed.
Lemma within_half j (a : f64) : (-900 <= j <= 1000)%Z -> within j a -> within j (ndiv a (nof 2)).
Proof.
  intros Hj (Fa & La). destruct (of_ok 2) as (F2 & R2); [reflexivity|].
  assert (L : Rabs (B2R a / B2R (nof 2 : f64)) <= bpow radix2 j).
  { rewrite R2. pose proof (bpow_ge_0 radix2 j). apply Rabs_le_inv in La. apply Rabs_le. lra. }
  destruct (div_ok j ltac:(lia) a (nof 2)) as (F & E); [exact Fa|rewrite R2; lra|exact L|].
  split; [exact F|]. rewrite E. apply rd_bound; [lia|exact L].
Qed.
Lemma within_up i j (a : f64) : (i <= j)%Z -> within i a -> within j a.
Proof. intros L (F & B). split; [exact F|]. eapply Rle_trans; [exact B|apply bpow_le; exact L]. Qed.

Lemma within_of_float k (x : f32) : float_within k x -> within k (widen x : f64).
Proof. intros (F & L). destruct (widen_is x (B2R x)) as (A & B); [split; auto|]. split; [exact A|]. rewrite B. exact L. Qed.

Lemma is_within k (x : f32) : float_within k x -> is x (B2R x).
Proof. intros (F & _). split; [exact F|reflexivity]. Qed.

Lemma center_within k (b : box f64) : (0 <= k <= 900)%Z -> box_within k b ->
  point_within (k + 1) (box_center_offset b) /\ point_within (k + 2) (box_center b).
Proof.
  intros Hk ((Ax & Ay) & (Bx & By)).
  assert (C : point_within (k + 1) (box_center_offset b)).
  { split; apply within_half; try lia; apply within_sub; auto; lia. }
  split; [exact C|]. destruct C as (Cx & Cy). replace (k + 2)%Z with (k + 1 + 1)%Z by lia.
  split; apply within_add; try lia; auto; eapply within_up; try eassumption; lia.
Qed.

Lemma transform_in_place m d z (p : vec f64) : shift m d 0 0 z -> point_within 126 p -> drawn_in_place (transform_point p m) p.
Proof.
  intros M (Px & Py). pose proof (narrow_is _ Px) as Ix. pose proof (narrow_is _ Py) as Iy.
  assert (V : is4 (mk4 (narrow (vx p)) (narrow (vy p)) (narrow (nzero : f64)) (narrow (nof 1 : f64))) (rnd32 (B2R (vx p))) (rnd32 (B2R (vy p))) 0 1).
  { split; [exact Ix|]. split; [exact Iy|]. split; [apply narrow_exact; [exact zero64|apply rep_0]|].
    apply narrow_exact; [exact one64|eexists; exact one32]. }
  destruct (apply1 _ _ _ _ _ _ M V) as (A & B & _ & D). unfold transform_point, drawn_in_place, as_float. cbv zeta. cbn [v4x v4y v4w].
  apply widen_is in A, B, D. apply widen_is in Ix, Iy. destruct one64 as (O1 & O2).
  destruct A as (A1 & A2), B as (B1 & B2), D as (D1 & D2), Ix as (X1 & X2), Iy as (Y1 & Y2).
  split; [|split]; (split; [assumption|split; [assumption|congruence]]).
Qed.

Lemma one_of_eqb (x : f32) : neqb x (nof 1) = true -> is x 1.
Proof.
  intros E. destruct (is_finite x) eqn:F.
  - assert (C : neqb x (nof 1) = Req_bool (B2R x) (B2R (nof 1 : f32))) by (apply Beqb_correct; [exact F|reflexivity]).
    rewrite C in E. destruct one32 as (_ & O). rewrite O in E. split; [exact F|].
    destruct (Req_bool_spec (B2R x) 1); [assumption|discriminate].
  - exfalso. destruct x as [s|s| |s m e Hb]; try discriminate F; [|].
    + destruct s; vm_compute in E; discriminate E.
    + vm_compute in E; discriminate E.
Qed.

Lemma one_minus (x : f32) : is x 1 -> is (nsub (nof 1) x) 0.
Proof. intros X. eapply is_sub; [exact one32|exact X|lra|apply rep_0]. Qed.

(** ** Zoom *)

Lemma scale_one (t f dp ip : f64) : within 200 t -> within 200 f -> B2R t <> 0 -> is dp 1 -> is ip 0 ->
  is (ndiv (nadd (nmul t dp) (nmul f ip)) t) 1.
Proof.
  intros (Ft & _) (Ff & _) Nt D I.
  assert (T : is t (B2R t)) by (split; auto). assert (G : is f (B2R f)) by (split; auto).
  assert (A : is (nmul t dp) (B2R t)) by (eapply is_mul; [exact T|exact D|lra|exists t; exact T]).
  assert (B : is (nmul f ip) 0) by (eapply is_mul; [exact G|exact I|lra|apply rep_0]).
  assert (C : is (nadd (nmul t dp) (nmul f ip)) (B2R t)) by (eapply is_add; [exact A|exact B|lra|exists t; exact T]).
  eapply is_div; [exact C|exact T|exact Nt|field; exact Nt|eexists; exact one64].
Qed.

Lemma sub_nonzero k (a b : f64) : (-900 <= k <= 900)%Z -> within k a -> within k b -> B2R a <> B2R b -> B2R (nsub a b) <> 0.
Proof.
  intros Hk (Fa & La) (Fb & Lb) N E.
  destruct (sub_ok (k + 1) ltac:(lia) a b Fa Fb) as (_ & R).
  { assert (P : bpow radix2 (k + 1) = 2 * bpow radix2 k) by (rewrite bpow_plus; cbn; lra).
    apply Rabs_le_inv in La. apply Rabs_le_inv in Lb. apply Rabs_le. lra. }
  rewrite R in E. apply N.
  destruct (Req_dec (B2R a - B2R b) 0) as [Z|Z]; [lra|]. exfalso. revert E.
  apply (round_plus_neq_0 radix2 (SpecFloat.fexp 53 1024) (Znearest (fun x => negb (Z.even x))) (B2R a) (- B2R b));
    [apply generic_format_B2R|apply generic_format_opp, generic_format_B2R|exact Z].
Qed.

Lemma zoom_last (L1 : Libm f32) (L2 : Libm f64) (pr : f32) (from to : box f64) :
  is pr 1 -> box_within 100 from -> box_within 100 to ->
  B2R (vx (b_tl to)) <> B2R (vx (b_br to)) -> B2R (vy (b_tl to)) <> B2R (vy (b_br to)) ->
  shift (zoom_transform pr from to) 1 0 0 0.
Proof.
  intros P Wf Wt Nx Ny. unfold zoom_transform. cbv zeta.
  pose proof (widen_is _ _ P) as Dp. pose proof (widen_is _ _ (one_minus _ P)) as Ip.
  assert (Jp : is (nsub (nof 1) (widen pr : f64)) 0) by (eapply is_sub; [exact one64|exact Dp|lra|apply rep_0]).
  destruct (center_within 100 from) as (_ & (Cfx & Cfy)); [lia|exact Wf|].
  destruct (center_within 100 to) as ((Ox & Oy) & (Ctx & Cty)); [lia|exact Wt|].
  pose proof (within_sub 102 _ _ ltac:(lia) Cfx Ctx) as Dx. pose proof (within_sub 102 _ _ ltac:(lia) Cfy Cty) as Dy.
  destruct Wf as ((Fx1 & Fy1) & (Fx2 & Fy2)). destruct Wt as ((Tx1 & Ty1) & (Tx2 & Ty2)).
  assert (T1 : shift (m_translate m_id (narrow (nmul (nsub (vx (box_center from)) (vx (box_center to))) (widen (nsub (nof 1) pr))))
                        (narrow (nmul (nsub (vy (box_center from)) (vy (box_center to))) (widen (nsub (nof 1) pr)))) (narrow (nzero : f64))) 1 0 0 0).
  { apply translate_shift.
    - apply narrow_exact; [|apply rep_0]. eapply is_mul; [split; [apply Dx|reflexivity]|exact Ip|lra|apply rep_0].
    - apply narrow_exact; [|apply rep_0]. eapply is_mul; [split; [apply Dy|reflexivity]|exact Ip|lra|apply rep_0].
    - apply narrow_exact; [exact zero64|apply rep_0]. }
  apply (within_up _ 126) in Ox; [|lia]. apply (within_up _ 126) in Oy; [|lia].
  pose proof (narrow_is _ Ox) as Ix. pose proof (narrow_is _ Oy) as Iy.
  assert (T2 : shift (m_translate m_id (narrow (vx (box_center_offset to))) (narrow (vy (box_center_offset to))) (narrow (nzero : f64)))
                 1 (rnd32 (B2R (vx (box_center_offset to)))) (rnd32 (B2R (vy (box_center_offset to)))) 0).
  { apply translate_shift; [exact Ix|exact Iy|apply narrow_exact; [exact zero64|apply rep_0]]. }
  pose proof (narrow_neg _ _ Ox Ix) as Mx. pose proof (narrow_neg _ _ Oy Iy) as My.
  set (sx := ndiv _ (nsub (vx (b_br to)) (vx (b_tl to)))). set (sy := ndiv _ (nsub (vy (b_br to)) (vy (b_tl to)))).
  assert (Sx : is sx 1).
  { apply scale_one; [eapply within_up; [|apply (within_sub 100); eassumption || lia]; lia
                     |eapply within_up; [|apply (within_sub 100); eassumption || lia]; lia| |exact Dp|exact Jp].
    apply (sub_nonzero 100); [lia|assumption|assumption|congruence]. }
  assert (Sy : is sy 1).
  { apply scale_one; [eapply within_up; [|apply (within_sub 100); eassumption || lia]; lia
                     |eapply within_up; [|apply (within_sub 100); eassumption || lia]; lia| |exact Dp|exact Jp].
    apply (sub_nonzero 100); [lia|assumption|assumption|congruence]. }
  assert (R1 : rep32 1) by (eexists; exact one32).
  assert (Sc : shift (m_scale m_id (narrow sx) (narrow sy) (narrow (nof 1 : f64))) 1 0 0 0).
  { apply scale_shift; apply narrow_exact; auto. exact one64. }
  assert (Ce : shift (m_translate m_id (narrow (nmul (nof (-1)) (vx (box_center_offset to)))) (narrow (nmul (nof (-1)) (vy (box_center_offset to)))) (narrow (nzero : f64)))
                 1 (- rnd32 (B2R (vx (box_center_offset to)))) (- rnd32 (B2R (vy (box_center_offset to)))) 0).
  { apply translate_shift; [exact Mx|exact My|apply narrow_exact; [exact zero64|apply rep_0]]. }
  assert (TT : shift (m_mul (m_translate m_id (narrow (nmul (nsub (vx (box_center from)) (vx (box_center to))) (widen (nsub (nof 1) pr))))
                        (narrow (nmul (nsub (vy (box_center from)) (vy (box_center to))) (widen (nsub (nof 1) pr)))) (narrow (nzero : f64)))
                       (m_translate m_id (narrow (vx (box_center_offset to))) (narrow (vy (box_center_offset to))) (narrow (nzero : f64))))
                 1 (rnd32 (B2R (vx (box_center_offset to)))) (rnd32 (B2R (vy (box_center_offset to)))) 0).
  { eapply is_shift; [apply (shift_mul _ _ _ _ _ _ _ _ _ _ T1 T2)| | | |]; try lra;
      rewrite ?Rplus_0_r, ?Rmult_1_l; auto using rep_0; eapply is_rep; eassumption. }
  eapply round_trip; [exact TT|exact Sc|exact Ce| | | |]; auto using rep_0; eapply is_rep; eassumption.
Qed.

(** ** Bounce *)

Lemma rnd32_mono x y : x <= y -> rnd32 x <= rnd32 y.
Proof. apply round_le; [apply fexp_correct; reflexivity|apply valid_rnd_round_mode]. Qed.
Lemma rnd32_rep r : rep32 r -> rnd32 r = r.
Proof. intros Rr. apply rep_round in Rr. apply Rr. Qed.

Lemma rnd32_err x : Rabs x < 1 -> Rabs (rnd32 x - x) <= bpow radix2 (-25).
Proof.
  intros L. eapply Rle_trans; [apply error_le_half_ulp; apply fexp_correct; reflexivity|].
  assert (U : ulp radix2 (SpecFloat.fexp 24 128) x <= bpow radix2 (-24)).
  { destruct (Req_dec x 0) as [->|Nz].
    - apply Rle_trans with (bpow radix2 (-149)); [|apply bpow_le; lia].
      rewrite <- (ulp_FLT_0 radix2 (-149) 24). apply Rle_refl.
    - rewrite ulp_neq_0 by auto. apply bpow_le. unfold cexp, SpecFloat.fexp, SpecFloat.emin.
      pose proof (mag_le_bpow radix2 x 0 Nz L). lia. }
  replace (-24)%Z with (-25 + 1)%Z in U by lia. rewrite bpow_plus in U. cbn in U |- *. lra.
Qed.

(** Numbers close to one. *)
Lemma near_one_up : rnd32 (1 + bpow radix2 (-25)) = 1.
Proof.
  pose (u := binary_normalize 24 128 Hprec32 Hemax32 mode_NE 1 (-25) false).
  assert (U : is u (bpow radix2 (-25))).
  { split; [reflexivity|]. assert (E : B2SF u = SpecFloat.S754_finite false 8388608 (-48)) by (vm_compute; reflexivity).
    rewrite <- SF2R_B2SF, E. unfold SF2R, F2R. cbn. lra. }
  pose proof (Bplus_correct 24 128 Hprec32 Hemax32 mode_NE (nof 1) u eq_refl eq_refl) as C.
  destruct one32 as (_ & O). destruct U as (_ & U). rewrite O, U in C. rewrite Rlt_bool_true in C.
  - destruct C as (C & _). rewrite <- C.
    assert (E : B2SF (Bplus mode_NE (nof 1 : f32) u) = SpecFloat.S754_finite false 8388608 (-23)) by (vm_compute; reflexivity).
    rewrite <- SF2R_B2SF. refine (eq_trans (f_equal (SF2R radix2) E) _). unfold SF2R, F2R. cbn. lra.
  - apply Rle_lt_trans with (bpow radix2 2); [|apply bpow_lt; lia].
    apply abs_round_le_generic; [apply fexp_correct; reflexivity|apply valid_rnd_round_mode|apply generic_format_bpow; cbn; lia|].
    rewrite Rabs_right; cbn; lra.
Qed.
Lemma near_one_down : rnd32 (1 - bpow radix2 (-25)) = 1.
Proof.
  pose (u := binary_normalize 24 128 Hprec32 Hemax32 mode_NE 1 (-25) false).
  assert (U : is u (bpow radix2 (-25))).
  { split; [reflexivity|]. assert (E : B2SF u = SpecFloat.S754_finite false 8388608 (-48)) by (vm_compute; reflexivity).
    rewrite <- SF2R_B2SF, E. unfold SF2R, F2R. cbn. lra. }
  pose proof (Bminus_correct 24 128 Hprec32 Hemax32 mode_NE (nof 1) u eq_refl eq_refl) as C.
  destruct one32 as (_ & O). destruct U as (_ & U). rewrite O, U in C. rewrite Rlt_bool_true in C.
  - destruct C as (C & _). rewrite <- C.
    assert (E : B2SF (Bminus mode_NE (nof 1 : f32) u) = SpecFloat.S754_finite false 8388608 (-23)) by (vm_compute; reflexivity).
    rewrite <- SF2R_B2SF. refine (eq_trans (f_equal (SF2R radix2) E) _). unfold SF2R, F2R. cbn. lra.
  - apply Rle_lt_trans with (bpow radix2 2); [|apply bpow_lt; lia].
    apply abs_round_le_generic; [apply fexp_correct; reflexivity|apply valid_rnd_round_mode|apply generic_format_bpow; cbn; lia|].
    rewrite Rabs_right; cbn; lra.
Qed.

Lemma sub32 (x y : f32) a b : is x a -> is y b -> Rabs (a - b) <= bpow radix2 126 -> is (nsub x y) (rnd32 (a - b)).
Proof.
  intros (Fx & <-) (Fy & <-) L. pose proof (Bminus_correct 24 128 Hprec32 Hemax32 mode_NE x y Fx Fy) as C.
  rewrite Rlt_bool_true in C; [destruct C as (C1 & C2 & _); split; assumption|].
  apply Rle_lt_trans with (bpow radix2 126); [|apply bpow_lt; lia].
  apply abs_round_le_generic; [apply fexp_correct; reflexivity|apply valid_rnd_round_mode|apply generic_format_bpow; cbn; lia|exact L].
Qed.
Lemma add32 (x y : f32) a b : is x a -> is y b -> Rabs (a + b) <= bpow radix2 126 -> is (nadd x y) (rnd32 (a + b)).
Proof.
  intros (Fx & <-) (Fy & <-) L. pose proof (Bplus_correct 24 128 Hprec32 Hemax32 mode_NE x y Fx Fy) as C.
  rewrite Rlt_bool_true in C; [destruct C as (C1 & C2 & _); split; assumption|].
  apply Rle_lt_trans with (bpow radix2 126); [|apply bpow_lt; lia].
  apply abs_round_le_generic; [apply fexp_correct; reflexivity|apply valid_rnd_round_mode|apply generic_format_bpow; cbn; lia|exact L].
Qed.

(** What is left of one, added back. *)
Lemma floor_one (i pr : f32) a : is i a -> is pr 1 -> 0 <= a <= 2 -> is (nadd i (nmul (nsub (nof 1) i) pr)) 1.
Proof.
  intros I P B. assert (Big : 4 <= bpow radix2 126) by (apply Rle_trans with (bpow radix2 2); [cbn; lra|apply bpow_le; lia]).
  assert (S : is (nsub (nof 1) i) (rnd32 (1 - a))).
  { apply sub32; [exact one32|exact I|]. apply Rabs_le. lra. }
  assert (M : is (nmul (nsub (nof 1) i) pr) (rnd32 (1 - a))) by (eapply mul1r; eassumption).
  destruct (Rle_lt_dec (1 / 2) a) as [G|G].
  - assert (E : rnd32 (1 - a) = 1 - a).
    { apply round_generic; [apply valid_rnd_round_mode|]. destruct one32 as (_ & O). destruct I as (_ & <-). rewrite <- O.
      apply sterbenz; [apply fexp_correct; reflexivity|apply fexp_monotone|apply generic_format_B2R|apply generic_format_B2R|].
      rewrite O. lra. }
    rewrite E in M. eapply is_add; [exact I|exact M|lra|eexists; exact one32].
  - destruct (Req_dec a 0) as [Z|Z].
    + subst a. rewrite Rminus_0_r, rnd32_rep in M by (eexists; exact one32).
      eapply is_add; [exact I|exact M|lra|eexists; exact one32].
    + pose proof (rnd32_err (1 - a)) as E. rewrite Rabs_right in E by lra. specialize (E ltac:(lra)).
      apply Rabs_le_inv in E.
      assert (Small : bpow radix2 (-25) <= 1) by (apply (bpow_le radix2 (-25) 0); lia).
      assert (A : is (nadd i (nmul (nsub (nof 1) i) pr)) (rnd32 (a + rnd32 (1 - a)))).
      { apply add32; [exact I|exact M|]. apply Rabs_le. lra. }
      replace (rnd32 (a + rnd32 (1 - a))) with 1 in A; [exact A|]. apply Rle_antisym.
      * eapply Rle_trans; [apply Req_le, eq_sym, near_one_down|]. apply rnd32_mono. lra.
      * eapply Rle_trans; [|apply Req_le, near_one_up]. apply rnd32_mono. lra.
Qed.

Lemma rep32_1 : rep32 1.
Proof. eexists; exact one32. Qed.

Lemma bounce_scale_last (L1 : Libm f32) (L2 : Libm f64) (pr i mx : f32) n :
  sound_sine L2 -> is pr 1 -> is_finite i = true -> 0 <= B2R i <= 2 -> float_within 100 mx -> (0 <= n < 2 ^ 32)%Z ->
  is (bounce_scale (F := f32) (D := f64) pr i mx n) 1.
Proof.
  intros (Wpi & Ssin) P Fi Bi (Fm & Bm) Bn. unfold bounce_scale. cbv zeta.
  assert (I : is i (B2R i)) by (split; auto). assert (Mx : is mx (B2R mx)) by (split; auto).
  assert (Sine : exists s, is (sample_sine (F := f32) (D := f64) pr n) s).
  { unfold sample_sine. eexists. apply narrow_is. eapply within_up; [|apply Ssin]; [lia|].
    pose proof (widen_is _ _ P) as (Fp & Ep).
    assert (Wp : within 0 (widen pr : f64)) by (split; [exact Fp|rewrite Ep, Rabs_R1; cbn; lra]).
    assert (Wn : within 32 (nof n : f64)).
    { destruct (of_ok n) as (A & B); [lia|]. split; [exact A|]. rewrite B, Rabs_right by (apply Rle_ge, IZR_le; lia).
      rewrite <- (IZR_Zpower radix2) by lia. apply IZR_le. change (radix2 ^ 32)%Z with (2 ^ 32)%Z. lia. }
    apply (within_mul 2 32); [lia| |exact Wn]. apply (within_mul 0 2); [lia|exact Wp|exact Wpi]. }
  destruct Sine as (sv & Sine).
  assert (Rg : is (nsub mx i) (rnd32 (B2R mx - B2R i))).
  { apply sub32; auto. assert (bpow radix2 100 <= bpow radix2 125) by (apply bpow_le; lia).
    assert (bpow radix2 126 = 2 * bpow radix2 125) by (change 126%Z with (125 + 1)%Z; rewrite bpow_plus; cbn [bpow]; change (Z.pow_pos radix2 1) with 2%Z; lra).
    assert (2 <= bpow radix2 125) by (apply Rle_trans with (bpow radix2 1); [cbn; lra|apply bpow_le; lia]).
    apply Rabs_le_inv in Bm. apply Rabs_le. lra. }
  pose proof (one_minus _ P) as Q.
  pose proof (floor_one i pr _ I P Bi) as Fl.
  set (fl := nadd i (nmul (nsub (nof 1) i) pr)) in *. clearbody fl.
  assert (RR : is (nmul (nmul (nsub mx i) (nsub (nof 1) pr)) (sample_sine (F := f32) (D := f64) pr n)) 0).
  { eapply mul0l; [|exact Sine]. eapply mul0r; eassumption. }
  exact (add0r _ _ _ Fl RR).
Qed.

Lemma bounce_last (L1 : Libm f32) (L2 : Libm f64) (pr i mx : f32) n (b : box f64) :
  sound_sine L2 -> is pr 1 -> is_finite i = true -> 0 <= B2R i <= 2 -> float_within 100 mx -> (0 <= n < 2 ^ 32)%Z -> box_within 100 b ->
  shift (bounce_transform pr i mx n b) 1 0 0 0.
Proof.
  intros Sn P Fi Bi Bm Bn Wb. unfold bounce_transform. cbv zeta.
  pose proof (bounce_scale_last L1 L2 pr i mx n Sn P Fi Bi Bm Bn) as Sc.
  destruct (center_within 100 b) as ((Ox & Oy) & _); [lia|exact Wb|].
  apply (within_up _ 126) in Ox; [|lia]. apply (within_up _ 126) in Oy; [|lia].
  pose proof (narrow_is _ Ox) as Ix. pose proof (narrow_is _ Oy) as Iy.
  pose proof (narrow_neg _ _ Ox Ix) as Mx. pose proof (narrow_neg _ _ Oy Iy) as My.
  assert (Zz : is (narrow (nzero : f64) : f32) 0) by (apply narrow_exact; [exact zero64|apply rep_0]).
  eapply round_trip; [apply translate_shift; [exact Ix|exact Iy|exact Zz]|apply scale_shift; [exact Sc|exact Sc|exact one32]
                     |apply translate_shift; [exact Mx|exact My|exact Zz]| | | |]; auto using rep_0, rep32_1; eapply is_rep; eassumption.
Qed.

(** ** Glide *)

Lemma keep_shift m n a b : shift m 1 a b 0 -> shift n 1 0 0 0 -> rep32 a -> rep32 b -> shift (m_mul m n) 1 a b 0.
Proof.
  intros M N Ra Rb. pose proof rep32_1 as R1.
  eapply is_shift; [apply (shift_mul _ _ _ _ _ _ _ _ _ _ M N)| | | |]; try lra;
    rewrite ?Rplus_0_l, ?Rmult_1_l, ?Rmult_0_r, ?Rplus_0_l; auto using rep_0.
Qed.

Lemma perspective_shift w : (0 < w < 2 ^ 32)%Z -> exists v, shift (perspective (F := f32) (D := f64) w) 0 0 0 v.
Proof.
  intros Bw. destruct (of_ok w) as (Fw & Ew); [lia|]. destruct minus64 as (Fm & Em).
  assert (P : 1 <= IZR w) by (apply IZR_le; lia).
  assert (L : Rabs (B2R (nof (-1) : f64) / B2R (nof w : f64)) <= bpow radix2 0).
  { rewrite Em, Ew. cbn [bpow]. unfold Rdiv. rewrite Rabs_mult, (Rabs_left (-1)) by lra.
    rewrite Rabs_inv, (Rabs_right (IZR w)) by lra. pose proof (Rinv_le 1 (IZR w) ltac:(lra) P) as X. rewrite Rinv_1 in X. lra. }
  destruct (div_ok 0 ltac:(lia) (nof (-1)) (nof w) Fm) as (F & E); [rewrite Ew; lra|exact L|].
  assert (W : within 0 (ndiv (nof (-1)) (nof w) : f64)) by (split; [exact F|rewrite E; apply rd_bound; [lia|exact L]]).
  pose proof (narrow_is _ (within_up 0 126 _ ltac:(lia) W)) as I. eexists.
  unfold perspective, shift. cbv zeta. cbn [c0 c1 c2 c3]. split; [|split; [|split]]; four; ex.
Qed.

Lemma glide_last (L1 : Libm f32) (L2 : Libm f64) (pr dist xr yr xa ya : f32) w (b : box f64) :
  sound_sine L2 -> sound_at_zero L1 -> is pr 1 ->
  float_within 100 dist -> float_within 100 xr -> float_within 100 yr -> float_within 20 xa -> float_within 20 ya ->
  (0 < w < 2 ^ 32)%Z -> box_within 100 b ->
  exists v, shift (glide_transform pr dist xr yr xa ya w b) 0 0 0 v.
Proof.
  intros (Wpi & _) Sz P Bd Bxr Byr Bxa Bya Bw Wb. pose proof (one_minus _ P) as Q.
  assert (Zz : is (nzero : f32) 0) by exact zero32.
  assert (Deg : forall r, float_within 100 r -> is (nmul (degrees_to_radians (F := f32) (D := f64) r) (nsub (nof 1) pr)) 0).
  { intros r Br. eapply mul0r; [|exact Q]. unfold degrees_to_radians. apply narrow_is.
    apply (within_up (2 + 100)); [lia|]. apply within_mul; [lia| |apply within_of_float; exact Br].
    destruct Wpi as (Fp & Lp).
    assert (I180 : is (widen (nof 180 : f32) : f64) 180).
    { apply widen_is. split; [reflexivity|]. assert (E : B2SF (nof 180 : f32) = SpecFloat.S754_finite false 11796480 (-16)) by (vm_compute; reflexivity).
      rewrite <- SF2R_B2SF, E. unfold SF2R, F2R. cbn. lra. }
    destruct I180 as (_ & E180).
    assert (L : Rabs (B2R (tpi : f64) / B2R (widen (nof 180 : f32) : f64)) <= bpow radix2 2).
    { rewrite E180. unfold Rdiv. rewrite Rabs_mult, Rabs_inv, (Rabs_right 180) by lra. pose proof (Rabs_pos (B2R (tpi : f64))). lra. }
    destruct (div_ok 2 ltac:(lia) (tpi : f64) (widen (nof 180 : f32)) Fp) as (F & E); [rewrite E180; lra|exact L|].
    split; [exact F|]. rewrite E. apply rd_bound; [lia|exact L]. }
  assert (Rot : forall r x y, float_within 100 r -> is x 0 \/ is x 1 -> is y 0 \/ is y 1 ->
            shift (m_rotate m_id (nmul (degrees_to_radians (F := f32) (D := f64) r) (nsub (nof 1) pr)) x y nzero) 1 0 0 0).
  { intros r x y Br X Y. destruct (Deg r Br) as (F0 & E0). destruct (Sz _ F0 E0) as (A & B & C & D).
    destruct X as [X|X]; destruct Y as [Y|Y]; (eapply rotate_shift; [split; [exact A|exact B]|split; [exact C|exact D]|exact X|exact Y|exact Zz]). }
  destruct (perspective_shift w Bw) as (v & Pv). exists v.
  unfold glide_transform. cbv zeta.
  set (axis := rotation_axis_offset b xa ya).
  assert (Wx : within 121 (vx axis) /\ within 121 (vy axis)).
  { destruct Wb as ((Ax & Ay) & (Bx & By)). unfold axis, rotation_axis_offset. cbn [vx vy].
    split; apply (within_mul 101 20); try lia; try (apply within_of_float; assumption); apply (within_sub 100); auto; lia. }
  destruct Wx as (Wx & Wy). apply (within_up _ 126) in Wx; [|lia]. apply (within_up _ 126) in Wy; [|lia].
  pose proof (narrow_is _ Wx) as Ix. pose proof (narrow_is _ Wy) as Iy.
  assert (NM : forall x : f64, within 126 x -> is (narrow (nmul (widen (nof (-1) : f32)) x) : f32) (- rnd32 (B2R x))).
  { intros x W. assert (M : is (nmul (widen (nof (-1) : f32) : f64) x) (- B2R x)).
    { destruct W as (F & _). eapply is_mul; [apply widen_is; exact minus32|split; [exact F|reflexivity]|lra|].
      apply rep_opp. exists x. split; [exact F|reflexivity]. }
    rewrite <- rnd32_opp. destruct M as (F & M). rewrite <- M. apply narrow_is. split; [exact F|]. rewrite M, Rabs_Ropp. apply W. }
  pose proof (NM _ Wx) as Mx. pose proof (NM _ Wy) as My.
  pose proof (translate_shift _ _ _ _ _ _ Ix Iy Zz) as Ti.
  pose proof (translate_shift _ _ _ _ _ _ Mx My Zz) as Tc.
  assert (Td : is (nmul (nmul (nof (-1)) dist) (nsub (nof 1) pr)) 0).
  { eapply mul0r; [|exact Q]. destruct Bd as (Fd & _). eapply is_mul; [exact minus32|split; [exact Fd|reflexivity]|reflexivity|].
    replace (-1 * B2R dist) with (- B2R dist) by lra. apply rep_opp. exists dist. split; [exact Fd|reflexivity]. }
  pose proof (translate_shift _ _ _ _ _ _ Zz Zz Td) as Tt.
  pose proof (is_rep _ _ Ix) as Rx. pose proof (is_rep _ _ Iy) as Ry.
  pose proof (keep_shift _ _ _ _ Ti Tt Rx Ry) as K1.
  pose proof (keep_shift _ _ _ _ K1 (Rot xr (nof 1) nzero Bxr (or_intror one32) (or_introl zero32)) Rx Ry) as K2.
  pose proof (keep_shift _ _ _ _ K2 (Rot yr nzero (nof 1) Byr (or_introl zero32) (or_intror one32)) Rx Ry) as K3.
  assert (Rv : rep32 v) by (destruct Pv as (_ & _ & _ & (_ & _ & V & _)); eapply is_rep; exact V).
  assert (K4 : shift (m_mul (m_mul (m_mul (m_mul (m_translate m_id (narrow (vx axis)) (narrow (vy axis)) nzero)
              (m_translate m_id nzero nzero (nmul (nmul (nof (-1)) dist) (nsub (nof 1) pr))))
              (m_rotate m_id (nmul (degrees_to_radians (F := f32) (D := f64) xr) (nsub (nof 1) pr)) (nof 1) nzero nzero))
              (m_rotate m_id (nmul (degrees_to_radians (F := f32) (D := f64) yr) (nsub (nof 1) pr)) nzero (nof 1) nzero))
              (perspective (F := f32) (D := f64) w)) 0 (rnd32 (B2R (vx axis))) (rnd32 (B2R (vy axis))) v).
  { eapply is_shift; [apply (shift_mul _ _ _ _ _ _ _ _ _ _ K3 Pv)| | | |]; try lra;
      rewrite ?Rplus_0_l, ?Rmult_1_l, ?Rmult_0_r, ?Rplus_0_l, ?Rplus_0_r; auto using rep_0. }
  eapply is_shift; [apply (shift_mul _ _ _ _ _ _ _ _ _ _ K4 Tc)| | | |]; try lra;
    rewrite ?Rplus_opp_l, ?Rmult_0_l, ?Rplus_0_l; auto using rep_0.
Qed.

Lemma shift_identity m : shift m 1 0 0 0 -> is_identity m.
Proof.
  intros (((F1 & E1) & (F2 & E2) & (F3 & E3) & (F4 & E4)) & ((F5 & E5) & (F6 & E6) & (F7 & E7) & (F8 & E8)) &
    ((F9 & E9) & (F10 & E10) & (F11 & E11) & (F12 & E12)) & ((F13 & E13) & (F14 & E14) & (F15 & E15) & (F16 & E16))).
  unfold is_identity, entries. cbn [flat_map app map]. split.
  - intros x Hx. cbn [In] in Hx. repeat (destruct Hx as [<-|Hx]; [assumption|]). destruct Hx.
  - rewrite E1, E2, E3, E4, E5, E6, E7, E8, E9, E10, E11, E12, E13, E14, E15, E16. reflexivity.
Qed.

(** Whole numbers of up to 24 bits. *)
Lemma pixels n : (Z.abs n <= 2 ^ 24)%Z -> same_value (as_float (nof n)) (nof n).
Proof.
  intros Hn. destruct (of_ok n) as (F & E); [lia|].
  assert (G : generic_format radix2 (SpecFloat.fexp 24 128) (IZR n)).
  { destruct (Z_le_lt_eq_dec _ _ Hn) as [L|Q].
    - apply generic_format_FLT with (emin := (-149)%Z) (prec := 24%Z).
      exists (Float radix2 n 0); [unfold F2R; symmetry; apply Rmult_1_r|exact L|cbn; lia].
    - assert (X : IZR n = bpow radix2 24 \/ IZR n = - bpow radix2 24).
      { rewrite <- (IZR_Zpower radix2) by lia. change (radix2 ^ 24)%Z with (2 ^ 24)%Z. rewrite <- opp_IZR.
        destruct (Z.abs_eq_or_opp n) as [A|A]; [left|right]; f_equal; lia. }
      destruct X as [->| ->]; [|apply generic_format_opp]; apply generic_format_bpow; cbn; lia. }
  assert (B : Rabs (IZR n) <= bpow radix2 24).
  { rewrite <- abs_IZR, <- (IZR_Zpower radix2) by lia. apply IZR_le. exact Hn. }
  assert (W : within 126 (nof n : f64)).
  { split; [exact F|]. rewrite E. eapply Rle_trans; [exact B|apply bpow_le; lia]. }
  pose proof (widen_is _ _ (narrow_is _ W)) as (A & C). rewrite E in C.
  rewrite (round_generic radix2 (SpecFloat.fexp 24 128) (round_mode mode_NE) (IZR n) G) in C.
  split; [exact A|]. split; [exact F|]. unfold as_float. rewrite C. symmetry. exact E.
Qed.
