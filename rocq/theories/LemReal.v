(** The real-number instance: reflection of comparisons, vectors, distance. *)

From Coq Require Import ZArith Reals Bool List Lia Lra Psatz.
From Flocq Require Import Core.
From Verif Require Import Num Geometry.
Local Open Scope R_scope.

Lemma Rltb_spec x y : reflect (x < y) (Rltb x y).
Proof. unfold Rltb. destruct (Rlt_dec x y); constructor; auto. Qed.
Lemma Rleb_spec x y : reflect (x <= y) (Rleb x y).
Proof. unfold Rleb. destruct (Rle_dec x y); constructor; auto. Qed.
Lemma Reqb_spec x y : reflect (x = y) (Reqb x y).
Proof. unfold Reqb. destruct (Req_EM_T x y); constructor; auto. Qed.

Lemma Rltb_iff x y : Rltb x y = true <-> x < y.
Proof. destruct (Rltb_spec x y); split; intros; auto; discriminate. Qed.
Lemma Rleb_iff x y : Rleb x y = true <-> x <= y.
Proof. destruct (Rleb_spec x y); split; intros; auto; discriminate. Qed.
Lemma Reqb_iff x y : Reqb x y = true <-> x = y.
Proof. destruct (Reqb_spec x y); split; intros; auto; discriminate. Qed.
Lemma Rltb_niff x y : Rltb x y = false <-> y <= x.
Proof. destruct (Rltb_spec x y); split; intros; auto; try discriminate; lra. Qed.
Lemma Rleb_niff x y : Rleb x y = false <-> y < x.
Proof. destruct (Rleb_spec x y); split; intros; auto; try discriminate; lra. Qed.
Lemma Reqb_niff x y : Reqb x y = false <-> x <> y.
Proof. destruct (Reqb_spec x y); split; intros; auto; try discriminate; lra. Qed.

Ltac rnum := unfold nlit, nzero, none_ in *; cbn [nof nadd nsub nmul ndiv nopp nabs nsqrt nround nltb nleb neqb nmax ntrunc Num_R widen narrow Conv_R] in *.

Lemma vec_eq {T} (a b : vec T) : vx a = vx b -> vy a = vy b -> a = b.
Proof. destruct a, b; simpl; intros; subst; auto. Qed.
Ltac veq := apply vec_eq; cbn [vx vy vadd vsub vscale vpscale vpdiv vzero vmap vabs] in *; rnum.

Lemma nmin2_R a b : nmin2 a b = Rmin a b.
Proof.
  unfold nmin2; rnum. destruct (Rltb_spec b a); unfold Rmin; destruct (Rle_dec a b); lra.
Qed.
Lemma nmax2_R a b : nmax2 a b = Rmax a b.
Proof.
  unfold nmax2; rnum. destruct (Rltb_spec a b); unfold Rmax; destruct (Rle_dec a b); lra.
Qed.
Lemma nisnan_R (a : R) : nisnan a = false.
Proof. unfold nisnan; rnum. destruct (Reqb_spec a a); auto; congruence. Qed.
Lemma nfmin_R a b : nfmin a b = Rmin a b.
Proof. unfold nfmin. rewrite !nisnan_R. apply nmin2_R. Qed.
Lemma nfmax_R a b : nfmax a b = Rmax a b.
Proof. unfold nfmax. rewrite !nisnan_R. apply nmax2_R. Qed.

Lemma vequals_R (a b : vec R) : vequals a b = true <-> a = b.
Proof.
  unfold vequals; rnum. rewrite andb_true_l, andb_true_iff, !Reqb_iff. split.
  - intros [? ?]; veq; auto.
  - intros ->; auto.
Qed.

(** ** Distance *)

Lemma vdist_sqrt (a b : vec R) :
  vdist a b = sqrt ((vx a - vx b) * (vx a - vx b) + (vy a - vy b) * (vy a - vy b)).
Proof. unfold vdist; rnum. f_equal. ring. Qed.

Lemma sum_sq_nonneg x y : 0 <= x * x + y * y.
Proof. nra. Qed.

Lemma vdist_nonneg (a b : vec R) : 0 <= vdist a b.
Proof. rewrite vdist_sqrt. apply sqrt_pos. Qed.

Lemma vdist_sq (a b : vec R) :
  vdist a b * vdist a b = (vx a - vx b) * (vx a - vx b) + (vy a - vy b) * (vy a - vy b).
Proof. rewrite vdist_sqrt. apply sqrt_sqrt, sum_sq_nonneg. Qed.

Lemma vdist_comm (a b : vec R) : vdist a b = vdist b a.
Proof. rewrite !vdist_sqrt. f_equal. ring. Qed.

Lemma vdist_zero (a b : vec R) : vdist a b = 0 <-> a = b.
Proof.
  split.
  - intros E. pose proof (vdist_sq a b) as S. rewrite E in S.
    destruct (Rplus_sqr_eq_0 (vx a - vx b) (vy a - vy b)); [unfold Rsqr; lra|].
    apply vec_eq; lra.
  - intros ->. rewrite vdist_sqrt. replace (_ + _) with 0 by ring. apply sqrt_0.
Qed.

Lemma vdist_translate (a b d : vec R) : vdist (vadd a d) (vadd b d) = vdist a b.
Proof. rewrite !vdist_sqrt. cbn; rnum. f_equal. ring. Qed.

Lemma sq_le_abs x y : 0 <= y -> x * x <= y * y -> x <= y.
Proof. intros. destruct (Rle_lt_dec x y); auto. exfalso. nra. Qed.

Lemma cauchy2 a b c d : (a * c + b * d) * (a * c + b * d) <= (a * a + b * b) * (c * c + d * d).
Proof. pose proof (Rle_0_sqr (a * d - b * c)) as S. unfold Rsqr in S. nra. Qed.

Lemma vdist_triangle (a b c : vec R) : vdist a c <= vdist a b + vdist b c.
Proof.
  apply sq_le_abs.
  - pose proof (vdist_nonneg a b); pose proof (vdist_nonneg b c); lra.
  - pose proof (vdist_sq a b) as S1; pose proof (vdist_sq b c) as S2; pose proof (vdist_sq a c) as S3.
    pose proof (vdist_nonneg a b); pose proof (vdist_nonneg b c).
    set (p := vdist a b) in *. set (q := vdist b c) in *.
    assert (HC : (vx a - vx b) * (vx b - vx c) + (vy a - vy b) * (vy b - vy c) <= p * q).
    { apply sq_le_abs; [nra|]. pose proof (cauchy2 (vx a - vx b) (vy a - vy b) (vx b - vx c) (vy b - vy c)).
      rewrite <- S1, <- S2 in H1. nra. }
    rewrite S3. nra.
Qed.

Lemma vdist_abs_x (a b : vec R) : Rabs (vx a - vx b) <= vdist a b.
Proof.
  pose proof (vdist_nonneg a b) as N; pose proof (vdist_sq a b) as Q.
  pose proof (Rle_0_sqr (vx a - vx b)) as SX. pose proof (Rle_0_sqr (vy a - vy b)) as SY.
  unfold Rsqr in SX, SY. apply sq_le_abs; auto.
  rewrite <- Rabs_mult, Rabs_pos_eq; lra.
Qed.
Lemma vdist_abs_y (a b : vec R) : Rabs (vy a - vy b) <= vdist a b.
Proof.
  pose proof (vdist_nonneg a b) as N; pose proof (vdist_sq a b) as Q.
  pose proof (Rle_0_sqr (vx a - vx b)) as SX. pose proof (Rle_0_sqr (vy a - vy b)) as SY.
  unfold Rsqr in SX, SY. apply sq_le_abs; auto.
  rewrite <- Rabs_mult, Rabs_pos_eq; lra.
Qed.

Lemma vadd_assoc (a b c : vec R) : vadd (vadd a b) c = vadd a (vadd b c).
Proof. veq; ring. Qed.
Lemma vadd_comm (a b : vec R) : vadd a b = vadd b a.
Proof. veq; ring. Qed.
Lemma vadd_zero_r (a : vec R) : vadd a vzero = a.
Proof. veq; ring. Qed.
Lemma vsub_add (a d : vec R) : vsub (vadd a d) d = a.
Proof. veq; ring. Qed.
Lemma vadd_sub (a d : vec R) : vadd (vsub a d) d = a.
Proof. veq; ring. Qed.

Lemma reset_zero (t : R) (p : vec R) :
  reset_if_close t p = mkV (if Rltb (Rabs (vx p)) t then 0 else vx p)
                           (if Rltb (Rabs (vy p)) t then 0 else vy p).
Proof. reflexivity. Qed.
