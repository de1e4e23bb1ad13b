(** * Lemmas: Bezier deformation and bounding boxes *)

From Coq Require Import ZArith Reals Bool List Lra Lia Psatz.
From Flocq Require Import Core IEEE754.BinarySingleNaN.
From Verif Require Import Num Geometry Outcome Wobbly Spec SpecMesh LemBasic LemInv LemReal LemHistory LemSettle.
Import ListNotations.
Local Open Scope R_scope.

Ltac points16 pts L :=
  do 16 (destruct pts as [|? pts]; [discriminate L|]); destruct pts; [clear L|discriminate L].

Lemma deform_combination (pts : list (vec R)) (u v : R) :
  length pts = 16%nat -> deform_points (L:=R) pts (mkV u v) = combination (bezier_weights u v) pts.
Proof.
  intros L. points16 pts L.
  unfold deform_points, combination, bezier_weights, bezier_coefs.
  cbv beta iota zeta delta [map seq Nat.div Nat.modulo Nat.divmod Nat.sub fst snd bernstein combine sum bezier_rows bezier_row bezier_acc vx vy].
  rnum. f_equal; ring.
Qed.

Lemma bernstein_nonneg k t : 0 <= t <= 1 -> 0 <= bernstein k t.
Proof.
  intros H. assert (0 <= t) by lra. assert (0 <= 1 - t) by lra.
  destruct k as [|[|[|k]]]; cbn [bernstein]; repeat apply Rmult_le_pos; try apply pow_le; lra.
Qed.

Lemma bezier_weights_convex u v : 0 <= u <= 1 -> 0 <= v <= 1 -> convex_weights (bezier_weights u v).
Proof.
  intros Hu Hv. split.
  - intros w Hw. unfold bezier_weights in Hw. apply in_map_iff in Hw. destruct Hw as (i & <- & _).
    apply Rmult_le_pos; apply bernstein_nonneg; assumption.
  - unfold bezier_weights. cbn [map seq Nat.div Nat.modulo Nat.divmod Nat.sub fst snd bernstein sum]. ring.
Qed.

Lemma combination_half ws pts a b c :
  length ws = length pts -> (forall w, In w ws -> 0 <= w) -> (forall p, In p pts -> a * vx p + b * vy p <= c) ->
  a * vx (combination ws pts) + b * vy (combination ws pts) <= c * sum ws.
Proof.
  unfold combination. cbn [vx vy]. revert pts. induction ws as [|w ws IH]; intros [|p pts] L Hw Hp; try discriminate L.
  - simpl. lra.
  - cbn [combine map sum fst snd]. injection L as L.
    specialize (IH pts L (fun x H => Hw x (or_intror H)) (fun x H => Hp x (or_intror H))).
    assert (0 <= w) by (apply Hw; left; auto). assert (a * vx p + b * vy p <= c) by (apply Hp; left; auto).
    assert (w * (a * vx p + b * vy p) <= w * c) by (apply Rmult_le_compat_l; auto). nra.
Qed.

Lemma hull_half pts u v a b c :
  length pts = 16%nat -> 0 <= u <= 1 -> 0 <= v <= 1 -> (forall p, In p pts -> a * vx p + b * vy p <= c) ->
  let q := deform_points (L:=R) pts (mkV u v) in a * vx q + b * vy q <= c.
Proof.
  intros L Hu Hv Hp q. subst q. rewrite deform_combination by auto.
  destruct (bezier_weights_convex u v Hu Hv) as (W1 & W2).
  pose proof (combination_half (bezier_weights u v) pts a b c) as X. rewrite W2, Rmult_1_r in X. apply X; auto.
Qed.

Lemma deform_affine a b c d e f (pts : list (vec R)) (u v : R) :
  length pts = 16%nat ->
  deform_points (L:=R) (map (affine a b c d e f) pts) (mkV u v) =
  affine a b c d e f (deform_points (L:=R) pts (mkV u v)).
Proof.
  intros L. rewrite !deform_combination by (rewrite ?map_length; auto). points16 pts L.
  unfold combination, bezier_weights, affine.
  cbn [map seq Nat.div Nat.modulo Nat.divmod Nat.sub fst snd bernstein combine sum vx vy].
  f_equal; ring.
Qed.

Lemma deform_grid (p : vec R) (w h u v : R) :
  deform_points (L:=R) (position_array p (tile_size w h)) (mkV u v) = mkV (vx p + v * w) (vy p + u * h).
Proof.
  rewrite deform_combination by apply position_array_length.
  unfold combination, bezier_weights, position_array, tile_size, mesh_n, mesh_w, vadd.
  cbn [map seq Nat.div Nat.modulo Nat.divmod Nat.sub fst snd bernstein combine sum vx vy Z.of_nat Pos.of_succ_nat Pos.succ].
  rnum. f_equal; field.
Qed.

Lemma deform_translate (d : vec R) (pts : list (vec R)) (uv : vec R) :
  length pts = 16%nat ->
  deform_points (L:=R) (map (fun p => vadd p d) pts) uv = vadd (deform_points (L:=R) pts uv) d.
Proof.
  intros L. destruct uv as [u v]. destruct d as [dx dy].
  rewrite (map_ext _ (affine 1 0 0 1 dx dy)).
  - rewrite deform_affine by auto. unfold affine, vadd. cbn [vx vy]. rnum. f_equal; ring.
  - intros p. unfold affine, vadd. cbn [vx vy]. rnum. f_equal; ring.
Qed.

Lemma deform_corners (pts : list (vec R)) :
  length pts = 16%nat ->
  deform_points (L:=R) pts (mkV 0 0) = nth 0 pts vzero /\ deform_points (L:=R) pts (mkV 0 1) = nth 3 pts vzero /\
  deform_points (L:=R) pts (mkV 1 0) = nth 12 pts vzero /\ deform_points (L:=R) pts (mkV 1 1) = nth 15 pts vzero.
Proof.
  intros L. rewrite !deform_combination by auto. points16 pts L.
  unfold combination, bezier_weights.
  cbn [map seq Nat.div Nat.modulo Nat.divmod Nat.sub fst snd bernstein combine sum vx vy nth].
  repeat split; apply vec_eq; cbn [vx vy]; ring.
Qed.

(** ** The corners in IEEE arithmetic *)

Lemma format_widen x :
  generic_format radix2 (SpecFloat.fexp 53 1024) x -> generic_format radix2 (SpecFloat.fexp 64 16384) x.
Proof.
  apply generic_inclusion_mag. intros _. unfold SpecFloat.fexp, SpecFloat.emin. lia.
Qed.

Lemma f64_bound (x : f64) : is_finite x = true -> Rabs (B2R x) < bpow radix2 1024.
Proof. intros _. apply abs_B2R_lt_emax. Qed.

Lemma widen_finite (x : f64) :
  is_finite x = true -> is_finite (widen x : f80) = true /\ B2R (widen x : f80) = B2R x.
Proof.
  intros F. destruct x as [s|s| |s m e He]; try discriminate F; [split; reflexivity|].
  cbn [widen Conv_f64_f80 bconv].
  assert (G : generic_format radix2 (SpecFloat.fexp 64 16384) (F2R (Float radix2 (cond_Zopp s (Zpos m)) e))).
  { apply format_widen. apply (generic_format_B2R 53 1024 (B754_finite s m e He)). }
  pose proof (binary_normalize_correct 64 16384 Hprec80 Hemax80 mode_NE (cond_Zopp s (Zpos m)) e s) as C.
  cbv zeta in C. rewrite (round_generic radix2 (SpecFloat.fexp 64 16384) _ _ G) in C.
  rewrite Rlt_bool_true in C.
  - destruct C as (C1 & C2 & _). split; assumption.
  - apply Rlt_trans with (bpow radix2 1024); [|apply bpow_lt; lia].
    apply (f64_bound (B754_finite s m e He)). reflexivity.
Qed.

Lemma narrow_finite (x : f80) (y : f64) :
  is_finite x = true -> is_finite y = true -> B2R x = B2R y ->
  is_finite (narrow x : f64) = true /\ B2R (narrow x : f64) = B2R y.
Proof.
  intros Fx Fy E. destruct x as [s|s| |s m e He]; try discriminate Fx; [split; [reflexivity|exact E]|].
  cbn [narrow Conv_f64_f80 bconv]. cbn [B2R] in E.
  assert (G : generic_format radix2 (SpecFloat.fexp 53 1024) (F2R (Float radix2 (cond_Zopp s (Zpos m)) e))).
  { rewrite E. apply generic_format_B2R. }
  pose proof (binary_normalize_correct 53 1024 Hprec64 Hemax64 mode_NE (cond_Zopp s (Zpos m)) e s) as C.
  cbv zeta in C. rewrite (round_generic radix2 (SpecFloat.fexp 53 1024) _ _ G) in C.
  rewrite Rlt_bool_true in C.
  - destruct C as (C1 & C2 & _). split; [assumption|]. rewrite C1. exact E.
  - rewrite E. apply f64_bound; auto.
Qed.

Lemma plus_finite (a b : f80) (y : f64) :
  is_finite a = true -> is_finite b = true -> is_finite y = true -> B2R a + B2R b = B2R y ->
  is_finite (nadd a b) = true /\ B2R (nadd a b) = B2R y.
Proof.
  intros Fa Fb Fy E.
  pose proof (Bplus_correct 64 16384 Hprec80 Hemax80 mode_NE a b Fa Fb) as C. rewrite E in C.
  rewrite (round_generic radix2 (SpecFloat.fexp 64 16384) _ _ (format_widen _ (generic_format_B2R 53 1024 y))) in C.
  rewrite Rlt_bool_true in C.
  - destruct C as (C1 & C2 & _). split; assumption.
  - apply Rlt_trans with (bpow radix2 1024); [apply f64_bound; auto|apply bpow_lt; lia].
Qed.

Lemma mult_finite (a b : f80) (y : f64) :
  is_finite a = true -> is_finite b = true -> is_finite y = true -> B2R a * B2R b = B2R y ->
  is_finite (nmul a b) = true /\ B2R (nmul a b) = B2R y.
Proof.
  intros Fa Fb Fy E.
  pose proof (Bmult_correct 64 16384 Hprec80 Hemax80 mode_NE a b) as C. rewrite E in C.
  rewrite (round_generic radix2 (SpecFloat.fexp 64 16384) _ _ (format_widen _ (generic_format_B2R 53 1024 y))) in C.
  rewrite Rlt_bool_true in C.
  - destruct C as (C1 & C2 & _). rewrite Fa, Fb in C2. split; assumption.
  - apply Rlt_trans with (bpow radix2 1024); [apply f64_bound; auto|apply bpow_lt; lia].
Qed.

(** One accumulation with an exact weight. *)
Lemma acc_exact (uc vc : f80) (m acc r : f64) :
  is_finite (nmul uc vc) = true -> is_finite m = true -> is_finite acc = true -> is_finite r = true ->
  (B2R (nmul uc vc) = 0 /\ B2R r = B2R acc \/ B2R (nmul uc vc) = 1 /\ B2R acc = 0 /\ B2R r = B2R m) ->
  is_finite (bezier_acc uc vc m acc) = true /\ B2R (bezier_acc uc vc m acc) = B2R r.
Proof.
  intros Fw Fm Fa Fr W. unfold bezier_acc.
  destruct (widen_finite acc Fa) as (WA1 & WA2). destruct (widen_finite m Fm) as (WM1 & WM2).
  assert (P : exists y : f64, is_finite y = true /\ B2R (nmul uc vc) * B2R (widen m : f80) = B2R y /\
              B2R acc + B2R y = B2R r).
  { rewrite WM2. destruct W as [(-> & ->)|(-> & E0 & ->)].
    - exists (B754_zero false). repeat split; simpl; ring.
    - exists m. rewrite E0. repeat split; auto; ring. }
  destruct P as (y & Fy & Ey & Es).
  destruct (mult_finite _ _ y Fw WM1 Fy Ey) as (F1 & E1).
  destruct (plus_finite (widen acc) (nmul (nmul uc vc) (widen m)) r WA1 F1 Fr) as (F2 & E2).
  { rewrite WA2, E1. exact Es. }
  apply narrow_finite; auto.
Qed.

Definition finite_vec (p : vec f64) : Prop := is_finite (vx p) = true /\ is_finite (vy p) = true.
Definition same_value (p q : vec f64) : Prop :=
  finite_vec p /\ B2R (vx p) = B2R (vx q) /\ B2R (vy p) = B2R (vy q).

(** The same accumulation on points. *)
Lemma acc_point (uc vc : f80) (m acc r : vec f64) :
  is_finite (nmul uc vc) = true -> finite_vec m -> finite_vec acc -> finite_vec r ->
  (B2R (nmul uc vc) = 0 /\ same_value r acc \/ B2R (nmul uc vc) = 1 /\ same_value acc (mkV (B754_zero false) (B754_zero false)) /\ r = m) ->
  same_value (mkV (bezier_acc uc vc (vx m) (vx acc)) (bezier_acc uc vc (vy m) (vy acc))) r.
Proof.
  intros Fw (M1 & M2) (A1 & A2) (R1 & R2) W.
  destruct (acc_exact uc vc (vx m) (vx acc) (vx r) Fw M1 A1 R1) as (X1 & X2).
  { destruct W as [(W & _ & E & _)|(W & (_ & E & _) & ->)]; [left|right]; auto. }
  destruct (acc_exact uc vc (vy m) (vy acc) (vy r) Fw M2 A2 R2) as (Y1 & Y2).
  { destruct W as [(W & _ & _ & E)|(W & (_ & _ & E) & ->)]; [left|right]; auto. }
  split; [split; assumption|split; assumption].
Qed.

Definition acc_step (acc : vec f64) (wp : (f80 * f80) * vec f64) : vec f64 :=
  mkV (bezier_acc (fst (fst wp)) (snd (fst wp)) (vx (snd wp)) (vx acc))
      (bezier_acc (fst (fst wp)) (snd (fst wp)) (vy (snd wp)) (vy acc)).

Lemma same_value_refl p : finite_vec p -> same_value p p.
Proof. intros F. split; [exact F|auto]. Qed.
Lemma same_value_trans p q r : same_value p q -> same_value q r -> same_value p r.
Proof. intros (F & A & B) (_ & C & D). split; [exact F|]. split; congruence. Qed.
Lemma same_value_sym p q : finite_vec q -> same_value p q -> same_value q p.
Proof. intros F (_ & A & B). split; [exact F|]. split; congruence. Qed.

Definition weight_zero (w : f80 * f80) : Prop := is_finite (nmul (fst w) (snd w)) = true /\ B2R (nmul (fst w) (snd w)) = 0.
Definition weight_one (w : f80 * f80) : Prop := is_finite (nmul (fst w) (snd w)) = true /\ B2R (nmul (fst w) (snd w)) = 1.

Lemma acc_zeros : forall l acc,
  finite_vec acc -> Forall (fun wp => weight_zero (fst wp) /\ finite_vec (snd wp)) l ->
  same_value (fold_left acc_step l acc) acc.
Proof.
  induction l as [|[w p] l IH]; intros acc Fa H; [apply same_value_refl; auto|].
  inversion H as [|x y ((W1 & W2) & Fp) Hl]; subst. cbn [fold_left].
  assert (S : same_value (acc_step acc (w, p)) acc).
  { unfold acc_step. apply acc_point; auto. left. split; [exact W2|apply same_value_refl; auto]. }
  apply same_value_trans with (acc_step acc (w, p)); [|exact S]. apply IH; [apply S|auto].
Qed.

Lemma acc_one l1 w p l2 acc :
  same_value acc (mkV (B754_zero false) (B754_zero false)) -> weight_one w -> finite_vec p ->
  Forall (fun wp => weight_zero (fst wp) /\ finite_vec (snd wp)) (l1 ++ l2) ->
  same_value (fold_left acc_step (l1 ++ (w, p) :: l2) acc) p.
Proof.
  intros Z (W1 & W2) Fp H. apply Forall_app in H. destruct H as (H1 & H2). rewrite fold_left_app. cbn [fold_left].
  assert (S1 : same_value (fold_left acc_step l1 acc) acc) by (apply acc_zeros; [apply Z|auto]).
  assert (S2 : same_value (acc_step (fold_left acc_step l1 acc) (w, p)) p).
  { unfold acc_step at 1. apply acc_point; auto; [apply S1|]. right. split; [exact W2|]. split; [|reflexivity].
    eapply same_value_trans; eauto. }
  eapply same_value_trans; [|exact S2]. apply acc_zeros; [apply S2|auto].
Qed.

Lemma combine_app {A B} (a a' : list A) (b b' : list B) :
  length a = length b -> combine (a ++ a') (b ++ b') = combine a b ++ combine a' b'.
Proof. revert b. induction a; intros [|y b] H; try discriminate H; auto. simpl. f_equal. apply IHa. auto. Qed.

Lemma row_fold uc : forall vcs pts acc,
  (length vcs <= length pts)%nat ->
  bezier_row uc vcs pts acc =
  (fold_left acc_step (combine (map (pair uc) vcs) (firstn (length vcs) pts)) acc, skipn (length vcs) pts).
Proof.
  induction vcs as [|vc vcs IH]; intros pts acc L; [destruct pts; reflexivity|].
  destruct pts as [|p pts]; [simpl in L; lia|]. cbn [bezier_row map length firstn skipn combine fold_left].
  rewrite IH by (simpl in L; lia). reflexivity.
Qed.

Lemma rows_fold vcs : forall ucs pts acc,
  length pts = (length ucs * length vcs)%nat ->
  bezier_rows ucs vcs pts acc = fold_left acc_step (combine (list_prod ucs vcs) pts) acc.
Proof.
  induction ucs as [|uc ucs IH]; intros pts acc L; [reflexivity|]. cbn [bezier_rows list_prod length Nat.mul] in *.
  rewrite row_fold by lia. rewrite IH by (rewrite skipn_length; lia).
  rewrite <- fold_left_app, <- combine_app by (rewrite map_length, firstn_length; lia). rewrite firstn_skipn. reflexivity.
Qed.

Lemma value_equal p q : finite_vec p -> finite_vec q -> same_value p q -> vequals p q = true.
Proof.
  intros (P1 & P2) (Q1 & Q2) (_ & X & Y). unfold vequals. cbn [neqb Num_f64 Num_IEEE].
  rewrite !Beqb_correct by auto. rewrite X, Y, !Req_bool_true by auto. reflexivity.
Qed.

Definition one80 : f80 := nof 1.
Definition zero80 : f80 := B754_zero false.
Lemma map_B2SF_inj : forall l l' : list f80, map B2SF l = map B2SF l' -> l = l'.
Proof.
  induction l as [|a l IH]; intros [|b l'] H; try discriminate H; [reflexivity|].
  injection H as H1 H2. f_equal; [apply B2SF_inj; exact H1|apply IH; exact H2].
Qed.
Lemma coefs_zero : bezier_coefs (L:=f80) (nof 0 : f64) = [one80; zero80; zero80; zero80].
Proof. apply map_B2SF_inj. vm_compute. reflexivity. Qed.
Lemma coefs_one : bezier_coefs (L:=f80) (nof 1 : f64) = [zero80; zero80; zero80; one80].
Proof. apply map_B2SF_inj. vm_compute. reflexivity. Qed.

Lemma mul_zz : nmul zero80 zero80 = zero80. Proof. apply B2SF_inj. vm_compute. reflexivity. Qed.
Lemma mul_zo : nmul zero80 one80 = zero80. Proof. apply B2SF_inj. vm_compute. reflexivity. Qed.
Lemma mul_oz : nmul one80 zero80 = zero80. Proof. apply B2SF_inj. vm_compute. reflexivity. Qed.
Lemma mul_oo : nmul one80 one80 = one80. Proof. apply B2SF_inj. vm_compute. reflexivity. Qed.
Lemma nzero_64 : (nzero : f64) = B754_zero false. Proof. vm_compute. reflexivity. Qed.
Lemma weight_00 : weight_zero (zero80, zero80). Proof. unfold weight_zero. cbn [fst snd]. rewrite mul_zz. split; reflexivity. Qed.
Lemma weight_01 : weight_zero (zero80, one80). Proof. unfold weight_zero. cbn [fst snd]. rewrite mul_zo. split; reflexivity. Qed.
Lemma weight_10 : weight_zero (one80, zero80). Proof. unfold weight_zero. cbn [fst snd]. rewrite mul_oz. split; reflexivity. Qed.
Lemma weight_11 : weight_one (one80, one80).
Proof.
  unfold weight_one. cbn [fst snd]. rewrite mul_oo. split; [vm_compute; reflexivity|].
  unfold one80. cbn [nof Num_f80 Num_IEEE].
  pose proof (binary_normalize_correct 64 16384 Hprec80 Hemax80 mode_NE 1 0 false) as C. cbv zeta in C.
  assert (X : F2R (Float radix2 1 0) = 1) by (unfold F2R; simpl; ring). rewrite X in C.
  assert (G : generic_format radix2 (SpecFloat.fexp 64 16384) 1).
  { rewrite <- (Rmult_1_r 1) at 1. change 1 with (bpow radix2 0) at 2.
    rewrite Rmult_1_l. apply generic_format_bpow. unfold SpecFloat.fexp, SpecFloat.emin. lia. }
  rewrite (round_generic radix2 _ _ _ G), Rlt_bool_true in C by
    (rewrite Rabs_R1; change 1 with (bpow radix2 0); apply bpow_lt; lia).
  apply C.
Qed.


Section Corners.
Context (z o : f80) (p : list (vec f64)).
Context (W00 : weight_zero (z, z)) (W01 : weight_zero (z, o)) (W10 : weight_zero (o, z)) (W11 : weight_one (o, o)).
Context (L : length p = 16%nat) (F : Forall finite_vec p).
Context (z0 : vec f64) (Z : same_value z0 (mkV (B754_zero false) (B754_zero false))).

Definition ok_pair (wp : (f80 * f80) * vec f64) : Prop := weight_zero (fst wp) /\ finite_vec (snd wp).

Lemma corner_at ws i q :
  length ws = 16%nat -> nth_error p i = Some q -> nth_error ws i = Some (o, o) ->
  Forall weight_zero (firstn i ws) -> Forall weight_zero (skipn (S i) ws) ->
  vequals (fold_left acc_step (combine ws p) z0) q = true.
Proof.
  intros Lw Eq Ew H1 H2.
  assert (S : same_value (fold_left acc_step (combine ws p) z0) q).
  { destruct (nth_error_split _ _ Eq) as (p1 & p2 & Ep & Lp). destruct (nth_error_split _ _ Ew) as (w1 & w2 & Es & Ls).
    subst i. rewrite Es, Ep, combine_app by auto.
    cbn [combine]. rewrite Forall_forall in F.
    apply acc_one; auto; [apply F; rewrite Ep; apply in_elt|].
    rewrite Es, <- Ls, firstn_app, Nat.sub_diag, firstn_all in H1. cbn [firstn] in H1. rewrite app_nil_r in H1.
    rewrite Es, skipn_app in H2. replace (S (length p1) - length w1)%nat with 1%nat in H2 by lia.
    rewrite (skipn_all2 w1) in H2 by lia. cbn [app skipn] in H2.
    apply Forall_forall. intros [w x] Hx. apply in_app_or in Hx.
    rewrite Forall_forall in H1, H2.
    destruct Hx as [Hx|Hx]; pose proof (in_combine_l _ _ _ _ Hx); pose proof (in_combine_r _ _ _ _ Hx);
      (split; [auto|apply F; rewrite Ep; apply in_or_app; simpl; auto]). }
  apply value_equal; auto; [apply S|]. rewrite Forall_forall in F. apply F. eapply nth_error_In; eauto.
Qed.
End Corners.

Lemma corners_abstract (z o : f80) (pts : list (vec f64)) z0 (p0 p3 p12 p15 : vec f64) :
  weight_zero (z, z) -> weight_zero (z, o) -> weight_zero (o, z) -> weight_one (o, o) ->
  length pts = 16%nat -> Forall finite_vec pts -> same_value z0 (mkV (B754_zero false) (B754_zero false)) ->
  nth_error pts 0 = Some p0 -> nth_error pts 3 = Some p3 -> nth_error pts 12 = Some p12 -> nth_error pts 15 = Some p15 ->
  vequals (bezier_rows [o; z; z; z] [o; z; z; z] pts z0) p0 = true /\
  vequals (bezier_rows [o; z; z; z] [z; z; z; o] pts z0) p3 = true /\
  vequals (bezier_rows [z; z; z; o] [o; z; z; z] pts z0) p12 = true /\
  vequals (bezier_rows [z; z; z; o] [z; z; z; o] pts z0) p15 = true.
Proof.
  intros W00 W01 W10 W11 L F Z E0 E3 E12 E15. rewrite !rows_fold by auto. cbn [list_prod map app].
  assert (K : forall l, Forall (fun w => w = (z, z) \/ w = (z, o) \/ w = (o, z)) l -> Forall weight_zero l).
  { intros l. apply Forall_impl. intros w [->|[->| ->]]; auto. }
  split; [|split; [|split]].
  - apply corner_at with (o := o) (i := 0%nat); auto; apply K; cbn [firstn skipn]; repeat (apply Forall_cons; [auto|]); apply Forall_nil.
  - apply corner_at with (o := o) (i := 3%nat); auto; apply K; cbn [firstn skipn]; repeat (apply Forall_cons; [auto|]); apply Forall_nil.
  - apply corner_at with (o := o) (i := 12%nat); auto; apply K; cbn [firstn skipn]; repeat (apply Forall_cons; [auto|]); apply Forall_nil.
  - apply corner_at with (o := o) (i := 15%nat); auto; apply K; cbn [firstn skipn]; repeat (apply Forall_cons; [auto|]); apply Forall_nil.
Qed.

Lemma deform_corners_f64 (pts : list (vec f64)) (p0 p3 p12 p15 : vec f64) :
  length pts = 16%nat -> (forall p, In p pts -> is_finite (vx p) = true /\ is_finite (vy p) = true) ->
  nth_error pts 0 = Some p0 -> nth_error pts 3 = Some p3 -> nth_error pts 12 = Some p12 -> nth_error pts 15 = Some p15 ->
  vequals (deform_points (L:=f80) pts (mkV (nof 0) (nof 0))) p0 = true /\
  vequals (deform_points (L:=f80) pts (mkV (nof 0) (nof 1))) p3 = true /\
  vequals (deform_points (L:=f80) pts (mkV (nof 1) (nof 0))) p12 = true /\
  vequals (deform_points (L:=f80) pts (mkV (nof 1) (nof 1))) p15 = true.
Proof.
  intros L F E0 E3 E12 E15. unfold deform_points. cbn [vx vy]. rewrite coefs_zero, coefs_one, nzero_64.
  apply corners_abstract; auto using weight_00, weight_01, weight_10, weight_11.
  - apply Forall_forall. exact F.
  - repeat split.
Qed.

(** ** Extremes *)

Definition rd (x : R) : R := IZR (ZnearestA x).

Lemma rd_mono x y : x <= y -> rd x <= rd y.
Proof. intros. apply IZR_le. apply (valid_rnd_N (Zle_bool 0)). auto. Qed.
Lemma rd_idem x : rd (rd x) = rd x.
Proof. unfold rd. f_equal. apply (@Zrnd_IZR ZnearestA (valid_rnd_N _)). Qed.
Lemma rd_min x y : rd (Rmin x y) = Rmin (rd x) (rd y).
Proof.
  unfold Rmin at 1. destruct (Rle_dec x y).
  - rewrite Rmin_left; auto. apply rd_mono; auto.
  - rewrite Rmin_right; auto. apply rd_mono; lra.
Qed.
Lemma rd_max x y : rd (Rmax x y) = Rmax (rd x) (rd y).
Proof.
  unfold Rmax at 1. destruct (Rle_dec x y).
  - rewrite Rmax_right; auto. apply rd_mono; auto.
  - rewrite Rmax_left; auto. apply rd_mono; lra.
Qed.

Lemma rd_rounds x : rounds_to x (ZnearestA x).
Proof.
  pose proof (Znearest_half (Zle_bool 0) x) as H.
  destruct (Rle_lt_or_eq_dec _ _ H) as [L|E]; [left; lra|]. right. split; [lra|].
  unfold Znearest in *. pose proof (Zfloor_lb x) as F1. pose proof (Zfloor_ub x) as F2.
  destruct (Req_dec (x - IZR (Zfloor x)) (/2)) as [T|T].
  - rewrite Rcompare_Eq in * by auto. destruct (Zle_bool 0 (Zfloor x)) eqn:Z0.
    + apply Zle_bool_imp_le in Z0. apply IZR_le in Z0.
      assert (C : Zceil x = (Zfloor x + 1)%Z) by (apply Zceil_floor_neq; intros X; rewrite X in T; lra).
      rewrite C, plus_IZR. rewrite !Rabs_right; lra.
    + apply Z.leb_gt in Z0. assert (Zf : IZR (Zfloor x) <= -1) by (apply IZR_le; lia).
      rewrite (Rabs_left1 (IZR (Zfloor x))) by lra. rewrite Rabs_left1 by lra. lra.
  - exfalso. revert E. destruct (Rcompare_spec (x - IZR (Zfloor x)) (/2)) as [L|L|L]; intros E; [|lra|].
    + rewrite Rabs_right in E by lra. lra.
    + assert (C : Zceil x = (Zfloor x + 1)%Z) by (apply Zceil_floor_neq; intros X; rewrite X in L; lra).
      rewrite C, plus_IZR in E. rewrite Rabs_left in E by lra. lra.
Qed.

Fixpoint lmin (x : R) (l : list R) : R := match l with [] => x | y :: t => lmin (Rmin x y) t end.
Fixpoint lmax (x : R) (l : list R) : R := match l with [] => x | y :: t => lmax (Rmax x y) t end.

Lemma lmin_least l : forall x, least (x :: l) (lmin x l).
Proof.
  induction l as [|y l IH]; intros x; cbn [lmin].
  - split; [left; auto|]. intros y [->|[]]. lra.
  - destruct (IH (Rmin x y)) as (I & M). split.
    + destruct I as [I|I]; [|right; right; exact I]. rewrite <- I. unfold Rmin. destruct (Rle_dec x y); [left|right; left]; auto.
    + assert (Hm : lmin (Rmin x y) l <= Rmin x y) by (apply M; left; auto).
      pose proof (Rmin_l x y). pose proof (Rmin_r x y).
      intros z [<-|[<-|Hz]]; [lra|lra|apply M; right; auto].
Qed.
Lemma lmax_greatest l : forall x, greatest (x :: l) (lmax x l).
Proof.
  induction l as [|y l IH]; intros x; cbn [lmax].
  - split; [left; auto|]. intros y [->|[]]. lra.
  - destruct (IH (Rmax x y)) as (I & M). split.
    + destruct I as [I|I]; [|right; right; exact I]. rewrite <- I. unfold Rmax. destruct (Rle_dec x y); [right; left|left]; auto.
    + assert (Hm : Rmax x y <= lmax (Rmax x y) l) by (apply M; left; auto).
      pose proof (Rmax_l x y). pose proof (Rmax_r x y).
      intros z [<-|[<-|Hz]]; [lra|lra|apply M; right; auto].
Qed.

Lemma ext_fold l : forall a b c d,
  fold_left ext_step l (mkV (rd a) (rd c), mkV (rd b) (rd c), mkV (rd a) (rd d), mkV (rd b) (rd d)) =
  let a' := lmin a (map vx l) in let b' := lmax b (map vx l) in
  let c' := lmin c (map vy l) in let d' := lmax d (map vy l) in
  (mkV (rd a') (rd c'), mkV (rd b') (rd c'), mkV (rd a') (rd d'), mkV (rd b') (rd d')).
Proof.
  induction l as [|p l IH]; intros a b c d; [reflexivity|]. cbn [fold_left map lmin lmax].
  rewrite <- IH. f_equal. unfold ext_step, point_round, vmap. cbn [vx vy]. rewrite !nmin2_R, !nmax2_R. rnum.
  change (fun x : R => IZR (ZnearestA x)) with rd.
  assert (A : forall x y, IZR (ZnearestA (Rmin (rd x) y)) = rd (Rmin x y)).
  { intros x y. change (rd (Rmin (rd x) y) = rd (Rmin x y)). rewrite !rd_min, rd_idem. reflexivity. }
  assert (B : forall x y, IZR (ZnearestA (Rmax (rd x) y)) = rd (Rmax x y)).
  { intros x y. change (rd (Rmax (rd x) y) = rd (Rmax x y)). rewrite !rd_max, rd_idem. reflexivity. }
  rewrite !A, !B. reflexivity.
Qed.

Lemma extremes_box (pts : list (vec R)) :
  pts <> [] -> (forall p, In p pts -> Rabs (vx p) <= Rmaxv /\ Rabs (vy p) <= Rmaxv) ->
  exists x0 x1 y0 y1 (a b c d : Z),
    least (map vx pts) x0 /\ greatest (map vx pts) x1 /\ least (map vy pts) y0 /\ greatest (map vy pts) y1 /\
    rounds_to x0 a /\ rounds_to x1 b /\ rounds_to y0 c /\ rounds_to y1 d /\
    extremes_of pts = (mkV (IZR a) (IZR c), mkV (IZR b) (IZR c), mkV (IZR a) (IZR d), mkV (IZR b) (IZR d)).
Proof.
  intros Hn Hb. destruct pts as [|p l]; [congruence|].
  exists (lmin (vx p) (map vx l)), (lmax (vx p) (map vx l)), (lmin (vy p) (map vy l)), (lmax (vy p) (map vy l)).
  do 4 eexists. cbn [map].
  split; [apply lmin_least|]. split; [apply lmax_greatest|]. split; [apply lmin_least|]. split; [apply lmax_greatest|].
  split; [apply rd_rounds|]. split; [apply rd_rounds|]. split; [apply rd_rounds|]. split; [apply rd_rounds|].
  destruct (Hb p (or_introl eq_refl)) as (Bx & By). apply Rabs_le_inv in Bx. apply Rabs_le_inv in By.
  unfold extremes_of. cbn [fold_left]. pose proof (ext_fold l (vx p) (vx p) (vy p) (vy p)) as E. cbv zeta in E.
  unfold rd in E. rewrite <- E. f_equal. unfold ext_step, point_round, vmap. cbn [vx vy]. rewrite !nmin2_R, !nmax2_R. rnum.
  rewrite !Rmin_right, !Rmax_right by lra. reflexivity.
Qed.

Lemma rounds_near x n : rounds_to x n -> Rabs (x - IZR n) <= 1 / 2.
Proof. intros [?|[? _]]; lra. Qed.

Lemma extremes_near (pts : list (vec R)) p :
  (forall p, In p pts -> Rabs (vx p) <= Rmaxv /\ Rabs (vy p) <= Rmaxv) -> In p pts ->
  let '(tl, tr, bl, br) := extremes_of pts in
  vx tl - 1 / 2 <= vx p <= vx br + 1 / 2 /\ vy tl - 1 / 2 <= vy p <= vy br + 1 / 2.
Proof.
  intros Hb Hp. destruct (extremes_box pts) as (x0 & x1 & y0 & y1 & a & b & c & d & L1 & G1 & L2 & G2 & R1 & R2 & R3 & R4 & ->);
    [intros ->; destruct Hp|auto|].
  cbn [vx vy]. apply rounds_near in R1, R2, R3, R4. apply Rabs_le_inv in R1, R2, R3, R4.
  assert (x0 <= vx p) by (apply L1, in_map; auto). assert (vx p <= x1) by (apply G1, in_map; auto).
  assert (y0 <= vy p) by (apply L2, in_map; auto). assert (vy p <= y1) by (apply G2, in_map; auto). lra.
Qed.

Lemma extremes_rounded (pts : list (vec R)) p (i j : Z) :
  (forall p, In p pts -> Rabs (vx p) <= Rmaxv /\ Rabs (vy p) <= Rmaxv) -> In p pts ->
  rounds_to (vx p) i -> rounds_to (vy p) j ->
  let '(tl, tr, bl, br) := extremes_of pts in vx tl <= IZR i <= vx br /\ vy tl <= IZR j <= vy br.
Proof.
  intros Hb Hp Hi Hj.
  destruct (extremes_box pts) as (x0 & x1 & y0 & y1 & a & b & c & d & L1 & G1 & L2 & G2 & R1 & R2 & R3 & R4 & ->);
    [intros ->; destruct Hp|auto|].
  cbn [vx vy].
  assert (M : forall x y m n, x <= y -> rounds_to x m -> rounds_to y n -> IZR m <= IZR n).
  { intros x y m n Hxy Hm Hn. destruct (Rle_lt_dec (IZR m) (IZR n)) as [|G]; auto. exfalso.
    assert (G' : IZR n + 1 <= IZR m) by (rewrite <- plus_IZR; apply IZR_le; apply lt_IZR in G; lia).
    pose proof (rounds_near _ _ Hm) as A. pose proof (rounds_near _ _ Hn) as B.
    apply Rabs_le_inv in A. apply Rabs_le_inv in B.
    assert (Ex : x = y /\ x = IZR n + 1 / 2 /\ IZR m = IZR n + 1) by lra. destruct Ex as (-> & E1 & E2).
    destruct Hm as [Hm|(_ & Hm)]; [rewrite E1, E2 in Hm; rewrite Rabs_left in Hm; lra|].
    destruct Hn as [Hn|(_ & Hn)]; [rewrite E1 in Hn; rewrite Rabs_right in Hn; lra|].
    rewrite E1, E2 in *. destruct (Z_le_gt_dec 0 n) as [P|P].
    - apply IZR_le in P. rewrite !Rabs_right in Hn by lra. lra.
    - assert (P' : IZR n <= -1) by (apply IZR_le; lia). rewrite !Rabs_left1 in Hm by lra. lra. }
  repeat split.
  - eapply M; [|exact R1|exact Hi]. apply L1, in_map; auto.
  - eapply M; [|exact Hi|exact R2]. apply G1, in_map; auto.
  - eapply M; [|exact R3|exact Hj]. apply L2, in_map; auto.
  - eapply M; [|exact Hj|exact R4]. apply G2, in_map; auto.
Qed.

(** ** On reachable models *)

Section Reached.
Context (p : vec R) (w h : R) (st : settings R) (ops : list (op R)) (m : model R).
Context (Hr : reached p w h st ops m).
Let L : length (mpos m) = 16%nat := inv_pos _ (inv_reached _ _ _ _ _ _ Hr).

Lemma corners_reached :
  nth_error (mpos m) 0 = Some (deform_texcoords (L:=R) m (mkV 0 0)) /\
  nth_error (mpos m) 3 = Some (deform_texcoords (L:=R) m (mkV 0 1)) /\
  nth_error (mpos m) 12 = Some (deform_texcoords (L:=R) m (mkV 1 0)) /\
  nth_error (mpos m) 15 = Some (deform_texcoords (L:=R) m (mkV 1 1)).
Proof.
  unfold deform_texcoords. destruct (deform_corners _ L) as (-> & -> & -> & ->).
  repeat split; apply nth_error_nth'; rewrite L; lia.
Qed.

Lemma convex_reached u v :
  0 <= u <= 1 -> 0 <= v <= 1 ->
  convex_weights (bezier_weights u v) /\ length (bezier_weights u v) = length (mpos m) /\
  deform_texcoords (L:=R) m (mkV u v) = combination (bezier_weights u v) (mpos m).
Proof.
  intros Hu Hv. split; [apply bezier_weights_convex; auto|]. split; [rewrite L; reflexivity|].
  apply deform_combination; auto.
Qed.

Lemma hull_reached u v a b c :
  0 <= u <= 1 -> 0 <= v <= 1 -> (forall q, In q (mpos m) -> a * vx q + b * vy q <= c) ->
  a * vx (deform_texcoords (L:=R) m (mkV u v)) + b * vy (deform_texcoords (L:=R) m (mkV u v)) <= c.
Proof. intros. apply hull_half; auto. Qed.

Lemma affine_reached a b c d e f uv :
  deform_texcoords (L:=R) (set_pos m (map (affine a b c d e f) (mpos m))) uv =
  affine a b c d e f (deform_texcoords (L:=R) m uv).
Proof. destruct uv as [u v]. apply deform_affine; auto. Qed.

Lemma extremes_reached :
  (forall q, In q (mpos m) -> Rabs (vx q) <= Rmaxv /\ Rabs (vy q) <= Rmaxv) ->
  exists x0 x1 y0 y1 (a b c d : Z),
    least (map vx (mpos m)) x0 /\ greatest (map vx (mpos m)) x1 /\
    least (map vy (mpos m)) y0 /\ greatest (map vy (mpos m)) y1 /\
    rounds_to x0 a /\ rounds_to x1 b /\ rounds_to y0 c /\ rounds_to y1 d /\
    extremes m = (mkV (IZR a) (IZR c), mkV (IZR b) (IZR c), mkV (IZR a) (IZR d), mkV (IZR b) (IZR d)).
Proof. intros B. apply extremes_box; auto. intros E. rewrite E in L. discriminate L. Qed.
End Reached.

Lemma corners_reached_f64 (p : vec f64) w h st ops (m : model f64) p0 p3 p12 p15 :
  reached p w h st ops m ->
  (forall q, In q (mpos m) -> is_finite (vx q) = true /\ is_finite (vy q) = true) ->
  nth_error (mpos m) 0 = Some p0 -> nth_error (mpos m) 3 = Some p3 ->
  nth_error (mpos m) 12 = Some p12 -> nth_error (mpos m) 15 = Some p15 ->
  vequals (deform_texcoords (L:=f80) m (mkV (nof 0) (nof 0))) p0 = true /\
  vequals (deform_texcoords (L:=f80) m (mkV (nof 0) (nof 1))) p3 = true /\
  vequals (deform_texcoords (L:=f80) m (mkV (nof 1) (nof 0))) p12 = true /\
  vequals (deform_texcoords (L:=f80) m (mkV (nof 1) (nof 1))) p15 = true.
Proof. intros Hr F. apply deform_corners_f64; auto. apply (inv_pos _ (inv_reached _ _ _ _ _ _ Hr)). Qed.

Lemma fresh_reached {T} `{Num T} (p : vec T) w h st : reached p w h st [] (model_init p w h st 0).
Proof. exists 1%nat, 0%Z, []. reflexivity. Qed.

Lemma half_box :
  let m := model_init (mkV (1 / 2) 0) 90 60 (mkSettings 8 3 500) 0 in
  exists q, In q (mpos m) /\ (let '(tl, tr, bl, br) := extremes m in vx q < vx tl).
Proof.
  intros m. exists (mkV (1 / 2) 0). 
  assert (I : In (mkV (1 / 2) 0) (mpos m)).
  { apply nth_error_In with 0%nat. apply grid_nth0. }
  split; [exact I|].
  assert (B : forall q, In q (mpos m) -> Rabs (vx q) <= Rmaxv /\ Rabs (vy q) <= Rmaxv).
  { assert (M : 1000 <= Rmaxv) by (apply IZR_le; apply Z.leb_le; vm_compute; reflexivity).
    assert (G : Forall (fun q : vec R => Rabs (vx q) <= 1000 /\ Rabs (vy q) <= 1000) (mpos m)).
    { cbn [m model_init mpos]. unfold position_array, tile_size, vadd, mesh_n, mesh_w.
      cbn [map seq vx vy Nat.div Nat.modulo Nat.divmod Nat.sub fst snd Z.of_nat Pos.of_succ_nat Pos.succ]. rnum.
      repeat (constructor; [split; cbn [vx vy]; apply Rabs_le; lra|]). constructor. }
    rewrite Forall_forall in G. intros q Hq. destruct (G q Hq). lra. }
  destruct (extremes_box (mpos m)) as (x0 & x1 & y0 & y1 & a & b & c & d & L1 & _ & _ & _ & R1 & _ & _ & _ & E);
    [intros X; rewrite X in I; destruct I|exact B|].
  unfold extremes. rewrite E. cbn [vx vy].
  assert (X : x0 = 1 / 2).
  { apply Rle_antisym.
    - apply L1. change (1 / 2) with (vx (mkV (1 / 2) 0)). apply in_map. exact I.
    - destruct L1 as (L1 & _). apply in_map_iff in L1. destruct L1 as (q & E1 & Hq). rewrite <- E1. clear E1 R1 E. revert q Hq.
      apply Forall_forall. cbn [m model_init mpos]. unfold position_array, tile_size, vadd, mesh_n, mesh_w.
      cbn [map seq vx vy Nat.div Nat.modulo Nat.divmod Nat.sub fst snd Z.of_nat Pos.of_succ_nat Pos.succ]. rnum.
      repeat (constructor; [cbn [vx vy]; lra|]). constructor. }
  rewrite X in R1. destruct R1 as [R1|(R1 & R2)].
  - exfalso. apply Rabs_def2 in R1. assert (0 < a)%Z by (apply lt_IZR; lra). assert (a < 1)%Z by (apply lt_IZR; lra). lia.
  - destruct (Z_lt_le_dec a 1) as [La|La].
    + exfalso. apply Z.lt_le_pred in La. simpl in La. apply IZR_le in La.
      rewrite (Rabs_right (1 / 2 - IZR a)) in R1 by lra. assert (E0 : IZR a = 0) by lra. rewrite E0, Rabs_R0, Rabs_right in R2; lra.
    + apply IZR_le in La. lra.
Qed.
