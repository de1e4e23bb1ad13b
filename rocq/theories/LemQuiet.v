(** Models at rest, in [double]. *)

From Coq Require Import ZArith Reals Bool List Lia Lra.
From Flocq Require Import Core IEEE754.BinarySingleNaN.
From Verif Require Import Num Geometry Outcome Wobbly Spec SpecDouble LemBasic LemInv LemHistory LemLifo LemAnchors LemMoves LemAnchorFacts LemSettle LemNan LemWhole LemDouble LemHang.
Import ListNotations.
Local Open Scope Z_scope.

(** ** Zeros *)

Definition zv (x : f64) : Prop := exists s, x = B754_zero s.
Definition zvec (p : vec f64) : Prop := zv (vx p) /\ zv (vy p).

Lemma zv_zero : zv nzero. Proof. exists false. exact zero_form. Qed.
Lemma zv_R x : zv x -> is_finite x = true /\ B2R x = 0%R. Proof. intros (s & ->). auto. Qed.
Lemma zv_of x : is_finite x = true -> B2R x = 0%R -> zv x.
Proof.
  destruct x as [s| | |s m e H]; try discriminate; intros _ E; [exists s; auto|].
  exfalso. cbn in E. apply eq_0_F2R in E. destruct s; discriminate E.
Qed.
Lemma zv_add x y : zv x -> zv y -> zv (nadd x y). Proof. intros (s & ->) (t & ->). apply add_zeros. Qed.
Lemma zv_sub x y : zv x -> zv y -> zv (nsub x y). Proof. intros (s & ->) (t & ->). destruct s, t; eexists; reflexivity. Qed.
Lemma zv_mul x y : zv x -> is_finite y = true -> zv (nmul x y).
Proof. intros (s & ->). destruct y; try discriminate; intros _; eexists; reflexivity. Qed.
Lemma zv_abs x : zv x -> zv (nabs x). Proof. intros (s & ->). eexists; reflexivity. Qed.

Lemma add_zv (x z : f64) : is_finite x = true -> zv z -> is_finite (nadd x z) = true /\ B2R (nadd x z) = B2R x.
Proof. intros F (s & ->). destruct x as [t| | |t m e H]; try discriminate; [destruct s, t; auto|auto]. Qed.

Lemma lt_zv (x : f64) : zv x -> nltb nzero x = false.
Proof. intros (s & ->). rewrite zero_form. destruct s; reflexivity. Qed.

(** [0 < |x|] fails for zeros and NaN only. *)
Lemma not_lt_abs (x : f64) : nltb nzero (nabs x) = false -> x = B754_nan \/ zv x.
Proof.
  rewrite zero_form. destruct x as [s|s| |s m e H]; intros E; auto.
  - right. eexists; reflexivity.
  - discriminate E.
  - discriminate E.
Qed.

Lemma add_finite (x y : f64) : is_finite (nadd x y) = true -> is_finite x = true /\ is_finite y = true.
Proof.
  destruct x as [s|s| |s m e H], y as [t|t| |t m' e' H']; intros F; try discriminate F; auto.
  destruct s, t; discriminate F.
Qed.

Lemma clipped_zv (x : f64) : zv x -> clipped x = nzero.
Proof. intros (s & ->). unfold clipped. destruct s; reflexivity. Qed.

(** ** Equal values *)

Lemma same_refl x : is_finite x = true -> same_value x x. Proof. repeat split; auto. Qed.
Lemma same_sym x y : same_value x y -> same_value y x. Proof. intros (A & B & C). repeat split; auto. Qed.
Lemma same_trans x y z : same_value x y -> same_value y z -> same_value x z.
Proof. intros (A & B & C) (D & E & F). repeat split; auto. congruence. Qed.
Lemma same_zv x y : same_value x y -> zv x -> zv y.
Proof. intros (A & B & C) Z. apply zv_R in Z. apply zv_of; auto. destruct Z. congruence. Qed.
Lemma same_within k x y : same_value x y -> within k x -> within k y.
Proof. intros (A & B & C) (D & E). split; auto. rewrite <- C. auto. Qed.

Lemma same_point_refl p : finite_point p -> same_point_value p p.
Proof. intros (A & B). split; apply same_refl; auto. Qed.
Lemma same_point_sym p q : same_point_value p q -> same_point_value q p.
Proof. intros (A & B). split; apply same_sym; auto. Qed.
Lemma same_point_trans p q r : same_point_value p q -> same_point_value q r -> same_point_value p r.
Proof. intros (A & B) (C & D). split; eapply same_trans; eauto. Qed.

Lemma same_list_trans l1 : forall l2 l3, Forall2 same_point_value l1 l2 -> Forall2 same_point_value l2 l3 -> Forall2 same_point_value l1 l3.
Proof.
  induction l1 as [|x l1 IH]; intros l2 l3 A B; inversion A; subst; inversion B; subst; constructor.
  - eapply same_point_trans; eauto.
  - eapply IH; eauto.
Qed.

Lemma same_list_refl l : Forall finite_point l -> Forall2 same_point_value l l.
Proof. induction 1; constructor; auto. apply same_point_refl. auto. Qed.

Lemma same_list_sym l : forall l', Forall2 same_point_value l l' -> Forall2 same_point_value l' l.
Proof. induction l; intros l' A; inversion A; subst; constructor; auto. apply same_point_sym. auto. Qed.

Lemma same_list_nth l : forall l' i p, Forall2 same_point_value l l' -> nth_error l i = Some p ->
  exists p', nth_error l' i = Some p' /\ same_point_value p p'.
Proof.
  induction l; intros l' i p A E; inversion A; subst; destruct i; cbn in *; try discriminate; eauto.
  injection E as <-. eauto.
Qed.

(** ** Springs *)

(** Where a view points. *)
Definition look (pos : list (vec f64)) (heap : list (block f64)) (l : loc) : option (vec f64) :=
  match l with
  | LMesh i => nth_error pos i
  | LBlk b => match nth_error heap b with Some (Some (p, _)) => Some p | _ => None end
  end.

Lemma rd_look (mm : mem f64) l p : rd_pos mm l = Ok p <-> look (m_pos mm) (m_heap mm) l = Some p.
Proof.
  destruct l as [i|b]; cbn [rd_pos look].
  - destruct (nth_error (m_pos mm) i); cbn; split; intros E; congruence.
  - unfold rd_blk, block. destruct (@nth_error (option (vec f64 * vec f64)) (m_heap mm) b) as [[[q f]|]|]; cbn; split; intros E; congruence.
Qed.

Lemma look_heap pos h h' l : heap_pos h = heap_pos h' -> look pos h l = look pos h' l.
Proof.
  intros E. destruct l as [i|b]; auto. cbn [look]. apply (f_equal (fun x => nth_error x b)) in E. unfold heap_pos, block in *.
  rewrite !nth_error_map in E. unfold block in *.
  destruct (@nth_error (option (vec f64 * vec f64)) h b) as [[[q f]|]|], (@nth_error (option (vec f64 * vec f64)) h' b) as [[[q' f']|]|];
    cbn in E; congruence.
Qed.

Lemma look_same pos pos' h l p : Forall2 same_point_value pos pos' -> (forall b, l = LBlk b -> finite_point p) -> look pos h l = Some p ->
  exists p', look pos' h l = Some p' /\ same_point_value p p'.
Proof.
  intros S F E. destruct l as [i|b].
  - eapply same_list_nth; eauto.
  - exists p. split; auto. apply same_point_refl. eauto.
Qed.

Notation sane := (within 1000).
Definition sane_point (p : vec f64) : Prop := sane (vx p) /\ sane (vy p).

Lemma sane_finite p : sane_point p -> finite_point p.
Proof. intros ((A & _) & (B & _)). split; auto. Qed.

Lemma same_sane p q : same_point_value p q -> sane_point p -> sane_point q.
Proof. intros (A & B) (C & D). split; eapply same_within; eauto. Qed.

Lemma axis_quiet (a b l : f64) : sane a -> sane b -> sane l ->
  nltb nzero (sum_abs (clipped (offset a b (nmul l (nof (-1))))) (clipped (offset b a l))) = false <->
  zv (clipped (offset a b (nmul l (nof (-1))))) /\ zv (clipped (offset b a l)).
Proof.
  intros Wa Wb Wl. destruct (neg_len 1000 l ltac:(lia) Wl) as (Wn & Rn).
  destruct (offset_ok 1000 a b _ ltac:(lia) Wa Wb Wn) as (F1 & _ & L1). destruct (offset_ok 1000 b a l ltac:(lia) Wb Wa Wl) as (F2 & _ & L2).
  assert (W1 : within 1001 (offset a b (nmul l (nof (-1))))) by (split; auto). assert (W2 : within 1001 (offset b a l)) by (split; auto).
  destruct (clipped_ok 1001 _ W1) as (C1 & _ & _). destruct (clipped_ok 1001 _ W2) as (C2 & _ & _).
  destruct (sum_abs_ok 1001 _ _ ltac:(lia) C1 C2) as (Fs & Ps). destruct zero_ok as (Fz & Rz). rewrite ltb_ok, Rz by auto. split.
  - intros H. assert (Q : ~ (0 < B2R (sum_abs (clipped (offset a b (nmul l (nof (-1))))) (clipped (offset b a l))))%R).
    { intros X. rewrite Rlt_bool_true in H by exact X. discriminate. }
    split; apply zv_of; try apply C1; try apply C2.
    + destruct (Req_dec (B2R (clipped (offset a b (nmul l (nof (-1)))))) 0) as [E|E]; auto. exfalso. apply Q, Ps. auto.
    + destruct (Req_dec (B2R (clipped (offset b a l))) 0) as [E|E]; auto. exfalso. apply Q, Ps. auto.
  - intros (Z1 & Z2). apply Rlt_bool_false. apply Rnot_lt_le. intros X. apply Ps in X. apply zv_R in Z1. apply zv_R in Z2. tauto.
Qed.

Lemma pulls_quiet pa pb len : sane_point pa -> sane_point pb -> sane_point len ->
  pulls pa pb len = false <-> zvec (fst (spring_deltas pa pb len)) /\ zvec (snd (spring_deltas pa pb len)).
Proof.
  intros (A1 & A2) (B1 & B2) (L1 & L2). rewrite pulls_unfold, orb_false_iff, !axis_quiet by auto.
  unfold zvec. change (spring_deltas pa pb len) with
    (mkV (clipped (offset (vx pa) (vx pb) (nmul (vx len) (nof (-1))))) (clipped (offset (vy pa) (vy pb) (nmul (vy len) (nof (-1))))),
     mkV (clipped (offset (vx pb) (vx pa) (vx len))) (clipped (offset (vy pb) (vy pa) (vy len)))).
  cbn [fst snd vx vy]. tauto.
Qed.

Lemma offset_same (a a' b b' l : f64) : sane a -> sane b -> sane l -> same_value a a' -> same_value b b' ->
  same_value (clipped (offset a b l)) (clipped (offset a' b' l)).
Proof.
  intros Wa Wb Wl Sa Sb. pose proof (same_within _ _ _ Sa Wa) as Wa'. pose proof (same_within _ _ _ Sb Wb) as Wb'.
  destruct (offset_ok 1000 a b l ltac:(lia) Wa Wb Wl) as (F1 & E1 & L1). destruct (offset_ok 1000 a' b' l ltac:(lia) Wa' Wb' Wl) as (F2 & E2 & L2).
  assert (W1 : within 1001 (offset a b l)) by (split; auto). assert (W2 : within 1001 (offset a' b' l)) by (split; auto).
  assert (E : B2R (offset a b l) = B2R (offset a' b' l)).
  { destruct Sa as (_ & _ & Ea), Sb as (_ & _ & Eb). rewrite E1, E2, Ea, Eb. reflexivity. }
  destruct (clipped_ok 1001 _ W1) as ((C1 & _) & Z1 & K1). destruct (clipped_ok 1001 _ W2) as ((C2 & _) & Z2 & K2).
  split; [exact C1|]. split; [exact C2|]. destruct (Rlt_le_dec (Rabs (B2R (offset a b l))) (1 / 2)) as [H|H].
  - rewrite Z1, Z2; auto. rewrite <- E. auto.
  - rewrite K1, K2; auto. rewrite <- E. auto.
Qed.

Lemma pulls_same pa pb pa' pb' len : sane_point pa -> sane_point pb -> sane_point len ->
  same_point_value pa pa' -> same_point_value pb pb' -> pulls pa pb len = false -> pulls pa' pb' len = false.
Proof.
  intros A B L SA SB Q. pose proof (same_sane _ _ SA A) as A'. pose proof (same_sane _ _ SB B) as B'.
  apply (pulls_quiet pa pb len A B L) in Q. apply (pulls_quiet pa' pb' len A' B' L).
  change (spring_deltas pa pb len) with
    (mkV (clipped (offset (vx pa) (vx pb) (nmul (vx len) (nof (-1))))) (clipped (offset (vy pa) (vy pb) (nmul (vy len) (nof (-1))))),
     mkV (clipped (offset (vx pb) (vx pa) (vx len))) (clipped (offset (vy pb) (vy pa) (vy len)))) in Q.
  change (spring_deltas pa' pb' len) with
    (mkV (clipped (offset (vx pa') (vx pb') (nmul (vx len) (nof (-1))))) (clipped (offset (vy pa') (vy pb') (nmul (vy len) (nof (-1))))),
     mkV (clipped (offset (vx pb') (vx pa') (vx len))) (clipped (offset (vy pb') (vy pa') (vy len)))).
  destruct A as (A1 & A2), B as (B1 & B2), L as (L1 & L2), SA as (SA1 & SA2), SB as (SB1 & SB2).
  destruct (neg_len 1000 (vx len) ltac:(lia) L1) as (N1 & _). destruct (neg_len 1000 (vy len) ltac:(lia) L2) as (N2 & _).
  unfold zvec in *. cbn [fst snd vx vy] in *. destruct Q as ((Q1 & Q2) & (Q3 & Q4)).
  split; split.
  - eapply same_zv; [|exact Q1]. apply offset_same; auto.
  - eapply same_zv; [|exact Q2]. apply offset_same; auto.
  - eapply same_zv; [|exact Q3]. apply offset_same; auto.
  - eapply same_zv; [|exact Q4]. apply offset_same; auto.
Qed.

(** A spring that exerts no force. *)
Definition calm_spring (pos : list (vec f64)) (heap : list (block f64)) (s : spring f64) : Prop :=
  sane_point (s_len s) /\
  exists pa pb, look pos heap (s_pa s) = Some pa /\ look pos heap (s_pb s) = Some pb /\
    sane_point pa /\ sane_point pb /\ pulls pa pb (s_len s) = false.

Lemma calm_heap pos h h' s : heap_pos h = heap_pos h' -> calm_spring pos h s -> calm_spring pos h' s.
Proof.
  intros E (L & pa & pb & A & B & C). split; auto. exists pa, pb. rewrite <- !(look_heap pos h h') by auto. auto.
Qed.

Lemma calm_same pos pos' h s : Forall2 same_point_value pos pos' -> calm_spring pos h s -> calm_spring pos' h s.
Proof.
  intros S (L & pa & pb & A & B & Sa & Sb & Q). split; auto.
  destruct (look_same pos pos' h (s_pa s) pa S) as (pa' & A' & Ea); [intros; apply sane_finite; auto|exact A|].
  destruct (look_same pos pos' h (s_pb s) pb S) as (pb' & B' & Eb); [intros; apply sane_finite; auto|exact B|].
  exists pa', pb'. split; [exact A'|]. split; [exact B'|]. split; [exact (same_sane _ _ Ea Sa)|]. split; [exact (same_sane _ _ Eb Sb)|].
  eapply pulls_same; [exact Sa|exact Sb|exact L|exact Ea|exact Eb|exact Q].
Qed.

Lemma zvec_scale (p : vec f64) k : zvec p -> is_finite k = true -> zvec (vscale p k).
Proof. intros (A & B) F. split; apply zv_mul; auto. Qed.

Lemma zvec_add p q : zvec p -> zvec q -> zvec (vadd p q).
Proof. intros (A & B) (C & D). split; apply zv_add; auto. Qed.

Lemma list_set_forall {A} (P : A -> Prop) l : forall i x, Forall P l -> P x -> Forall P (list_set i x l).
Proof. induction l; intros [|i] x F Px; cbn [list_set]; auto; inversion F; subst; constructor; auto. Qed.

Lemma add_force_zero (mm mm' : mem f64) l f : add_force mm l f = Ok mm' -> zvec f -> Forall zvec (m_force mm) -> Forall zvec (m_force mm').
Proof.
  intros E Z F. destruct l as [i|b]; cbn [add_force] in E; inv_ok; cbn [m_force]; auto.
  apply list_set_forall; auto. apply zvec_add; auto.
  match goal with X : nth_error (m_force mm) i = Some _ |- _ => apply nth_error_In in X end. rewrite Forall_forall in F. auto.
Qed.

Lemma apply_forces_quiet k s (mm mm' : mem f64) b :
  is_finite k = true -> calm_spring (m_pos mm) (m_heap mm) s -> apply_forces k s mm = Ok (mm', b) -> Forall zvec (m_force mm) ->
  b = false /\ Forall zvec (m_force mm').
Proof.
  intros Fk (L & pa & pb & A & B & Sa & Sb & Q) E F.
  apply rd_look in A. apply rd_look in B.
  split; [rewrite <- Q; eapply apply_forces_flag; eauto|].
  apply (pulls_quiet pa pb (s_len s) Sa Sb L) in Q.
  unfold apply_forces in E. rewrite A, B in E. cbn [bind] in E. destruct (spring_deltas pa pb (s_len s)) as [da db]. cbn [fst snd] in Q. inv_ok.
  destruct Q as (Q1 & Q2). eapply add_force_zero; [eassumption|apply zvec_scale; auto|].
  eapply add_force_zero; [eassumption|apply zvec_scale; auto|auto].
Qed.

Lemma apply_all_quiet k : is_finite k = true -> forall ss (mm mm' : mem f64) b0 b,
  Forall (calm_spring (m_pos mm) (m_heap mm)) ss -> apply_all k ss mm b0 = Ok (mm', b) -> Forall zvec (m_force mm) ->
  b = b0 /\ Forall zvec (m_force mm').
Proof.
  intros Fk. induction ss as [|s ss IH]; intros mm mm' b0 b C E F; cbn [apply_all] in E; inv_ok; auto.
  destruct a as [m1 b1]. cbn [fst snd] in *. inversion C; subst.
  match goal with X : apply_forces _ _ _ = Ok _ |- _ => rename X into E1 end.
  pose proof (apply_forces_shape _ _ _ _ _ E1) as (X1 & _ & X3).
  destruct (apply_forces_quiet _ _ _ _ _ Fk H1 E1 F) as (-> & F1). rewrite orb_false_r in E.
  eapply IH; [|exact E|exact F1]. rewrite X1. eapply Forall_impl; [|exact H2]. intros s'. apply calm_heap. auto.
Qed.

(** ** Integration *)

Lemma fifteenth_ok : is_finite (ndiv (nof 1) mass : f64) = true. Proof. vm_compute. reflexivity. Qed.
Lemma one_half_ok : is_finite (ndiv (nof 1) (nof 2) : f64) = true. Proof. vm_compute. reflexivity. Qed.
Lemma one_ok : is_finite (nof 1 : f64) = true. Proof. reflexivity. Qed.

Lemma reset_zv (t : f64) (p : vec f64) : (forall s, nltb (nabs (B754_zero s)) t = true) -> zvec p -> reset_if_close t p = vzero.
Proof.
  intros H ((s & E1) & (s' & E2)). destruct p as [x y]. cbn [vx vy] in *. subst. unfold reset_if_close, vmap. cbn [vx vy]. rewrite !H. reflexivity.
Qed.

Lemma vzero_zvec : zvec (vzero : vec f64). Proof. split; apply zv_zero. Qed.

Lemma euler_quiet (fr : f64) (p v f : vec f64) : is_finite fr = true -> finite_point p -> zvec v -> zvec f ->
  exists p', euler fr p v f = (p', vzero, false) /\ same_point_value p p'.
Proof.
  intros Ff (P1 & P2) Zv Zf. unfold euler.
  assert (Z : zvec (vadd v (vscale (vscale (vsub f (vscale (vadd vzero v) fr)) (ndiv (nof 1) mass)) (nof 1)))).
  { apply zvec_add; auto. apply zvec_scale; [|apply one_ok]. apply zvec_scale; [|apply fifteenth_ok].
    pose proof (zvec_scale (vadd vzero v) fr (zvec_add _ _ vzero_zvec Zv) Ff) as (Y1 & Y2). destruct Zf as (Z1 & Z2).
    split; apply zv_sub; auto. }
  rewrite (reset_zv (nlit 1 10)) by (auto; intros []; vm_compute; reflexivity).
  assert (Zp : zvec (vscale (vzero : vec f64) (ndiv (nof 1) (nof 2)))) by (apply zvec_scale; [apply vzero_zvec|apply one_half_ok]).
  eexists. split; [reflexivity|]. destruct Zp as (Z1 & Z2).
  destruct (add_zv (vx p) _ P1 Z1) as (A & B). destruct (add_zv (vy p) _ P2 Z2) as (C & D).
  repeat split; auto.
Qed.

Lemma integrate_quiet (fr : f64) : is_finite fr = true -> forall cs ps vs fs,
  length ps = length cs -> length vs = length cs -> length fs = length cs ->
  Forall finite_point ps -> Forall zvec vs -> Forall zvec fs ->
  exists ps' vs', integrate_points fr cs ps vs fs = (ps', vs', false) /\ Forall2 same_point_value ps ps' /\ Forall zvec vs'.
Proof.
  intros Ff. induction cs as [|c cs IH]; intros [|p ps] [|v vs] [|f fs] Lp Lv Lf Fp Fv FF; try discriminate; cbn [integrate_points].
  - exists [], []. auto.
  - inversion Fp; inversion Fv; inversion FF; subst. destruct (IH ps vs fs) as (ps' & vs' & -> & S & Z); auto.
    destruct (0 <? c).
    + exists (p :: ps'), (vzero :: vs'). split; auto. split; [constructor; auto; apply same_point_refl; auto|constructor; auto; apply vzero_zvec].
    + destruct (euler_quiet fr p v f) as (p' & -> & Sp); auto.
      exists (p' :: ps'), (vzero :: vs'). split; auto. split; constructor; auto. apply vzero_zvec.
Qed.

(** ** The model *)

Record resting (m : model f64) : Prop := {
  re_inv : Inv m;
  re_idle : active m = false;
  re_pos : Forall finite_point (mpos m);
  re_vel : Forall zvec (mvel m);
  re_valid : Forall (spring_valid (mheap m)) (msprings m);
  re_calm : Forall (calm_spring (mpos m) (mheap m)) (msprings m);
  re_k : is_finite (st_k (mset m)) = true;
  re_fr : is_finite (st_friction (mset m)) = true }.

Lemma repeat_zvec n : Forall zvec (repeat (vzero : vec f64) n).
Proof. induction n; constructor; auto. apply vzero_zvec. Qed.

Lemma resting_once m : resting m ->
  exists ps vs h, integrate_once m = Ok (set_sim m ps vs h, false) /\ Forall2 same_point_value (mpos m) ps /\
    heap_pos h = heap_pos (mheap m) /\ resting (set_sim m ps vs h).
Proof.
  intros [I Idle Fp Zv Va Ca Fk Ff]. unfold integrate_once, constrainment. rewrite Idle.
  destruct (spring_step_valid (st_k (mset m)) (st_friction (mset m)) (t_counts (mtracked m)) (msprings m) (mpos m) (mvel m) (mheap m) (inv_pos _ I) Va)
    as ([[[ps vs] h] b] & E).
  pose proof (spring_step_shape _ _ _ _ _ _ _ _ _ _ _ E) as (L1 & L2 & Hh).
  rewrite E. cbn [bind]. cbn [orb].
  unfold spring_step, calculate_forces in E. inv_ok. destruct a as [mm fe].
  match goal with X : apply_all _ _ _ _ = Ok _ |- _ => rename X into E1 end.
  destruct (apply_all_quiet _ Fk (msprings m) (mkMem (mpos m) (repeat vzero mesh_n) (mheap m)) mm false fe Ca E1 (repeat_zvec _)) as (-> & FF).
  pose proof (apply_all_shape _ _ _ _ _ _ E1) as (_ & Lf & _). cbn [m_force] in Lf. rewrite repeat_length in Lf.
  destruct (integrate_quiet (st_friction (mset m)) Ff (t_counts (mtracked m)) (mpos m) (mvel m) (m_force mm)) as (ps' & vs' & Ei & S & Z); auto.
  { rewrite (inv_pos _ I), (inv_cnt _ I). reflexivity. } { rewrite (inv_vel _ I), (inv_cnt _ I). reflexivity. }
  { rewrite Lf, (inv_cnt _ I). reflexivity. }
  rewrite Ei in E. cbn [orb] in E. injection E as <- <- <- <-.
  exists ps', vs', (m_heap mm). split; [reflexivity|]. split; [exact S|]. split; [exact Hh|].
  constructor; cbn [set_sim mpos mvel mheap msprings mset]; auto.
  - destruct I; constructor; cbn [set_sim mpos mvel]; auto; congruence.
  - clear - S. induction S; constructor; auto. destruct H as ((_ & A & _) & (_ & B & _)). split; auto.
  - eapply Forall_impl; [|exact Va]. intros s. apply spring_valid_ext. symmetry. apply heap_live_pos; auto.
  - eapply Forall_impl; [|exact Ca]. intros s Cs. eapply calm_heap; [symmetry; exact Hh|]. eapply calm_same; [exact S|exact Cs].
Qed.

Lemma resting_n n : forall m, resting m ->
  exists ps vs h, integrate_n n m false = Ok (set_sim m ps vs h, false) /\ Forall2 same_point_value (mpos m) ps /\
    heap_pos h = heap_pos (mheap m) /\ resting (set_sim m ps vs h).
Proof.
  induction n; intros m Re; cbn [integrate_n].
  - exists (mpos m), (mvel m), (mheap m). assert (E : set_sim m (mpos m) (mvel m) (mheap m) = m) by (destruct m; reflexivity). rewrite E.
    split; auto. split; auto. apply same_list_refl, Re.
  - destruct (resting_once m Re) as (ps & vs & h & -> & S & Hh & Re'). cbn [bind fst snd orb].
    destruct (IHn _ Re') as (ps' & vs' & h' & -> & S' & Hh' & Re''). cbn [set_sim mpos mheap] in *.
    exists ps', vs', h'. split; [reflexivity|]. split; [eapply same_list_trans; eauto|]. split; [congruence|exact Re''].
Qed.

Lemma resting_step t m : resting m -> munequal m = false ->
  exists m', model_step t m = Ok (m', false) /\ same_places m m' /\ resting m' /\ munequal m' = false /\ malive m' = malive m.
Proof.
  intros Re U. unfold model_step. destruct (resting_n (step_count t) m Re) as (ps & vs & h & -> & S & Hh & Re').
  cbn [bind]. rewrite U. destruct (t =? 0); cbn [orb negb andb].
  all: match goal with |- context [active ?x] => assert (Ai : active x = false) by apply (re_idle _ Re); rewrite Ai end.
  all: eexists; split; [reflexivity|]; split; [|split; [destruct Re' as [[] ? ? ? ? ? ? ?]; constructor; auto; constructor; auto|auto]].
  all: split; [exact S|]; split; [|repeat split]; intros b; cbn [set_unequal set_sim]; exact (look_heap [] h (mheap m) (LBlk b) Hh).
Qed.

Lemma same_places_trans a b c : same_places a b -> same_places b c -> same_places a c.
Proof.
  intros (A1 & A2 & A3 & A4 & A5 & A6 & A7) (B1 & B2 & B3 & B4 & B5 & B6 & B7).
  split; [eapply same_list_trans; eauto|]. split; [intros x; congruence|]. repeat split; congruence.
Qed.

Lemma resting_steps fuel : forall ts m, resting m -> munequal m = false -> malive m = true ->
  exists m', run fuel m (map OpStep ts) = Ok (m', map (fun _ => OMore false) ts) /\ same_places m m'.
Proof.
  induction ts as [|t ts IH]; intros m Re U Al.
  - exists m. split; auto. split; [apply same_list_refl, Re|]. repeat split.
  - cbn [map run]. unfold step_op. cbn [needs_model]. rewrite Al. cbn [negb andb].
    destruct (resting_step t m Re U) as (m1 & -> & S & Re' & U' & Al'). cbn [bind fst snd].
    destruct (IH m1 Re' U') as (m' & -> & S'); [congruence|]. exists m'. split; auto. eapply same_places_trans; eauto.
Qed.

(** ** New models *)

Local Open Scope R_scope.

Lemma tile_within k (w : f64) : (-900 <= k <= 1000)%Z -> within k w -> within k (ndiv w (nof 3)).
Proof.
  intros Hk (F & L). destruct (of_ok 3) as (F3 & R3); [reflexivity|].
  assert (B : Rabs (B2R w / B2R (nof 3 : f64)) <= bpow radix2 k).
  { rewrite R3. apply Rabs_le. apply Rabs_le_inv in L. lra. }
  destruct (div_ok k ltac:(lia) w (nof 3) F) as (A & E); auto; [rewrite R3; lra|].
  split; [exact A|]. rewrite E. apply rd_bound; [lia|exact B].
Qed.

Lemma coord_ok (p t : f64) (c : Z) : (0 <= c <= 3)%Z -> within 48 p -> within 48 t ->
  within 50 (nadd p (nmul (nof c) t)) /\ Rabs (B2R (nadd p (nmul (nof c) t)) - (B2R p + IZR c * B2R t)) <= 1 / 8.
Proof.
  intros Hc (Fp & Lp) (Ft & Lt). destruct (of_ok c) as (Fc & Rc); [lia|].
  apply Rabs_le_inv in Lp. apply Rabs_le_inv in Lt.
  assert (C : 0 <= IZR c <= 3) by (split; apply IZR_le; lia).
  set (B := bpow radix2 48) in *. assert (B0 : 0 < B) by apply bpow_gt_0.
  assert (B50 : bpow radix2 50 = 4 * B) by (unfold B; cbn; lra).
  assert (M : - (3 * B) <= IZR c * B2R t <= 3 * B) by nra.
  destruct (mul_ok 50 ltac:(lia) (nof c) t Fc Ft) as (F1 & E1).
  { rewrite Rc, B50. apply Rabs_le. lra. }
  rewrite Rc in E1.
  pose proof (rd_err 50 (IZR c * B2R t) ltac:(lia)) as Er1. rewrite B50 in Er1. specialize (Er1 ltac:(apply Rabs_le; lra)).
  pose proof (rd_le 3 48 (IZR c * B2R t) ltac:(reflexivity) ltac:(lia) (proj2 M)) as U1.
  pose proof (rd_ge (-3) 48 (IZR c * B2R t) ltac:(reflexivity) ltac:(lia)) as L1. fold B in U1, L1. specialize (L1 ltac:(lra)).
  set (x := rd (IZR c * B2R t)) in *.
  assert (S : Rabs (B2R p + x) <= bpow radix2 50) by (rewrite B50; apply Rabs_le; lra).
  rewrite <- E1 in S.
  destruct (add_ok 50 ltac:(lia) p (nmul (nof c) t) Fp F1 S) as (F2 & E2). rewrite E1 in E2, S.
  split.
  - split; [exact F2|]. rewrite E2. apply rd_bound; [lia|exact S].
  - rewrite E2. pose proof (rd_err 50 (B2R p + x) ltac:(lia) S) as Er2.
    replace (bpow radix2 (50 - 54)) with (1 / 16) in * by (cbn; lra).
    apply Rabs_le. apply Rabs_le_inv in Er1. apply Rabs_le_inv in Er2. lra.
Qed.

Lemma within_zero k : within k nzero.
Proof. destruct zero_ok as (F & E). split; [exact F|]. rewrite E, Rabs_R0. apply bpow_ge_0. Qed.

Lemma grid_nth (p tile : vec f64) i : (i < 16)%nat ->
  nth_error (position_array p tile) i =
  Some (mkV (nadd (vx p) (nmul (nof (Z.of_nat (i mod 4))) (vx tile))) (nadd (vy p) (nmul (nof (Z.of_nat (i / 4))) (vy tile)))).
Proof.
  intros Hi. unfold position_array. rewrite nth_error_map. unfold mesh_n, mesh_w, mesh_h.
  rewrite (nth_error_nth' (seq 0 (4 * 4)) 0%nat) by (rewrite seq_length; auto). rewrite seq_nth by auto. reflexivity.
Qed.

Lemma number_springs_in (l : list (nat * nat * vec f64)) : forall next s,
  In s (number_springs l next) -> exists a b, In (a, b, s_len s) l /\ s_pa s = LMesh a /\ s_pb s = LMesh b.
Proof.
  induction l as [|[[a b] len] l IH]; intros next s Hs; [destruct Hs|]. cbn [number_springs] in Hs.
  destruct Hs as [<-|Hs]; [exists a, b; cbn; auto|].
  destruct (IH _ _ Hs) as (a' & b' & A & B & C). exists a', b'. split; [right; auto|auto].
Qed.

Lemma grid_calm (p tile : vec f64) heap next s :
  point_within 48 p -> point_within 48 tile -> In s (base_springs tile next) -> calm_spring (position_array p tile) heap s.
Proof.
  intros (Px & Py) (Tx & Ty) Hs. apply number_springs_in in Hs. destruct Hs as (a & b & Hin & Ea & Eb). apply base_adjacent in Hin.
  assert (W : forall i, (i < 16)%nat -> (0 <= Z.of_nat (i mod 4) <= 3)%Z /\ (0 <= Z.of_nat (i / 4) <= 3)%Z).
  { intros i Hi. pose proof (Nat.mod_upper_bound i 4 ltac:(lia)). assert (i / 4 < 4)%nat by (apply Nat.div_lt_upper_bound; lia). lia. }
  assert (Up : forall x, within 50 x -> within 1000 x) by (intros x; apply within_le; lia).
  assert (U8 : forall x, within 48 x -> within 50 x) by (intros x; apply within_le; lia).
  pose proof (within_zero 50) as Z5. destruct zero_ok as (_ & Rz).
  destruct Hin as [(Ha & Hb & Hm & El)|(Ha & Hb & El)].
  - assert (b < 16)%nat by (subst b; assert (a <> 15)%nat by (intros ->; apply Hm; reflexivity); lia).
    assert (M : (b mod 4 = a mod 4 + 1)%nat /\ (b / 4 = a / 4)%nat).
    { subst b. clear - Hm. pose proof (Nat.div_mod a 4 ltac:(lia)) as D. pose proof (Nat.mod_upper_bound a 4 ltac:(lia)).
      split; [symmetry; apply (Nat.mod_unique (a + 1) 4 (a / 4)); lia|symmetry; apply (Nat.div_unique (a + 1) 4 (a / 4) (a mod 4 + 1)); lia]. }
    destruct (W a Ha) as (Wa1 & Wa2). destruct (W b ltac:(lia)) as (Wb1 & Wb2).
    destruct (coord_ok (vx p) (vx tile) _ Wa1 Px Tx) as (A1 & A2). destruct (coord_ok (vy p) (vy tile) _ Wa2 Py Ty) as (A3 & A4).
    destruct (coord_ok (vx p) (vx tile) _ Wb1 Px Tx) as (B1 & B2). destruct (coord_ok (vy p) (vy tile) _ Wb2 Py Ty) as (B3 & B4).
    split; [rewrite El; split; cbn [vx vy]; auto|].
    eexists. eexists. rewrite Ea, Eb. cbn [look]. rewrite !grid_nth by lia. split; [reflexivity|]. split; [reflexivity|].
    split; [split; cbn [vx vy]; auto|]. split; [split; cbn [vx vy]; auto|].
    apply pulls_near; rewrite ?El; try (split; cbn [vx vy]; auto); unfold offset_x, offset_y; cbn [vx vy].
    + destruct M as (M1 & _). rewrite M1 in *. assert (Q : IZR (Z.of_nat (a mod 4 + 1)) = IZR (Z.of_nat (a mod 4)) + 1) by (rewrite Nat2Z.inj_add, plus_IZR; reflexivity).
      rewrite Q in B2. apply Rabs_le_inv in A2. apply Rabs_le_inv in B2. apply Rabs_le. lra.
    + destruct M as (_ & M2). rewrite M2. rewrite Rz. apply Rabs_le. lra.
  - assert (b < 16)%nat by lia.
    assert (M : (b mod 4 = a mod 4)%nat /\ (b / 4 = a / 4 + 1)%nat).
    { subst b. replace (a + 4)%nat with (a + 1 * 4)%nat by lia. rewrite Nat.mod_add, Nat.div_add by lia. lia. }
    destruct (W a ltac:(lia)) as (Wa1 & Wa2). destruct (W b ltac:(lia)) as (Wb1 & Wb2).
    destruct (coord_ok (vx p) (vx tile) _ Wa1 Px Tx) as (A1 & A2). destruct (coord_ok (vy p) (vy tile) _ Wa2 Py Ty) as (A3 & A4).
    destruct (coord_ok (vx p) (vx tile) _ Wb1 Px Tx) as (B1 & B2). destruct (coord_ok (vy p) (vy tile) _ Wb2 Py Ty) as (B3 & B4).
    split; [rewrite El; split; cbn [vx vy]; auto|].
    eexists. eexists. rewrite Ea, Eb. cbn [look]. rewrite !grid_nth by lia. split; [reflexivity|]. split; [reflexivity|].
    split; [split; cbn [vx vy]; auto|]. split; [split; cbn [vx vy]; auto|].
    apply pulls_near; rewrite ?El; try (split; cbn [vx vy]; auto); unfold offset_x, offset_y; cbn [vx vy].
    + destruct M as (M1 & _). rewrite M1. rewrite Rz. apply Rabs_le. lra.
    + destruct M as (_ & M2). rewrite M2 in *. assert (Q : IZR (Z.of_nat (a / 4 + 1)) = IZR (Z.of_nat (a / 4)) + 1) by (rewrite Nat2Z.inj_add, plus_IZR; reflexivity).
      rewrite Q in B4. apply Rabs_le_inv in A4. apply Rabs_le_inv in B4. apply Rabs_le. lra.
Qed.

Lemma grid_finite (p tile : vec f64) : point_within 48 p -> point_within 48 tile -> Forall finite_point (position_array p tile).
Proof.
  intros (Px & Py) (Tx & Ty). unfold position_array. apply Forall_map. apply Forall_forall. intros i Hi. apply in_seq in Hi.
  unfold mesh_n, mesh_w, mesh_h in *. cbv zeta.
  pose proof (Nat.mod_upper_bound i 4 ltac:(lia)). assert (i / 4 < 4)%nat by (apply Nat.div_lt_upper_bound; lia).
  split; unfold vadd; cbn [vx vy].
  - destruct (coord_ok (vx p) (vx tile) (Z.of_nat (i mod 4))) as ((F & _) & _); auto. lia.
  - destruct (coord_ok (vy p) (vy tile) (Z.of_nat (i / 4))) as ((F & _) & _); auto. lia.
Qed.

Lemma fresh_resting p w h st next :
  point_within 48 p -> within 48 w -> within 48 h -> is_finite (st_k st) = true -> is_finite (st_friction st) = true ->
  resting (model_init p w h st next).
Proof.
  intros P W H Fk Ff. assert (Ti : point_within 48 (tile_size w h)) by (split; cbn [tile_size vx vy]; apply tile_within; auto; lia).
  constructor; auto.
  - apply inv_init.
  - apply grid_finite; auto.
  - apply repeat_zvec.
  - apply base_springs_valid.
  - apply Forall_forall. intros s Hs. eapply (grid_calm p (tile_size w h)); [exact P|exact Ti|exact Hs].
Qed.

Lemma fresh_double fuel p w h st next ts :
  point_within 48 p -> within 48 w -> within 48 h -> is_finite (st_k st) = true -> is_finite (st_friction st) = true ->
  exists m', run fuel (model_init p w h st next) (map OpStep ts) = Ok (m', map (fun _ => OMore false) ts) /\
    same_places (model_init p w h st next) m'.
Proof. intros. apply resting_steps; auto. apply fresh_resting; auto. Qed.

(** ** Models that have settled *)

Lemma apply_all_false k : forall ss (mm mm' : mem f64) b0, apply_all k ss mm b0 = Ok (mm', false) ->
  b0 = false /\
  Forall (fun s => exists pa pb, look (m_pos mm) (m_heap mm) (s_pa s) = Some pa /\ look (m_pos mm) (m_heap mm) (s_pb s) = Some pb /\
                                 pulls pa pb (s_len s) = false) ss.
Proof.
  induction ss as [|s ss IH]; intros mm mm' b0 E; cbn [apply_all] in E; inv_ok; auto.
  destruct a as [m1 b1]. cbn [fst snd] in *.
  match goal with X : apply_forces _ _ _ = Ok _ |- _ => rename X into E1 end.
  pose proof (apply_forces_shape _ _ _ _ _ E1) as (X1 & _ & X3).
  destruct (IH _ _ _ E) as (B & F). apply orb_false_iff in B. destruct B as (-> & ->). split; auto. constructor.
  - assert (X : exists pa pb, rd_pos mm (s_pa s) = Ok pa /\ rd_pos mm (s_pb s) = Ok pb).
    { unfold apply_forces in E1. destruct (rd_pos mm (s_pa s)); [|discriminate]. destruct (rd_pos mm (s_pb s)); [|discriminate]. eauto. }
    destruct X as (pa & pb & Ra & Rb). exists pa, pb. rewrite <- !rd_look. split; auto. split; auto.
    symmetry. eapply apply_forces_flag; eauto.
  - eapply Forall_impl; [|exact F]. cbv beta. intros s' (pa & pb & A & B & C). exists pa, pb.
    rewrite <- !(look_heap (m_pos mm) (m_heap m1) (m_heap mm)) by auto. rewrite <- X1. auto.
Qed.

Lemma euler_false (fr : f64) (p v f p' v' : vec f64) :
  euler fr p v f = (p', v', false) -> finite_point p' -> same_point_value p p' /\ zvec v'.
Proof.
  unfold euler. match goal with |- context [reset_if_close ?t ?x] => set (v2 := reset_if_close t x) end.
  intros E (F1 & F2). apply pair_equal_spec in E. destruct E as (E & Fl). apply pair_equal_spec in E. destruct E as (<- & <-). apply orb_false_iff in Fl. destruct Fl as (N1 & N2).
  unfold vadd in F1, F2. cbn [vx vy] in F1, F2. destruct (add_finite _ _ F1) as (P1 & V1). destruct (add_finite _ _ F2) as (P2 & V2).
  assert (Zx : zv (vx v2)).
  { destruct (not_lt_abs _ N1) as [E|Z]; auto. exfalso. unfold vscale in V1. cbn [vx] in V1. rewrite E, mul_nan_l in V1. discriminate V1. }
  assert (Zy : zv (vy v2)).
  { destruct (not_lt_abs _ N2) as [E|Z]; auto. exfalso. unfold vscale in V2. cbn [vy] in V2. rewrite E, mul_nan_l in V2. discriminate V2. }
  split; [|split; auto].
  destruct (add_zv (vx p) (vx (vscale v2 (ndiv (nof 1) (nof 2)))) P1) as (A & B); [apply zv_mul; auto; apply one_half_ok|].
  destruct (add_zv (vy p) (vy (vscale v2 (ndiv (nof 1) (nof 2)))) P2) as (C & D); [apply zv_mul; auto; apply one_half_ok|].
  repeat split; auto.
Qed.

Lemma integrate_false (fr : f64) : forall cs ps vs fs ps' vs',
  length ps = length cs -> length vs = length cs -> length fs = length cs ->
  integrate_points fr cs ps vs fs = (ps', vs', false) -> Forall finite_point ps' ->
  Forall2 same_point_value ps ps' /\ Forall zvec vs'.
Proof.
  induction cs as [|c cs IH]; intros [|p ps] [|v vs] [|f fs] ps' vs' Lp Lv Lf E F; try discriminate; cbn [integrate_points] in E.
  - injection E as <- <-. auto.
  - destruct (integrate_points fr cs ps vs fs) as [[ps1 vs1] more] eqn:E1. destruct (0 <? c)%Z.
    + injection E as <- <- ->. inversion F; subst. destruct (IH ps vs fs ps1 vs1 ltac:(auto) ltac:(auto) ltac:(auto) E1) as (A & B); auto.
      split; constructor; auto; [apply same_point_refl; auto|apply vzero_zvec].
    + destruct (euler fr p v f) as [[p1 v1] b1] eqn:Eu. injection E as <- <- B. apply orb_false_iff in B. destruct B as (-> & ->).
      inversion F; subst. destruct (IH ps vs fs ps1 vs1 ltac:(auto) ltac:(auto) ltac:(auto) E1) as (A & B); auto.
      destruct (euler_false _ _ _ _ _ _ Eu) as (C & D); auto.
Qed.

Lemma once_false m m' : Inv m -> active m = false -> integrate_once m = Ok (m', false) -> not_huge m' ->
  is_finite (st_k (mset m)) = true -> is_finite (st_friction (mset m)) = true -> resting m' /\ mset m' = mset m.
Proof.
  intros I Idle E (Hp & Hs) Fk Ff. pose proof (integrate_once_ok_valid _ _ _ I E) as Va.
  unfold integrate_once, constrainment in E. rewrite Idle in E. inv_ok. destruct a as [[[ps vs] h] b2]. injection E as <- ->.
  cbn [set_sim mpos msprings mheap mset] in *.
  match goal with X : spring_step _ _ _ _ _ _ _ = Ok _ |- _ => rename X into E end.
  pose proof (spring_step_shape _ _ _ _ _ _ _ _ _ _ _ E) as (L1 & L2 & Hh).
  unfold spring_step, calculate_forces in E. inv_ok. destruct a as [mm fe].
  match goal with X : apply_all _ _ _ _ = Ok _ |- _ => rename X into E1 end.
  pose proof (apply_all_shape _ _ _ _ _ _ E1) as (_ & Lf & _). cbn [m_force] in Lf. rewrite repeat_length in Lf.
  destruct (integrate_points (st_friction (mset m)) (t_counts (mtracked m)) (mpos m) (mvel m) (m_force mm)) as [[ps' vs'] mv] eqn:Ei.
  injection E as -> -> <- B. apply orb_false_iff in B. destruct B as (-> & ->).
  assert (Fp : Forall finite_point ps) by (apply Forall_forall; intros q Hq; apply sane_finite, Hp; auto).
  destruct (integrate_false _ _ _ _ _ _ _ ltac:(rewrite (inv_pos _ I), (inv_cnt _ I); reflexivity)
     ltac:(rewrite (inv_vel _ I), (inv_cnt _ I); reflexivity) ltac:(rewrite Lf, (inv_cnt _ I); reflexivity) Ei Fp) as (S & Z).
  apply apply_all_false in E1. destruct E1 as (_ & Q). cbn [m_pos m_heap] in Q.
  split; [|reflexivity]. constructor; cbn [set_sim mpos mvel mheap msprings mset]; auto.
  - destruct I; constructor; cbn [set_sim mpos mvel]; auto; congruence.
  - eapply Forall_impl; [|exact Va]. intros s. apply spring_valid_ext. symmetry. apply heap_live_pos; auto.
  - apply Forall_forall. intros s Is. rewrite Forall_forall in Q. destruct (Q s Is) as (pa & pb & A & B & P).
    destruct (Hs s Is) as (Wl & Wq).
    assert (X : forall l q, l = s_pa s \/ l = s_pb s -> look (mpos m) (mheap m) l = Some q ->
       exists q', look ps (m_heap mm) l = Some q' /\ same_point_value q q' /\ point_within 1000 q').
    { intros l q Hl El. rewrite (look_heap _ _ (m_heap mm)) in El by auto.
      destruct l as [i|bl].
      - cbn [look] in El. destruct (same_list_nth _ _ _ _ S El) as (q' & E' & Sq). exists q'. split; [exact E'|]. split; [exact Sq|].
        apply (Wq (LMesh i)); auto.
      - exists q. assert (Wq' : point_within 1000 q) by (apply (Wq (LBlk bl)); auto).
        split; [exact El|]. split; [apply same_point_refl, sane_finite; auto|auto]. }
    destruct (X _ _ (or_introl eq_refl) A) as (pa' & A' & Sa & Wa). destruct (X _ _ (or_intror eq_refl) B) as (pb' & B' & Sb & Wb).
    split; [exact Wl|]. exists pa', pb'. split; [exact A'|]. split; [exact B'|]. split; [exact Wa|]. split; [exact Wb|].
    eapply (pulls_same pa pb pa' pb'); auto.
    + eapply same_sane; [apply same_point_sym; exact Sa|exact Wa].
    + eapply same_sane; [apply same_point_sym; exact Sb|exact Wb].
Qed.

Lemma n_false n : forall (m : model f64) b m', Inv m -> integrate_n (S n) m b = Ok (m', false) ->
  exists m1, integrate_once m1 = Ok (m', false) /\ Inv m1 /\ active m1 = active m /\ mset m1 = mset m /\ malive m1 = malive m.
Proof.
  induction n; intros m b m' I E; cbn [integrate_n] in E; (destruct (integrate_once m) as [[m1 b1]|] eqn:E1; [|discriminate E]); cbn [bind fst snd] in E.
  - injection E as <- B. apply orb_false_iff in B. destruct B as (_ & ->). exists m. auto.
  - pose proof (integrate_once_shape _ _ _ E1) as (p & v & h & Em & L1 & L2 & _).
    assert (I1 : Inv m1) by (subst m1; destruct I; constructor; cbn [set_sim mpos mvel]; auto; congruence).
    destruct (IHn m1 (b || b1)%bool m' I1 E) as (m2 & A & B & C & D & F).
    exists m2. subst m1. auto.
Qed.

Lemma settled_double p w h st ops (m m' : model f64) t :
  reached p w h st ops m -> length (live_anchors ops) <> 1%nat -> malive m = true -> (0 < t)%Z ->
  model_step t m = Ok (m', false) -> is_finite (st_k (mset m)) = true -> is_finite (st_friction (mset m)) = true -> not_huge m' ->
  resting m' /\ munequal m' = false /\ malive m' = true.
Proof.
  intros Hr La Al Ht E Fk Ff Nh. pose proof (inv_reached _ _ _ _ _ _ Hr) as I. pose proof (inactive_of _ _ _ _ _ _ Hr La) as Idle.
  unfold model_step in E. destruct (integrate_n (step_count t) m false) as [[m1 more]|] eqn:En; [|discriminate E]. cbn [bind] in E.
  assert (T0 : (t =? 0)%Z = false) by (apply Z.eqb_neq; lia). rewrite T0 in E. cbn [orb] in E.
  apply (f_equal (fun r => match r with Ok (a, _) => a | Err _ => m' end)) in E as E2. cbv beta iota in E2.
  assert (more = false) as -> by (injection E as _ B; exact B). clear E. cbn [negb andb] in E2.
  assert (Sc : exists n, step_count t = S n).
  { unfold step_count. assert (0 < (t + 15) / 16)%Z by (apply Z.div_str_pos; lia).
    destruct (Z.to_nat ((t + 15) / 16)) eqn:Q; [lia|eauto]. }
  destruct Sc as (n & Sc). rewrite Sc in En. destruct (n_false n m false m1 I En) as (m2 & A & I2 & Act & Set_ & Al2).
  rewrite Idle in Act.
  assert (Am : active m1 = false /\ malive m1 = malive m2).
  { pose proof (integrate_once_shape _ _ _ A) as (ps & vs & hh & -> & _). auto. }
  destruct Am as (Am & Al1).
  assert (Ai : active (set_unequal m1 false) = false) by exact Am. rewrite Ai in E2. subst m'.
  destruct (once_false m2 m1 I2 Act A) as (Re & _); auto; try congruence.
  split; [destruct Re as [[] ? ? ? ? ? ? ?]; constructor; auto; constructor; auto|]. split; auto. cbn [set_unequal malive]. congruence.
Qed.

Lemma settled_springs m s : resting m -> In s (msprings m) ->
  exists pa pb, place m (s_pa s) = Some pa /\ place m (s_pb s) = Some pb /\
    (point_within 50 pa -> point_within 50 pb -> point_within 50 (s_len s) ->
     Rabs (offset_x pa pb (s_len s)) < 2 /\ Rabs (offset_y pa pb (s_len s)) < 2).
Proof.
  intros Re Hs. pose proof (re_calm _ Re) as C. rewrite Forall_forall in C. destruct (C s Hs) as (_ & pa & pb & A & B & _ & _ & Q).
  exists pa, pb. split; [exact A|]. split; [exact B|]. intros Wa Wb Wl.
  split; apply Rnot_le_lt; intros H; rewrite pulls_far in Q; auto; discriminate.
Qed.
