(** Forces and integration over the real numbers. *)

From Coq Require Import ZArith Reals Bool List Lia Lra Permutation.
From Verif Require Import Num Geometry Outcome Wobbly Spec LemBasic LemReal LemInv LemSprings LemHistory LemNetwork LemLifo LemAnchors LemMoves.
Import ListNotations.
Local Open Scope R_scope.


Lemma clip_ltb t x : (if Rltb (Rabs x) t then 0 else x) = clip t x.
Proof. unfold clip, Rltb. destruct (Rlt_dec (Rabs x) t); auto. Qed.

Lemma clip_opp t x : clip t (- x) = - clip t x.
Proof. unfold clip. rewrite Rabs_Ropp. destruct (Rlt_dec (Rabs x) t); lra. Qed.

Lemma clip_small t x : Rabs x < t -> clip t x = 0.
Proof. unfold clip. destruct (Rlt_dec (Rabs x) t); auto. tauto. Qed.

Lemma clip_zero t x : 0 < t -> clip t x = 0 -> Rabs x < t.
Proof.
  unfold clip. destruct (Rlt_dec (Rabs x) t); auto. intros P ->. rewrite Rabs_R0. auto.
Qed.

Lemma clip_big t x : t <= Rabs x -> clip t x = x.
Proof. unfold clip. destruct (Rlt_dec (Rabs x) t); auto. lra. Qed.

Lemma clip_abs_cases t x : clip t x = 0 \/ (t <= Rabs (clip t x) /\ clip t x = x).
Proof. unfold clip. destruct (Rlt_dec (Rabs x) t); auto. right. split; auto. lra. Qed.

Lemma spring_deltas_pull pa pb len :
  spring_deltas pa pb len = (pull 1 pa pb len, vneg (pull 1 pa pb len)).
Proof.
  unfold spring_deltas, delta_from_desired, clip_threshold. rewrite !reset_zero. cbn [vx vy vscale].
  rnum. rewrite !clip_ltb. unfold pull, vneg, extension. cbn [vx vy].
  f_equal; apply vec_eq; cbn [vx vy]; rewrite ?Rmult_1_l, <- ?clip_opp; f_equal; lra.
Qed.

Lemma pull_scale k pa pb len : vscale (pull 1 pa pb len) k = pull k pa pb len.
Proof. unfold pull. veq; ring. Qed.
Lemma vneg_scale k a : vscale (vneg a) k = vneg (vscale a k).
Proof. unfold vneg. veq; ring. Qed.

(** Is the spring stretched? *)
Definition stretched (pa pb len : vec R) : bool :=
  negb ((Rltb (Rabs (vx (extension pa pb len))) 1) && (Rltb (Rabs (vy (extension pa pb len))) 1)).

Lemma stretched_slack pa pb len : stretched pa pb len = false <-> slack pa pb len.
Proof.
  unfold stretched, slack. rewrite negb_false_iff, andb_true_iff, !Rltb_iff. tauto.
Qed.

Lemma half_abs x : Rabs (x / 2) < 1 / 2 <-> Rabs x < 1.
Proof. unfold Rdiv. rewrite Rabs_mult, (Rabs_pos_eq (/ 2)) by lra. lra. Qed.

Lemma slack_pull k pa pb len : slack pa pb len -> pull k pa pb len = vzero.
Proof.
  intros [X Y]. unfold pull. apply half_abs in X, Y. rewrite !clip_small by auto.
  unfold vzero; rnum. f_equal; ring.
Qed.

Lemma delta_stretched pa pb len :
  let d := vadd (vabs (pull 1 pa pb len)) (vabs (vneg (pull 1 pa pb len))) in
  (Rltb 0 (vx d) || Rltb 0 (vy d))%bool = stretched pa pb len.
Proof.
  cbv zeta. unfold stretched, vneg, pull, vabs, vmap, vadd. cbn [vx vy]. rnum.
  rewrite !Rmult_1_l, !Rabs_Ropp.
  assert (X : forall x, Rltb 0 (Rabs (clip (1 / 2) (x / 2)) + Rabs (clip (1 / 2) (x / 2))) = negb (Rltb (Rabs x) 1)).
  { intros x. destruct (Rltb_spec (Rabs x) 1) as [L|L]; simpl.
    - apply half_abs in L. rewrite clip_small, Rabs_R0 by auto. apply Rltb_niff. lra.
    - assert (1 / 2 <= Rabs (x / 2)) by (destruct (Rle_lt_dec (1/2) (Rabs (x / 2))) as [Y|Y]; auto; apply half_abs in Y; lra).
      rewrite clip_big by auto. apply Rltb_iff. lra. }
  rewrite !X. rewrite negb_andb. auto.
Qed.

(** ** Sums of forces *)

Definition stretched_at (at_ : loc -> vec R) (s : spring R) : bool :=
  stretched (at_ (s_pa s)) (at_ (s_pb s)) (s_len s).
Definition where_ok (mm : mem R) (at_ : loc -> vec R) (s : spring R) : Prop :=
  rd_pos mm (s_pa s) = Ok (at_ (s_pa s)) /\ rd_pos mm (s_pb s) = Ok (at_ (s_pb s)).

(** Force stored at a location. *)
Definition force_at (mm : mem R) (l : loc) : option (vec R) :=
  match l with
  | LMesh i => nth_error (m_force mm) i
  | LBlk b => match nth_error (m_heap mm) b with Some (Some pf) => Some (snd pf) | _ => None end
  end.

Lemma loc_eqb_eq a b : loc_eqb a b = true <-> a = b.
Proof. destruct a, b; simpl; rewrite ?Nat.eqb_eq; split; intros E; congruence. Qed.
Lemma loc_eqb_refl a : loc_eqb a a = true.
Proof. apply loc_eqb_eq. auto. Qed.

Lemma add_force_at mm l f mm' l' :
  add_force mm l f = Ok mm' ->
  force_at mm' l' = option_map (fun x => vadd x (if loc_eqb l l' then f else vzero)) (force_at mm l').
Proof.
  intros E. assert (Z : forall o : option (vec R), o = option_map (fun x => vadd x vzero) o).
  { intros [x|]; simpl; auto. rewrite vadd_zero_r; auto. }
  destruct l as [i|b], l' as [j|c]; simpl in *; inv_ok; simpl; auto.
  - rewrite nth_error_list_set. destruct (Nat.eqb_spec i j); simpl; auto. subst.
    rewrite Ha. assert (j < length (m_force mm))%nat by (apply nth_error_Some; congruence).
    destruct (Nat.ltb_spec j (length (m_force mm))); simpl; auto; lia.
  - rewrite nth_error_list_set. apply rd_blk_ok in Ha. destruct (Nat.eqb_spec b c); simpl; auto. subst.
    rewrite Ha. assert (c < length (m_heap mm))%nat by (apply nth_error_Some; congruence).
    destruct (Nat.ltb_spec c (length (m_heap mm))); simpl; auto; lia.
Qed.

Lemma rd_pos_ext (mm mm' : mem R) l p :
  m_pos mm' = m_pos mm -> heap_pos (m_heap mm') = heap_pos (m_heap mm) ->
  rd_pos mm l = Ok p -> rd_pos mm' l = Ok p.
Proof.
  intros E1 E2. destruct l; simpl; rewrite ?E1; auto. intros X. inv_ok.
  apply rd_blk_ok in Ha. apply (f_equal (fun l => nth_error l b)) in E2. unfold heap_pos, block in *.
  rewrite !nth_error_map in E2. rewrite Ha in E2. simpl in E2.
  unfold rd_blk, block in *. destruct (@nth_error (option (vec R * vec R)) (m_heap mm') b) as [[pf|]|]; simpl in *; try discriminate.
  inversion E2. congruence.
Qed.

Lemma apply_forces_at k at_ s mm mm' b :
  where_ok mm at_ s -> apply_forces k s mm = Ok (mm', b) ->
  b = stretched_at at_ s /\
  forall l, force_at mm' l = option_map (fun x => vadd x (share k at_ l s)) (force_at mm l).
Proof.
  intros [W1 W2] E. unfold apply_forces in E. rewrite W1, W2 in E. cbn [bind] in E.
  rewrite spring_deltas_pull in E. inv_ok. split.
  - rnum. apply delta_stretched.
  - intros l. rewrite (add_force_at _ _ _ _ l Ha0), (add_force_at _ _ _ _ l Ha).
    destruct (force_at mm l) as [x|]; simpl; auto. f_equal. unfold share, pull_at.
    rewrite vneg_scale, !pull_scale.
    destruct (loc_eqb (s_fa s) l), (loc_eqb (s_fb s) l); rewrite vadd_assoc; auto.
Qed.

Lemma apply_all_at k at_ ss : forall mm mm' b b',
  Forall (where_ok mm at_) ss -> apply_all k ss mm b = Ok (mm', b') ->
  b' = (b || existsb (stretched_at at_) ss)%bool /\
  forall l, force_at mm' l = option_map (fun x => vadd x (net_force k at_ l ss)) (force_at mm l).
Proof.
  induction ss as [|s ss IH]; intros mm mm' b b' W E; simpl in E; inv_ok.
  - simpl. rewrite orb_false_r. split; auto. intros l. destruct (force_at mm' l); simpl; auto.
    rewrite vadd_zero_r; auto.
  - destruct a as [m1 b1]. inversion W; subst.
    destruct (apply_forces_at _ _ _ _ _ _ H1 Ha) as [-> F1].
    pose proof (apply_forces_shape _ _ _ _ _ Ha) as (S1 & _ & S3).
    apply IH in E.
    + simpl in E. destruct E as [-> F2]. simpl. split; [rewrite orb_assoc; auto|].
      intros l. rewrite F2, F1. destruct (force_at mm l); simpl; auto. f_equal. apply vadd_assoc.
    + simpl. eapply Forall_impl; [|exact H2]. intros s' [X Y]. split; eapply rd_pos_ext; eauto.
Qed.

Lemma net_force_perm k at_ l ss ss' : Permutation ss ss' -> net_force k at_ l ss = net_force k at_ l ss'.
Proof.
  induction 1; simpl; auto; try congruence.
  rewrite <- !vadd_assoc. f_equal. apply vadd_comm.
Qed.

Lemma existsb_perm {A} (f : A -> bool) l l' : Permutation l l' -> existsb f l = existsb f l'.
Proof.
  induction 1; simpl; auto; try congruence.
  rewrite !orb_assoc. f_equal. apply orb_comm.
Qed.

(** ** One spring step, as a function of positions and velocities *)

Definition step_point (fr : R) (c : Z) (p v f : vec R) : vec R * vec R :=
  if (0 <? c)%Z then (p, vzero) else fst (euler fr p v f).
Definition step_moving (fr : R) (c : Z) (p v f : vec R) : bool :=
  if (0 <? c)%Z then false else snd (euler fr p v f).

Lemma euler_moves fr p v f : moves fr p v f (fst (fst (euler fr p v f))) (snd (fst (euler fr p v f))).
Proof.
  unfold euler, moves, mass. cbn [fst snd]. rewrite reset_zero. rnum. rewrite !clip_ltb.
  split.
  - unfold clip2. apply vec_eq; cbn [vx vy vadd vsub vscale vzero]; rnum; f_equal; lra.
  - apply vec_eq; cbn [vx vy vadd vsub vscale vzero]; rnum; lra.
Qed.

Lemma euler_moving (fr : R) (p v f : vec R) :
  snd (euler fr p v f) = false <-> snd (fst (euler fr p v f)) = vzero.
Proof.
  unfold euler. cbn [fst snd].
  match goal with |- context [reset_if_close ?t ?x] => generalize (reset_if_close t x) end. intros v2. rnum.
  rewrite orb_false_iff, !Rltb_niff. split.
  - intros [A B]. pose proof (Rabs_pos (vx v2)); pose proof (Rabs_pos (vy v2)).
    assert (X : Rabs (vx v2) = 0) by lra. assert (Y : Rabs (vy v2) = 0) by lra.
    apply vec_eq; unfold vzero; rnum; cbn [vx vy].
    + destruct (Req_dec (vx v2) 0); auto. apply Rabs_no_R0 in H1. lra.
    + destruct (Req_dec (vy v2) 0); auto. apply Rabs_no_R0 in H1. lra.
  - intros ->. unfold vzero; cbn [vx vy]; rnum. rewrite Rabs_R0. split; lra.
Qed.

Lemma where_place pos heap fs s :
  length pos = 16%nat -> spring_valid heap s -> where_ok (mkMem pos fs heap) (place_of pos heap) s.
Proof.
  intros L (_ & _ & A & B). unfold where_ok.
  assert (X : forall l, loc_valid heap l -> rd_pos (mkMem pos fs heap) l = Ok (place_of pos heap l)).
  { intros [i|b] V; simpl in *.
    - rewrite (nth_error_nth' pos vzero) by lia. auto.
    - unfold heap_live in V. rewrite nth_error_map in V. unfold rd_blk.
      unfold block in *. destruct (@nth_error (option (vec R * vec R)) heap b) as [[pf|]|] eqn:E; simpl in V; try discriminate.
      simpl. apply nth_error_nth with (d := None) in E. unfold block in *. rewrite E. auto. }
  auto.
Qed.

(** The real-valued spring step: positions, velocities, whether anything
    happened. *)
Definition rstep (k fr : R) (cs : list Z) (ss : list (spring R)) (heap : list (block R))
    (pos vel : list (vec R)) : list (vec R) * list (vec R) * bool :=
  let at_ := place_of pos heap in
  let r := fun i => step_point fr (nth i cs 0%Z) (nth i pos vzero) (nth i vel vzero) (net_force k at_ (LMesh i) ss) in
  (map (fun i => fst (r i)) (seq 0 16), map (fun i => snd (r i)) (seq 0 16),
   (existsb (stretched_at at_) ss ||
    existsb (fun i => step_moving fr (nth i cs 0%Z) (nth i pos vzero) (nth i vel vzero) (net_force k at_ (LMesh i) ss)) (seq 0 16))%bool).

Lemma list16 {A} (d : A) l : length l = 16%nat -> l = map (fun i => nth i l d) (seq 0 16).
Proof. intros L. do 17 (destruct l as [|? l]; try discriminate). reflexivity. Qed.

Lemma existsb_ext {A} (f g : A -> bool) l : (forall x, In x l -> f x = g x) -> existsb f l = existsb g l.
Proof. induction l; simpl; intros X; auto. rewrite X, IHl; auto. Qed.

Lemma existsb_map {A B} (g : B -> bool) (f : A -> B) l : existsb g (map f l) = existsb (fun x => g (f x)) l.
Proof. induction l; simpl; auto. rewrite IHl; auto. Qed.

Lemma integrate_points_seq fr : forall n cs ps vs fs,
  length cs = n -> length ps = n -> length vs = n -> length fs = n ->
  integrate_points fr cs ps vs fs =
  (map (fun i => fst (step_point fr (nth i cs 0%Z) (nth i ps vzero) (nth i vs vzero) (nth i fs vzero))) (seq 0 n),
   map (fun i => snd (step_point fr (nth i cs 0%Z) (nth i ps vzero) (nth i vs vzero) (nth i fs vzero))) (seq 0 n),
   existsb (fun i => step_moving fr (nth i cs 0%Z) (nth i ps vzero) (nth i vs vzero) (nth i fs vzero)) (seq 0 n)).
Proof.
  induction n; intros [|c cs] [|p ps] [|v vs] [|f fs] L1 L2 L3 L4; try discriminate; auto.
  cbn [integrate_points seq map existsb]. rewrite (IHn cs ps vs fs) by (simpl in *; lia).
  rewrite <- seq_shift, !map_map. cbn [nth].
  rewrite existsb_map. cbn [nth].
  assert (A : step_point fr c p v f = if (0 <? c)%Z then (p, vzero) else fst (euler fr p v f)) by reflexivity.
  assert (B : step_moving fr c p v f = if (0 <? c)%Z then false else snd (euler fr p v f)) by reflexivity.
  rewrite A, B. destruct (0 <? c)%Z; [|destruct (euler fr p v f) as [[p' v'] b']]; reflexivity.
Qed.

Lemma spring_step_R k fr cs ss pos vel heap :
  length cs = 16%nat -> length pos = 16%nat -> length vel = 16%nat -> Forall (spring_valid heap) ss ->
  exists heap', spring_step k fr cs ss pos vel heap =
    Ok (fst (fst (rstep k fr cs ss heap pos vel)), snd (fst (rstep k fr cs ss heap pos vel)), heap',
        snd (rstep k fr cs ss heap pos vel)) /\ heap_pos heap' = heap_pos heap.
Proof.
  intros L1 L2 L3 V. unfold spring_step, calculate_forces.
  set (m0 := mkMem pos (repeat vzero mesh_n) heap).
  destruct (apply_all_valid k ss m0 false) as ([mm fe] & E); auto.
  rewrite E. cbn [bind].
  assert (W : Forall (where_ok m0 (place_of pos heap)) ss).
  { eapply Forall_impl; [|exact V]. intros s. apply where_place; auto. }
  destruct (apply_all_at _ _ _ _ _ _ _ W E) as [-> F].
  pose proof (apply_all_shape _ _ _ _ _ _ E) as (S1 & S2 & S3). simpl in S2, S3.
  rewrite (integrate_points_seq fr 16) by auto.
  exists (m_heap mm). split; auto. unfold rstep. cbn [fst snd].
  assert (FI : forall i, (i < 16)%nat -> nth i (m_force mm) vzero = net_force k (place_of pos heap) (LMesh i) ss).
  { intros i Hi. specialize (F (LMesh i)). unfold m0 in F. cbn [force_at m_force] in F.
    rewrite nth_error_repeat in F by auto. cbn [option_map] in F.
    apply nth_error_nth with (d := vzero) in F. rewrite F. rewrite vadd_comm. apply vadd_zero_r. }
  f_equal. f_equal; [f_equal|].
  - f_equal; apply map_ext_in; intros i Hi; apply in_seq in Hi; rewrite FI by lia; auto.
  - rewrite orb_false_l. f_equal. apply existsb_ext. intros i Hi. apply in_seq in Hi. rewrite FI by lia. auto.
Qed.
