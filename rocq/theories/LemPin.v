(** Single grabs, constrainment, over the real numbers. *)

From Coq Require Import ZArith Reals Bool List Lia Lra.
From Verif Require Import Num Geometry Outcome Wobbly Spec SpecMotion LemBasic LemReal LemInv LemSprings LemHistory LemNetwork LemLifo LemAnchors LemMoves LemForce LemRest LemSettle LemSafe LemStill LemAnchorFacts LemNetworkFacts LemBezier LemWhole LemShape.
Import ListNotations.
Local Open Scope R_scope.
Local Arguments vdist : simpl never.

Lemma nth_error_combine_some {A B} (l : list A) (l' : list B) : forall i a b,
  nth_error l i = Some a -> nth_error l' i = Some b -> nth_error (combine l l') i = Some (a, b).
Proof. revert l'. induction l as [|x l IH]; intros [|y l'] [|i] a b; cbn [nth_error combine]; intros; try discriminate; try congruence. apply IH; auto. Qed.

(** ** A point held at its rest position *)

Record pinned (n i : nat) (x : vec R) (m : model R) : Prop := {
  pin_inv : Inv m;
  pin_handle : lookup_handle (mhandles m) n = Some (HGrab i);
  pin_active : active m = true;
  pin_pos : nth_error (mpos m) i = Some x;
  pin_target : nth_error (mtargets m) i = Some x;
  pin_range : 0 < st_range (mset m) }.

Lemma pinned_bound n i x m : pinned n i x m -> (Z.of_nat (length (mhandles m)) < two32)%Z.
Proof. intros P. pose proof (pin_active _ _ _ _ P) as A. unfold active in A. apply Z.eqb_eq in A. rewrite (inv_count _ (pin_inv _ _ _ _ P)) in A. rewrite A. reflexivity. Qed.

Lemma constrain_home (r : R) (x : vec R) : 0 < r -> constrain_point r x x = (x, false).
Proof. intros P. unfold constrain_point. rewrite vdist_same. rnum. destruct (Rltb_spec 0 r); [reflexivity|lra]. Qed.

Lemma pinned_constrained n i x m : pinned n i x m -> nth_error (fst (constrainment m (mpos m))) i = Some x.
Proof.
  intros P. unfold constrainment. rewrite (pin_active _ _ _ _ P).
  rewrite constrain_points_map by (rewrite (inv_pos _ (pin_inv _ _ _ _ P)), (inv_tgt _ (pin_inv _ _ _ _ P)); auto).
  rewrite nth_error_map. rewrite (nth_error_combine_some (mtargets m) (mpos m) i x x); try apply P.
  cbn [option_map fst snd]. rewrite constrain_home by apply P. reflexivity.
Qed.

Lemma pinned_once n i x m m' b : pinned n i x m -> integrate_once m = Ok (m', b) -> pinned n i x m'.
Proof.
  intros P E. pose proof (pin_inv _ _ _ _ P) as I.
  assert (Hi : (i < 16)%nat) by (rewrite <- (inv_pos _ I); apply nth_error_Some; rewrite (pin_pos _ _ _ _ P); discriminate).
  destruct (integrate_once_point m m' b i I (pinned_bound _ _ _ _ P) Hi E) as (p & v & f & mm & fe & E1 & _ & _ & _ & G & _).
  rewrite (pinned_constrained _ _ _ _ P) in E1. injection E1 as <-.
  destruct G as (G & _); [exists n; apply P|].
  pose proof (integrate_once_shape _ _ _ E) as (pp & vv & hh & -> & L1 & L2 & _).
  constructor; try apply P; auto. apply inv_sim; auto; [rewrite L1|rewrite L2]; apply I.
Qed.

Lemma pinned_n n i x k : forall m m' b b', pinned n i x m -> integrate_n k m b = Ok (m', b') -> pinned n i x m'.
Proof.
  induction k; intros m m' b b' P E; cbn [integrate_n] in E; inv_ok; auto.
  destruct a as [m1 b1]. cbn [fst snd] in E. eapply IHk; [|exact E]. eapply pinned_once; eauto.
Qed.

Lemma pinned_flag n i x m b : pinned n i x m -> pinned n i x (set_unequal m b).
Proof. intros [[] ? ? ? ? ?]. constructor; auto. constructor; auto. Qed.

Lemma pinned_step_time n i x t m m' b : pinned n i x m -> model_step t m = Ok (m', b) -> pinned n i x m'.
Proof.
  intros P E. unfold model_step in E. inv_ok. destruct a as [m1 b1]. inv_ok.
  match goal with X : integrate_n _ _ _ = Ok _ |- _ => eapply pinned_n in X; [|exact P]; apply (pinned_flag _ _ _ _ ((if (t =? 0)%Z then munequal m else false) || b1)) in X; rename X into Q end.
  destruct (negb _ && active _)%bool; auto.
  destruct Q as [Iq ? ? ? ? ?]. constructor; auto. destruct Iq. constructor; auto.
Qed.

Lemma nth_error_list_set_same {A} i (a : A) l : (i < length l)%nat -> nth_error (list_set i a l) i = Some a.
Proof. revert i. induction l; intros [|i] L; cbn [length] in L; cbn [list_set nth_error]; try lia; auto. apply IHl. lia. Qed.

Lemma pinned_step n i x fuel m o m' u :
  pinned n i x m -> moves_only o -> step_op fuel m o = Ok (m', u) -> pinned n i (vadd x (movement n [o])) m'.
Proof.
  intros P W E. pose proof (inv_step_op _ _ _ _ _ (pin_inv _ _ _ _ P) E) as I'.
  assert (Z0 : vadd x (mkV 0 0) = x) by (veq; ring).
  unfold step_op in E. destruct (needs_model o && negb (malive m))%bool; [discriminate|].
  destruct o; try contradiction; cbn [movement] in *; inv_ok.
  - unfold move_anchor in *. destruct (Nat.eqb_spec n0 n) as [->|Ne].
    + rewrite (pin_handle _ _ _ _ P) in *. destruct (malive m); [|discriminate]. rewrite (pin_active _ _ _ _ P) in *. inv_ok.
      cbn [set_targets mpos] in *. replace (vadd d (mkV 0 0)) with d by (veq; ring).
      match goal with X : nth_error (mpos m) i = Some ?a |- _ => rewrite (pin_pos _ _ _ _ P) in X; injection X as <- end.
      constructor; auto; try apply P; cbn [set_pos set_targets mpos mtargets].
      * apply nth_error_list_set_same. apply nth_error_Some. rewrite (pin_pos _ _ _ _ P). discriminate.
      * rewrite nth_error_map, (pin_target _ _ _ _ P). reflexivity.
    + exfalso. pose proof (pin_active _ _ _ _ P) as A. unfold active in A. apply Z.eqb_eq in A.
      rewrite (inv_count _ (pin_inv _ _ _ _ P)) in A. pose proof (pin_handle _ _ _ _ P) as Hh.
      destruct (mhandles m) as [|[k hd] [|]]; cbn [length] in A; try lia. cbn [lookup_handle] in *.
      destruct (Nat.eqb_spec k n); [|discriminate]. subst k. destruct (Nat.eqb_spec n n0); [congruence|discriminate].
  - rewrite Z0. destruct a as [m1 b1]. eapply pinned_step_time; eauto.
  - match goal with X : move_model_by _ _ = Ok _ |- _ => apply move_model_by_shape in X; destruct X as (hh & -> & _) end.
    replace (vadd d (mkV 0 0)) with d by (veq; ring). constructor; auto; try apply P; cbn [set_heap set_pos set_targets mpos mtargets].
    + rewrite nth_error_map, (pin_pos _ _ _ _ P). reflexivity.
    + rewrite nth_error_map, (pin_target _ _ _ _ P). reflexivity.
  - rewrite Z0. destruct P. constructor; auto.
Qed.

Lemma movement_cons n o ops : movement n (o :: ops) = vadd (movement n [o]) (movement n ops).
Proof. destruct o; cbn [movement]; try (veq; ring). destruct (Nat.eqb n0 n); veq; ring. Qed.

Lemma pinned_run n i fuel ops : forall x m m' us,
  pinned n i x m -> Forall moves_only ops -> run fuel m ops = Ok (m', us) -> pinned n i (vadd x (movement n ops)) m'.
Proof.
  induction ops as [|o ops IH]; intros x m m' us P F E; cbn [run] in E; inv_ok.
  - replace (vadd x (movement n [])) with x by (cbn [movement]; veq; ring). auto.
  - inversion F; subst. destruct a as [m1 u1]. destruct a0 as [m2 us2]. cbn [fst snd] in *.
    match goal with X : step_op _ m o = Ok _ |- _ => apply (pinned_step _ _ _ _ _ _ _ _ P) in X; auto; rename X into P1 end.
    rewrite movement_cons, <- vadd_assoc. eapply IH; eauto.
Qed.

(** ** Grabbing on an undeformed model *)

Lemma grab_pins fuel (m m' : model R) g n q :
  Inv m -> mcount m = 0%Z -> mpos m = position_array q (tile_of m) -> mvel m = still -> 0 < st_range (mset m) ->
  step_op fuel m (OpGrab g) = Ok (m', OHandle n) -> exists i x, pinned n i x m'.
Proof.
  intros I C P V Rr E. pose proof (inv_step_op _ _ _ _ _ I E) as I'.
  unfold step_op in E. destruct (needs_model _ && negb (malive m))%bool; [discriminate|]. inv_ok. destruct a as [m1 k]. cbn [fst snd] in *.
  unfold grab_anchor in Ha. inv_ok.
  match goal with X : closest_index (mpos m) g = Some ?j |- _ => rename X into Ci; rename j into i end.
  match goal with X : activate _ _ = Ok ?a |- _ => rename X into EA; rename a into m1 end.
  unfold activate in EA. cbn [set_count set_unequal mcount] in EA. rewrite C in EA. cbn [Z.add Z.eqb Pos.eqb] in EA.
  destruct fuel as [|fuel]; [discriminate EA|]. unfold recalc_targets in EA.
  assert (X : predict (S fuel) (set_count (set_unequal m true) 1) (fun pos => (pos, false)) = Ok (nth 0 (mpos m) vzero)).
  { transitivity (predict (S fuel) m (fun pos => (pos, false))); [reflexivity|]. apply predict_rest; auto. rewrite P. apply grid_quiet. }
  cbn [set_count set_unequal mw mh] in *. rewrite X in EA. cbn [bind] in EA. inv_ok.
  pose proof (closest_index_nearest _ _ _ Ci) as (x & Hx & _).
  assert (Q0 : nth 0 (mpos m) vzero = q) by (rewrite P; apply nth_error_nth; apply grid_nth0).
  exists i, x. constructor; auto.
  - cbn [add_handle set_handles set_tracked set_targets set_next_id mhandles mnext_handle].
    rewrite lookup_app.
    match goal with |- match ?l with _ => _ end = _ => replace l with (@None (handle R)); [|symmetry] end.
    + cbn [lookup_handle]. rewrite Nat.eqb_refl. reflexivity.
    + apply lookup_handle_none. intros Hin. apply (inv_next _ I) in Hin. lia.
  - cbn [add_handle set_handles set_tracked set_targets set_next_id mtargets]. rewrite Q0.
    change (tile_size (mw m) (mh m)) with (tile_of m). rewrite <- P. exact Hx.
Qed.

Lemma grab_home fuel (m m' : model R) g n q :
  mcount m = 0%Z -> Inv m -> mpos m = position_array q (tile_of m) -> mvel m = still ->
  step_op fuel m (OpGrab g) = Ok (m', OHandle n) -> mtargets m' = mpos m'.
Proof.
  intros C I P V E.
  unfold step_op in E. destruct (needs_model _ && negb (malive m))%bool; [discriminate|]. inv_ok. destruct a as [m1 k]. cbn [fst snd] in *.
  unfold grab_anchor in Ha. inv_ok.
  match goal with X : activate _ _ = Ok ?a |- _ => rename X into EA; rename a into m1 end.
  unfold activate in EA. cbn [set_count set_unequal mcount] in EA. rewrite C in EA. cbn [Z.add Z.eqb Pos.eqb] in EA.
  destruct fuel as [|fuel]; [discriminate EA|]. unfold recalc_targets in EA.
  assert (X : predict (S fuel) (set_count (set_unequal m true) 1) (fun pos => (pos, false)) = Ok (nth 0 (mpos m) vzero)).
  { transitivity (predict (S fuel) m (fun pos => (pos, false))); [reflexivity|]. apply predict_rest; auto. rewrite P. apply grid_quiet. }
  cbn [set_count set_unequal mw mh] in *. rewrite X in EA. cbn [bind] in EA. inv_ok.
  assert (Q0 : nth 0 (mpos m) vzero = q) by (rewrite P; apply nth_error_nth; apply grid_nth0).
  cbn [add_handle set_handles set_tracked set_targets set_next_id set_count set_unequal mtargets mpos]. rewrite Q0.
  change (tile_size (mw m) (mh m)) with (tile_of m). rewrite <- P. reflexivity.
Qed.

Lemma no_live_count p w h st ops (m : model R) : reached p w h st ops m -> live_anchors ops = [] -> mcount m = 0%Z.
Proof.
  intros Hr L. rewrite (inv_count _ (inv_reached _ _ _ _ _ _ Hr)). pose proof (reached_live _ _ _ _ _ _ Hr) as E.
  rewrite L in E. destruct (mhandles m); [reflexivity|discriminate].
Qed.

Lemma pinned_point n i x m : pinned n i x m -> anchor_point m n = Some x.
Proof. intros P. unfold anchor_point. rewrite (pin_handle _ _ _ _ P). apply P. Qed.

Lemma single_grab p w h st ops (m0 m1 m2 : model R) g q n fuel fuel' ops' us :
  reached p w h st ops m0 -> live_anchors ops = [] -> mpos m0 = grid q (mw m0) (mh m0) -> at_rest (mvel m0) ->
  0 < st_range (mset m0) ->
  step_op fuel m0 (OpGrab g) = Ok (m1, OHandle n) ->
  Forall moves_only ops' -> run fuel' m1 ops' = Ok (m2, us) ->
  exists x, anchor_point m1 n = Some x /\ anchor_point m2 n = Some (vadd x (movement n ops')).
Proof.
  intros Hr L P V Rr E F Er. pose proof (inv_reached _ _ _ _ _ _ Hr) as I. rewrite grid_array in P.
  destruct (grab_pins fuel m0 m1 g n q I (no_live_count _ _ _ _ _ _ Hr L) P (at_rest_still _ (inv_vel _ I) V) Rr E) as (i & x & Pn).
  exists x. split; [eapply pinned_point; eauto|]. eapply pinned_point. eapply pinned_run; eauto.
Qed.

(** ** Also under [MoveModelTo] and [ResizeModel] *)

Lemma pinned_keeps n i x fuel m o m' u :
  pinned n i x m -> keeps_anchors o -> step_op fuel m o = Ok (m', u) -> exists x', pinned n i x' m'.
Proof.
  intros P W E. destruct o; try contradiction;
    try (exists (vadd x (movement n [OpMoveAnchor n0 d])); eapply pinned_step; [exact P| |exact E]; exact I);
    try (exists (vadd x (movement n [OpStep time])); eapply pinned_step; [exact P| |exact E]; exact I);
    try (exists (vadd x (movement n [OpMoveBy d])); eapply pinned_step; [exact P| |exact E]; exact I);
    try (exists (vadd x (movement n [OpSettings st])); eapply pinned_step; [exact P| |exact E]; exact W).
  - pose proof (inv_step_op _ _ _ _ _ (pin_inv _ _ _ _ P) E) as I'.
    unfold step_op in E. destruct (needs_model _ && negb (malive m))%bool; [discriminate|]. inv_ok.
    unfold move_model_to in *. inv_ok. destruct a as [q m1].
    match goal with X : target_position _ _ = Ok _ |- _ => apply target_position_shape in X; destruct X as (id & -> & _) end.
    cbn [fst snd] in *. match goal with X : move_model_by ?d _ = Ok _ |- _ => exists (vadd x d); apply move_model_by_shape in X; destruct X as (hh & -> & _) end.
    constructor; auto; try apply P; cbn [set_heap set_pos set_targets set_next_id mpos mtargets].
    + rewrite nth_error_map, (pin_pos _ _ _ _ P). reflexivity.
    + rewrite nth_error_map, (pin_target _ _ _ _ P). reflexivity.
  - pose proof (inv_step_op _ _ _ _ _ (pin_inv _ _ _ _ P) E) as I'.
    unfold step_op in E. destruct (needs_model _ && negb (malive m))%bool; [discriminate|]. inv_ok.
    unfold resize_model in *. destruct (negb _); [discriminate|]. cbv zeta in *.
    destruct (vequals _ _); inv_ok; [exists x; auto|].
    match goal with X : target_position _ _ = Ok ?a |- _ => unfold target_position in X; rewrite (pin_active _ _ _ _ P) in X; inv_ok end.
    inv_ok.
    match goal with X : nth_error (mtargets m) 0 = Some ?a, Y : nth_error (mtargets m) 0 = Some ?b |- _ =>
      rewrite X in Y; injection Y as Y; subst end.
    match goal with |- exists _, pinned _ _ _ (set_size (set_heap (set_springs (set_targets (set_pos _ (map ?f _)) _) _ _) _) _ _) =>
      exists (f x) end.
    constructor; auto; try apply P; cbn [set_size set_heap set_springs set_pos set_targets mpos mtargets].
    + rewrite nth_error_map, (pin_pos _ _ _ _ P). reflexivity.
    + rewrite nth_error_map, (pin_target _ _ _ _ P). reflexivity.
Qed.

Lemma pinned_keeps_run n i fuel ops : forall x m m' us,
  pinned n i x m -> Forall keeps_anchors ops -> run fuel m ops = Ok (m', us) -> exists x', pinned n i x' m'.
Proof.
  induction ops as [|o ops IH]; intros x m m' us P F E; cbn [run] in E; inv_ok; [eauto|].
  inversion F; subst. destruct a as [m1 u1]. destruct a0 as [m2 us2]. cbn [fst snd] in *.
  match goal with X : step_op _ m o = Ok _ |- _ => apply (pinned_keeps _ _ _ _ _ _ _ _ P) in X; auto; destruct X as (x1 & P1) end.
  eapply IH; eauto.
Qed.

Lemma single_grab_home p w h st ops (m0 m1 m2 : model R) g q n fuel fuel' ops' us :
  reached p w h st ops m0 -> live_anchors ops = [] -> mpos m0 = grid q (mw m0) (mh m0) -> at_rest (mvel m0) ->
  0 < st_range (mset m0) ->
  step_op fuel m0 (OpGrab g) = Ok (m1, OHandle n) ->
  Forall keeps_anchors ops' -> run fuel' m1 ops' = Ok (m2, us) ->
  exists i x, lookup_handle (mhandles m2) n = Some (HGrab i) /\ nth_error (mpos m2) i = Some x /\ nth_error (mtargets m2) i = Some x.
Proof.
  intros Hr L P V Rr E F Er. pose proof (inv_reached _ _ _ _ _ _ Hr) as I. rewrite grid_array in P.
  destruct (grab_pins fuel m0 m1 g n q I (no_live_count _ _ _ _ _ _ Hr L) P (at_rest_still _ (inv_vel _ I) V) Rr E) as (i & x & Pn).
  destruct (pinned_keeps_run _ _ _ _ _ _ _ _ Pn F Er) as (x' & Pn'). exists i, x'. split; [|split]; apply Pn'.
Qed.

(** ** The constraint pass *)

Lemma constrain_confined r t p : 0 < r -> confined r t p (fst (constrain_point r t p)).
Proof.
  intros Rr. unfold constrain_point, confined. rnum. rewrite euclid_vdist. set (d := euclid t p).
  destruct (Rltb_spec d r) as [Lt|Ge]; cbn [fst]; (split; intros H); try (exfalso; lra); auto.
  assert (D0 : 0 < d) by lra.
  assert (Hm : nmin2 r d = r) by (unfold nmin2; rnum; destruct (Rltb_spec d r); lra). rnum. rewrite Hm. clear Hm.
  assert (Sq : (vx t - vx p) ^ 2 + (vy t - vy p) ^ 2 = d ^ 2) by (unfold d, euclid; rewrite pow2_sqrt; [ring|apply Rplus_le_le_0_compat; apply pow2_ge_0]).
  split.
  - unfold euclid, vsub. cbn [vx vy]. rnum.
    replace ((vx t - (vx t - r * ((vx t - vx p) / d))) ^ 2 + (vy t - (vy t - r * ((vy t - vy p) / d))) ^ 2)
      with (r ^ 2 * ((vx t - vx p) ^ 2 + (vy t - vy p) ^ 2) / d ^ 2) by (field; lra).
    rewrite Sq. replace (r ^ 2 * d ^ 2 / d ^ 2) with (r ^ 2) by (field; lra). apply sqrt_pow2. lra.
  - exists (r / d). split; [split|].
    + apply Rdiv_lt_0_compat; auto.
    + apply Rmult_le_reg_r with d; auto. unfold Rdiv. rewrite Rmult_assoc, Rinv_l; lra.
    + unfold vsub. rnum. f_equal; cbn [vx vy]; field; lra.
Qed.

Lemma confined_near r t p p' : 0 < r -> confined r t p p' -> euclid t p' <= r.
Proof. intros Rr [A B]. destruct (Rlt_le_dec (euclid t p) r) as [L|L]; [rewrite (A L); lra|destruct (B L); lra]. Qed.

Lemma euclid_triangle a b c : euclid a c <= euclid a b + euclid b c.
Proof.
  assert (X : forall u v, euclid u v = dist_euc (vx u) (vy u) (vx v) (vy v)) by (intros; unfold euclid, dist_euc, Rsqr; f_equal; ring).
  rewrite !X. rewrite (Rplus_comm (dist_euc (vx a) _ _ _)). rewrite Rplus_comm. apply triangle.
Qed.

Lemma euclid_half q v : euclid q (mkV (vx q + vx v / 2) (vy q + vy v / 2)) = magnitude v / 2.
Proof.
  unfold euclid, magnitude. cbn [vx vy].
  replace ((vx q - (vx q + vx v / 2)) ^ 2 + (vy q - (vy q + vy v / 2)) ^ 2) with ((vx v ^ 2 + vy v ^ 2) * ((/ 2) ^ 2)) by field.
  rewrite sqrt_mult_alt by (apply Rplus_le_le_0_compat; apply pow2_ge_0). rewrite sqrt_pow2 by lra. lra.
Qed.

Lemma one_integration t : (0 < t <= 16)%Z -> step_count t = 1%nat.
Proof. intros [A B]. unfold step_count. replace ((t + 15) / 16)%Z with 1%Z; [reflexivity|]. apply (Z.div_unique (t+15) 16 1 (t - 1)); lia. Qed.

Lemma constrained_step p w h st ops (m m' : model R) b t i y :
  reached p w h st ops m -> (Z.of_nat (length ops) < two32)%Z -> length (live_anchors ops) = 1%nat ->
  0 < st_range (mset m) -> (0 < t <= 16)%Z -> model_step t m = Ok (m', b) ->
  nth_error (mpos m) i = Some y ->
  exists z z' v' q, nth_error (mtargets m) i = Some z /\ nth_error (mtargets m') i = Some z /\
    nth_error (mpos m') i = Some z' /\ nth_error (mvel m') i = Some v' /\
    confined (st_range (mset m)) z y q /\
    (b = true -> z' = mkV (vx q + vx v' / 2) (vy q + vy v' / 2)) /\ (b = false -> z' = z) /\
    euclid z z' <= st_range (mset m) + magnitude v' / 2.
Proof.
  intros Hr Hb L Rr Ht E Hy. pose proof (inv_reached _ _ _ _ _ _ Hr) as I.
  assert (A : active m = true) by (apply (reached_active _ _ _ _ _ _ Hr); auto).
  assert (Hi : (i < 16)%nat) by (rewrite <- (inv_pos _ I); apply nth_error_Some; congruence).
  destruct (nth_error (mtargets m) i) as [z|] eqn:Hz; [|apply nth_error_None in Hz; rewrite (inv_tgt _ I) in Hz; lia].
  unfold model_step in E. rewrite one_integration in E by auto. cbn [integrate_n] in E. replace (t =? 0)%Z with false in E by (symmetry; apply Z.eqb_neq; lia).
  inv_ok. match goal with X : integrate_once m = Ok ?a |- _ => destruct a as [m1 b1] end. cbn [fst snd orb] in *.
  match goal with X : integrate_once m = Ok _ |- _ => rename X into E end.
  destruct (integrate_once_moves _ _ _ _ _ m _ _ i Hr Hb Hi E) as (q & v & Hq & Hv & Hg & Hf).
  pose proof (integrate_once_shape _ _ _ E) as (pp & vv & hh & Em & _).
  assert (Cq : confined (st_range (mset m)) z y q).
  { unfold constrainment in Hq. rewrite A in Hq.
    rewrite constrain_points_map in Hq by (rewrite (inv_pos _ I), (inv_tgt _ I); auto).
    rewrite nth_error_map in Hq. rewrite (nth_error_combine_some (mtargets m) (mpos m) i z y) in Hq; auto.
    cbn [option_map fst snd] in Hq. injection Hq as <-. apply constrain_confined. auto. }
  pose proof (confined_near _ _ _ _ Rr Cq) as Nq.
  assert (Xm : exists z' v', nth_error (mpos m1) i = Some z' /\ nth_error (mvel m1) i = Some v' /\ z' = mkV (vx q + vx v' / 2) (vy q + vy v' / 2)).
  { assert (D : grabbed m i \/ ~ grabbed m i).
    { destruct (Z_lt_dec 0 (grabs i (mhandles m))) as [G0|G0]; [left|right; intros G; apply G0];
        apply (grabs_pos_iff i (mhandles m) (inv_keys _ I)); auto. }
    destruct D as [G|G].
    - destruct (Hg G) as [P1 P2]. exists q, vzero. repeat split; auto. apply vec_eq; unfold vzero; simpl; rnum; field.
    - destruct (Hf G) as (q' & v' & P1 & P2 & _ & P3). exists q', v'. auto. }
  destruct Xm as (z' & v' & Hz' & Hv' & Ez').
  assert (Mg : 0 <= magnitude v') by apply sqrt_pos.
  assert (Tg : mtargets m1 = mtargets m) by (rewrite Em; reflexivity).
  assert (Ac : active m1 = true) by (rewrite Em; exact A).
  cbn [negb andb].
  destruct b1; cbn [negb andb].
  - exists z, z', v', q. cbn [set_unequal mtargets mpos mvel]. rewrite Tg. do 4 (split; auto). split; auto. split; auto. split; [discriminate|].
    eapply Rle_trans; [apply (euclid_triangle z q z')|]. rewrite Ez', euclid_half. lra.
  - change (active (set_unequal m1 false)) with (active m1). rewrite Ac.
    exists z, z, v', q. cbn [set_pos set_unequal mtargets mpos mvel]. rewrite Tg. do 4 (split; auto). split; auto. split; [discriminate|]. split; auto.
    rewrite <- euclid_vdist, vdist_same. lra.
Qed.

(** ** These calls return *)

Lemma rd_blk_fuel {T} (h : list (block T)) b : rd_blk h b <> Err NoFuel.
Proof. unfold rd_blk. destruct (nth_error h b) as [[?|]|]; discriminate. Qed.

Lemma update_inserted_fuel {T} (f : vec T -> vec T) l : forall h, update_inserted f l h <> Err NoFuel.
Proof.
  induction l as [|[a b] l IH]; intros h; cbn [update_inserted]; [discriminate|].
  pose proof (rd_blk_fuel h b). destruct (rd_blk h b) as [pf|e]; cbn [bind]; auto; congruence.
Qed.

Lemma moves_step_total p w h st ops (m : model R) o fuel :
  reached p w h st ops m -> careful_history (ops ++ [o]) -> lifo_history ops -> moves_only o ->
  exists m' u, step_op fuel m o = Ok (m', u).
Proof.
  intros Hr C L Mo. destruct (step_op fuel m o) as [[m' u]|e] eqn:E; [eauto|exfalso].
  assert (e = NoFuel) as -> by (eapply safe_reached; eauto; destruct o; try contradiction; exact I).
  pose proof (inv_reached _ _ _ _ _ _ Hr) as Iv.
  unfold step_op in E. destruct (needs_model o && negb (malive m))%bool; [discriminate|]. destruct o; try contradiction.
  - apply bind_err in E. destruct E as [E|(q & _ & E)]; [|discriminate]. unfold move_anchor in E.
    destruct (lookup_handle _ _) as [hd|]; [|discriminate]. destruct (malive m); [|discriminate].
    destruct hd; apply bind_err in E; destruct E as [E|(q & _ & E)]; try discriminate.
    + apply of_option_err in E. destruct E; discriminate.
    + apply (rd_blk_fuel _ _ E).
  - apply bind_err in E. destruct E as [E|(q & _ & E)]; [|discriminate]. unfold model_step in E.
    destruct (net_reached _ _ _ _ _ _ Hr) as (next & N).
    unfold careful_history in C. rewrite each_call_app in C. destruct C as [C1 _].
    destruct (integrate_n_ok (step_count time) m false Iv (net_h _ _ N) (rinv_reached _ _ _ _ _ _ Hr L)) as ([m2 b2] & E2).
    rewrite E2 in E. discriminate.
  - apply bind_err in E. destruct E as [E|(q & _ & E)]; [|discriminate]. unfold move_model_by in E.
    apply bind_err in E. destruct E as [E|(q & _ & E)]; [|discriminate]. apply (update_inserted_fuel _ _ _ E).
  - discriminate.
Qed.

Lemma moves_total fuel more : forall p w h st ops (m : model R),
  reached p w h st ops m -> careful_history (ops ++ more) -> lifo_history ops -> Forall moves_only more ->
  exists m' us, run fuel m more = Ok (m', us).
Proof.
  induction more as [|o more IH]; intros p w h st ops m Hr C L F; [exists m, []; reflexivity|].
  inversion F; subst. replace (ops ++ o :: more) with ((ops ++ [o]) ++ more) in C by (rewrite <- app_assoc; reflexivity).
  destruct (moves_step_total p w h st ops m o fuel Hr) as (m1 & u1 & E1); auto.
  { unfold careful_history in *. rewrite each_call_app in C. tauto. }
  destruct (IH p w h st (ops ++ [o]) m1) as (m2 & us & E2); auto.
  - eapply reached_fuel; eauto.
  - unfold lifo_history. rewrite each_call_app. split; auto. split; [destruct o; try contradiction; exact I|exact I].
  - exists m2, (u1 :: us). cbn [run]. rewrite E1. cbn [bind fst snd]. rewrite E2. reflexivity.
Qed.

Lemma single_grab_total p w h st ops (m0 m1 : model R) g q n fuel fuel' ops' :
  reached p w h st ops m0 -> live_anchors ops = [] -> mpos m0 = grid q (mw m0) (mh m0) -> at_rest (mvel m0) ->
  0 < st_range (mset m0) -> lifo_history ops -> careful_history (ops ++ OpGrab g :: ops') ->
  step_op fuel m0 (OpGrab g) = Ok (m1, OHandle n) ->
  Forall moves_only ops' ->
  exists m2 us x, run fuel' m1 ops' = Ok (m2, us) /\
    anchor_point m1 n = Some x /\ anchor_point m2 n = Some (vadd x (movement n ops')).
Proof.
  intros Hr L P V Rr Lf C E F.
  destruct (moves_total fuel' ops' p w h st (ops ++ [OpGrab g]) m1) as (m2 & us & Er); auto.
  - eapply reached_fuel; eauto.
  - rewrite <- app_assoc. exact C.
  - unfold lifo_history. rewrite each_call_app. split; auto. split; exact I.
  - destruct (single_grab p w h st ops m0 m1 m2 g q n fuel fuel' ops' us) as (x & A & B); auto.
    exists m2, us, x. auto.
Qed.

(** ** A held point, whatever the state of the mesh *)

Lemma constrain_twice r t p : 0 < r -> fst (constrain_point r t (fst (constrain_point r t p))) = fst (constrain_point r t p).
Proof.
  intros Rr. pose proof (constrain_confined r t p Rr) as C. set (q := fst (constrain_point r t p)) in *.
  pose proof (constrain_confined r t q Rr) as C'. set (q' := fst (constrain_point r t q)) in *. clearbody q q'.
  destruct C' as [C1 C2]. destruct (Rlt_le_dec (euclid t q) r) as [L|L]; auto.
  destruct (C2 L) as (D & s & Hs & Eq').
  assert (Er : euclid t q = r) by (pose proof (confined_near _ _ _ _ Rr C); lra).
  assert (Es : euclid t q' = s * euclid t q).
  { rewrite Eq'. unfold euclid. cbn [vx vy].
    replace ((vx t - (vx t + s * (vx q - vx t))) ^ 2 + (vy t - (vy t + s * (vy q - vy t))) ^ 2)
      with (s ^ 2 * ((vx t - vx q) ^ 2 + (vy t - vy q) ^ 2)) by ring.
    rewrite sqrt_mult_alt by apply pow2_ge_0. rewrite sqrt_pow2 by lra. reflexivity. }
  rewrite D, Er in Es. assert (s = 1) as -> by (apply Rmult_eq_reg_r with r; lra).
  rewrite Eq'. destruct q as [qx qy]. cbn [vx vy]. f_equal; ring.
Qed.

Lemma held_once n i z y m m' b :
  Inv m -> active m = true -> lookup_handle (mhandles m) n = Some (HGrab i) ->
  nth_error (mpos m) i = Some y -> nth_error (mtargets m) i = Some z ->
  integrate_once m = Ok (m', b) ->
  nth_error (mpos m') i = Some (fst (constrain_point (st_range (mset m)) z y)) /\
  nth_error (mvel m') i = Some vzero /\ exists p v h, m' = set_sim m p v h /\ Inv m'.
Proof.
  intros I A Hn Hy Hz E.
  assert (Hi : (i < 16)%nat) by (rewrite <- (inv_pos _ I); apply nth_error_Some; congruence).
  assert (HB : (Z.of_nat (length (mhandles m)) < two32)%Z).
  { pose proof A as A'. unfold active in A'. apply Z.eqb_eq in A'. rewrite (inv_count _ I) in A'. rewrite A'. reflexivity. }
  destruct (integrate_once_point m m' b i I HB Hi E) as (p & v & f & mm & fe & E1 & _ & _ & _ & G & _).
  unfold constrainment in E1. rewrite A in E1. rewrite constrain_points_map in E1 by (rewrite (inv_pos _ I), (inv_tgt _ I); auto).
  rewrite nth_error_map, (nth_error_combine_some (mtargets m) (mpos m) i z y) in E1 by auto. cbn [option_map fst snd] in E1. injection E1 as <-.
  destruct G as (G1 & G2); [exists n; auto|]. split; auto. split; auto.
  pose proof (integrate_once_shape _ _ _ E) as (pp & vv & hh & -> & L1 & L2 & _). exists pp, vv, hh. split; auto.
  apply inv_sim; auto; [rewrite L1|rewrite L2]; apply I.
Qed.

Lemma held_n n i z k : forall y m m' b b',
  Inv m -> active m = true -> lookup_handle (mhandles m) n = Some (HGrab i) -> 0 < st_range (mset m) ->
  nth_error (mpos m) i = Some y -> nth_error (mtargets m) i = Some z ->
  integrate_n (S k) m b = Ok (m', b') ->
  nth_error (mpos m') i = Some (fst (constrain_point (st_range (mset m)) z y)) /\ nth_error (mvel m') i = Some vzero /\
  exists p v h, m' = set_sim m p v h.
Proof.
  induction k; intros y m m' b b' I A Hn Rr Hy Hz E.
  - cbn [integrate_n] in E. inv_ok. match goal with X : integrate_once m = Ok ?a |- _ => destruct a as [m1 b1] end. cbn [fst snd].
    match goal with X : integrate_once m = Ok _ |- _ => destruct (held_once _ _ _ _ _ _ _ I A Hn Hy Hz X) as (P1 & P2 & p & v & h & -> & _) end. eauto 6.
  - remember (S k) as k1. cbn [integrate_n] in E. inv_ok. match goal with X : integrate_once m = Ok ?a |- _ => destruct a as [m1 b1] end. cbn [fst snd] in *.
    match goal with X : integrate_once m = Ok _ |- _ => destruct (held_once _ _ _ _ _ _ _ I A Hn Hy Hz X) as (P1 & P2 & p & v & h & Em & I1) end.
    subst m1 k1. apply (IHk (fst (constrain_point (st_range (mset m)) z y)) (set_sim m p v h)) in E; auto.
    change (mset (set_sim m p v h)) with (mset m) in E. rewrite constrain_twice in E by auto.
    destruct E as (Q1 & Q2 & p3 & v3 & h3 & ->). split; auto. split; auto. exists p3, v3, h3. destruct m. reflexivity.
Qed.

Lemma held_step p w h st ops (m m' : model R) b t n i y fuel :
  reached p w h st ops m -> live_anchors ops = [(n, KGrab)] -> 0 < st_range (mset m) -> (0 < t)%Z ->
  lookup_handle (mhandles m) n = Some (HGrab i) -> nth_error (mpos m) i = Some y ->
  step_op fuel m (OpStep t) = Ok (m', OMore b) ->
  exists z y', nth_error (mtargets m) i = Some z /\ nth_error (mpos m') i = Some y' /\ nth_error (mvel m') i = Some vzero /\
    (b = true -> confined (st_range (mset m)) z y y') /\ (b = false -> y' = z).
Proof.
  intros Hr L Rr Ht Hn Hy E. pose proof (inv_reached _ _ _ _ _ _ Hr) as I.
  assert (A : active m = true) by (apply (reached_active _ _ _ _ _ _ Hr); rewrite L; reflexivity).
  assert (Hi : (i < 16)%nat) by (rewrite <- (inv_pos _ I); apply nth_error_Some; congruence).
  destruct (nth_error (mtargets m) i) as [z|] eqn:Hz; [|apply nth_error_None in Hz; rewrite (inv_tgt _ I) in Hz; lia].
  unfold step_op in E. destruct (needs_model _ && negb (malive m))%bool; [discriminate|]. inv_ok.
  match goal with X : model_step t m = Ok ?a |- _ => destruct a as [mm bb]; rename X into E1 end. cbn [fst snd] in *.
  unfold model_step in E1. replace (t =? 0)%Z with false in E1 by (symmetry; apply Z.eqb_neq; lia).
  pose proof (step_count_pos t Ht) as K. destruct (step_count t) as [|k]; [congruence|].
  inv_ok. match goal with X : integrate_n _ _ _ = Ok ?a |- _ => destruct a as [m2 b2]; apply (held_n n i z k y) in X; auto; destruct X as (P1 & P2 & p3 & v3 & h3 & ->) end.
  cbn [orb] in *. inv_ok. exists z.
  match goal with |- context [active (set_unequal (set_sim m p3 v3 h3) ?bb)] => change (active (set_unequal (set_sim m p3 v3 h3) bb)) with (active m); rewrite A; destruct bb end; cbn [negb andb].
  - exists (fst (constrain_point (st_range (mset m)) z y)). split; auto. split; auto. split; auto. split; [|discriminate]. intros _. apply constrain_confined. auto.
  - exists z. split; auto. split; auto. split; auto. split; [discriminate|auto].
Qed.

(** ** A case: one corner pulled farther than the range *)

Definition far_pull : list (op R) := [OpGrab (mkV 0 0); OpMoveAnchor 0 (mkV 600 0)].

Lemma far_pull_reached :
  exists m m' : model R, exists b,
    reached (mkV 0 0) 90 60 (mkSettings 8 3 500) far_pull m /\
    lookup_handle (mhandles m) 0 = Some (HGrab 0) /\ st_range (mset m) = 500 /\
    nth_error (mpos m) 0 = Some (mkV 600 0) /\ nth_error (mtargets m) 0 = Some (mkV 600 0) /\
    nth_error (mpos m) 1 = Some (mkV 30 0) /\ nth_error (mtargets m) 1 = Some (mkV 630 0) /\
    step_op 0 m (OpStep 16) = Ok (m', OMore b).
Proof.
  set (st := mkSettings 8 3 500). set (m0 := model_init (mkV 0 0) 90 60 st 0).
  destruct (grab_exact 0 m0 0 (mkV 0 0)) as (m1 & E1 & Hh & _ & P1 & _ & _ & _ & _ & _ & St & C & Al & _ & Tg & I1 & _).
  - apply inv_init.
  - apply predicts_fresh.
  - reflexivity.
  - change (mpos m0) with (position_array (T:=R) (mkV 0 0) (tile_size 90 60)). rewrite grid_9060. reflexivity.
  - intros; lia.
  - change (mpos m0) with (position_array (T:=R) (mkV 0 0) (tile_size 90 60)) in *.
    change (mnext_handle m0) with 0%nat in *. change (mhandles m0) with (@nil (nat * handle R)) in Hh. change (mcount m0) with 0%Z in *. change (mset m0) with st in St.
    cbn [Z.eqb Z.add app] in *. change (tile_of m0) with (tile_size (T:=R) 90 60) in Tg. rewrite grid_9060 in *. cbn [nth] in Tg. rewrite grid_9060 in Tg.
    assert (E2 : exists m2, step_op 1 m1 (OpMoveAnchor 0 (mkV 600 0)) = Ok (m2, ONone) /\ mhandles m2 = mhandles m1 /\ mset m2 = mset m1 /\
              mpos m2 = list_set 0 (vadd (mkV 0 0) (mkV 600 0)) (mpos m1) /\ mtargets m2 = map (fun p => vadd p (mkV 600 0)) (mtargets m1)).
    { unfold step_op, move_anchor. cbn [needs_model]. rewrite Al, Hh. cbn [negb andb lookup_handle Nat.eqb]. unfold active. rewrite C.
      cbn [Z.eqb Pos.eqb]. cbn [set_targets mpos]. rewrite P1. cbn [nth_error of_option bind]. eexists. split; [reflexivity|]. rewrite <- P1. auto. }
    destruct E2 as (m2 & E2 & H2 & S2 & P2 & T2).
    assert (Hr : reached (mkV 0 0) 90 60 st far_pull m2).
    { exists 1%nat, 0%Z, [OHandle 0; ONone]. unfold far_pull. cbn [run]. fold m0. rewrite E1. cbn [bind fst snd]. rewrite E2. reflexivity. }
    destruct (moves_step_total _ _ _ _ _ m2 (OpStep 16) 0 Hr) as (m3 & u & E3).
    { cbv. tauto. } { cbv. tauto. } { exact I. }
    assert (exists b, u = OMore b) as (b & ->).
    { unfold step_op in E3. destruct (needs_model _ && negb (malive m2))%bool; [discriminate|]. inv_ok. eauto. }
    exists m2, m3, b. split; [exact Hr|]. rewrite H2, Hh, S2, St, P2, P1, T2, Tg. cbn [lookup_handle Nat.eqb list_set nth_error map].
    split; [reflexivity|]. split; [reflexivity|].
    split; [f_equal; veq; lra|]. split; [f_equal; veq; lra|]. split; [reflexivity|]. split; [f_equal; veq; lra|]. exact E3.
Qed.

Lemma single_grab_case :
  exists m0 m1 : model R,
    reached (mkV 0 0) 90 60 (mkSettings 8 3 500) [] m0 /\ mpos m0 = grid (mkV 0 0) (mw m0) (mh m0) /\ at_rest (mvel m0) /\
    st_range (mset m0) = 500 /\ step_op 1 m0 (OpGrab (mkV 0 0)) = Ok (m1, OHandle 0).
Proof.
  destruct (fresh_grab 0 (mkV 0 0) 90 60 (mkSettings 8 3 500) 0) as (m1 & E).
  exists (model_init (mkV 0 0) 90 60 (mkSettings 8 3 500) 0), m1. split; [exists 0%nat, 0%Z, []; reflexivity|].
  split; [rewrite grid_array; reflexivity|]. split; [|split; [reflexivity|exact E]].
  apply Forall_forall. intros x Hx. apply repeat_spec in Hx. auto.
Qed.

Lemma constrained_step_op p w h st ops (m m' : model R) b t i y fuel :
  reached p w h st ops m -> (Z.of_nat (length ops) < two32)%Z -> length (live_anchors ops) = 1%nat ->
  0 < st_range (mset m) -> (0 < t <= 16)%Z -> step_op fuel m (OpStep t) = Ok (m', OMore b) ->
  nth_error (mpos m) i = Some y ->
  exists z z' v' q, nth_error (mtargets m) i = Some z /\ nth_error (mtargets m') i = Some z /\
    nth_error (mpos m') i = Some z' /\ nth_error (mvel m') i = Some v' /\
    confined (st_range (mset m)) z y q /\
    (b = true -> z' = mkV (vx q + vx v' / 2) (vy q + vy v' / 2)) /\ (b = false -> z' = z) /\
    euclid z z' <= st_range (mset m) + magnitude v' / 2.
Proof.
  intros Hr Hb L Rr Ht E Hy. unfold step_op in E. destruct (needs_model _ && negb (malive m))%bool; [discriminate|]. inv_ok.
  match goal with X : model_step t m = Ok ?a |- _ => destruct a as [m1 b1] end. cbn [fst snd] in *. eapply constrained_step; eauto.
Qed.

Lemma grabbed_at_home_case :
  exists m : model R,
    reached (mkV 0 0) 90 60 (mkSettings 8 3 500) [OpGrab (mkV 0 0)] m /\ malive m = true /\
    mtargets m = mpos m /\ 0 < st_range (mset m) /\ mpos m = grid (mkV 0 0) (mw m) (mh m) /\ at_rest (mvel m).
Proof.
  destruct single_grab_case as (m0 & m1 & A & B & C & D & E). exists m1.
  pose proof (reached_fuel _ _ _ _ _ _ _ _ _ _ A E) as Hr. cbn [app] in Hr. split; [exact Hr|].
  pose proof (grab_step _ _ _ _ _ E) as (P & V & W & Hh & G1 & G2 & G3 & G4 & _ & Al).
  pose proof (inv_reached _ _ _ _ _ _ A) as I.
  rewrite grid_array in B.
  split; [|split; [|split; [|split; [rewrite P, W, Hh, grid_array; exact B|rewrite V; exact C]]]].
  - destruct (malive m1) eqn:X; [reflexivity|]. unfold step_op in E. cbn [needs_model] in E. rewrite <- Al in E. discriminate.
  - eapply (grab_home 1 m0 m1 _ 0 (mkV 0 0)); eauto. eapply no_live_count; [exact A|reflexivity]. apply at_rest_still; auto. apply I.
  - replace (mset m1) with (mset m0) by congruence. lra.
Qed.
