(** The regular network, fresh models and settling, over the real numbers. *)

From Coq Require Import ZArith Reals Bool List Lia Lra Permutation.
From Verif Require Import Num Geometry Outcome Wobbly Spec LemBasic LemReal LemInv LemSprings LemHistory LemNetwork LemLifo LemAnchors LemMoves LemForce LemRest.
Import ListNotations.
Local Open Scope R_scope.
Local Arguments vdist : simpl never.

(** ** Sizes *)

Lemma size_step {T} `{Num T} fuel (m : model T) o m' u :
  is_resize o = false -> step_op fuel m o = Ok (m', u) -> mw m' = mw m /\ mh m' = mh m.
Proof.
  intros NR E. unfold step_op in E. destruct (needs_model o && negb (malive m))%bool; [discriminate|].
  destruct o; try discriminate; inv_ok; simpl; auto.
  - destruct a as [m1 k]. simpl in *. unfold grab_anchor in Ha. inv_ok.
    apply activate_shape in Ha1. destruct Ha1 as (tg & id & -> & Hid & _). auto.
  - destruct a as [m1 k]. simpl in *. unfold insert_anchor in Ha. inv_ok.
    apply activate_shape in Ha0. destruct Ha0 as (tg & id & -> & Hid & _).
    destruct a0 as [m1 hd]. apply install_anchor_shape in Ha1.
    destruct Ha1 as (idx & found & da & db & _ & Hn & -> & _ & _ & ->). simpl in *. auto.
  - unfold move_anchor in Ha. destruct (lookup_handle (mhandles m) n) as [[i|? ? ? b ?]|]; try discriminate;
      destruct (malive m), (active m); try discriminate; inv_ok; auto.
  - unfold release_anchor in Ha. destruct (lookup_handle (mhandles m) n) as [hd|]; [|inv_ok; auto].
    destruct (malive m); [|discriminate]. inv_ok. apply deactivate_shape in Ha. destruct Ha as (tg & id & -> & _). simpl.
    destruct hd as [i|st i1 i2 b aid]; simpl in Ha0; inv_ok; auto.
  - destruct a as [m1 b]. apply model_step_shape in Ha. destruct Ha as (p & v & h & -> & _). auto.
  - apply move_model_by_shape in Ha. destruct Ha as (h & -> & _). auto.
  - unfold move_model_to in Ha. inv_ok. destruct a as [q m1]. simpl in *.
    apply target_position_shape in Ha0. destruct Ha0 as (id & -> & _).
    apply move_model_by_shape in Ha. destruct Ha as (h & -> & _). auto.
Qed.

(** ** The regular network *)

Definition tile_of (m : model R) : vec R := tile_size (mw m) (mh m).

Definition regular (next : Z) (m : model R) : Prop :=
  0 < mw m /\ 0 < mh m /\ Forall (keeps (base_springs (tile_of m) next)) (all_springs m).

Lemma scale_number_gen (f : vec R) (l : list (nat * nat * vec R)) : forall next,
  map (scale_length f) (number_springs l next) =
  number_springs (map (fun x => (fst x, vpscale (snd x) f)) l) next.
Proof.
  induction l as [|[[a b] len] l IH]; intros next; simpl; auto. f_equal. apply IH.
Qed.

Lemma scale_number (f : vec R) (tile : vec R) next :
  map (scale_length f) (base_springs tile next) = base_springs (vpscale tile f) next.
Proof.
  unfold base_springs. rewrite scale_number_gen. f_equal. rewrite !specs_eq. cbv zeta. cbn [map fst snd].
  assert (A : vpscale (mkV (vx tile) 0) f = mkV (vx (vpscale tile f)) 0) by (veq; ring).
  assert (B : vpscale (mkV 0 (vy tile)) f = mkV 0 (vy (vpscale tile f))) by (veq; ring).
  rewrite A, B. reflexivity.
Qed.

Lemma tile_scale (w h w' h' : R) : 0 < w -> 0 < h ->
  vpscale (tile_size w h) (mkV (w' / w) (h' / h)) = tile_size w' h'.
Proof. intros. unfold vpscale, tile_size. cbn [vx vy]. f_equal; rnum; field; lra. Qed.

Lemma resize_positive {T} `{Num T} fuel w h (m m' : model T) :
  resize_model fuel w h m = Ok m' -> nltb nzero w = true /\ nltb nzero h = true.
Proof.
  unfold resize_model. destruct (negb (nltb nzero w && nltb nzero h)) eqn:E; [discriminate|].
  intros _. apply negb_false_iff, andb_true_iff in E. auto.
Qed.

Lemma regular_step next fuel m o m' u :
  Net (base_ids next) m -> regular next m -> (is_resize o = true -> stolens (mhandles m) = []) ->
  step_op fuel m o = Ok (m', u) -> regular next m'.
Proof.
  intros N (W & Hh & F) HR E. destruct (is_resize o) eqn:Ro.
  - destruct o; try discriminate. specialize (HR eq_refl). unfold step_op in E.
    destruct (needs_model (OpResize w h) && negb (malive m))%bool; [discriminate|]. inv_ok.
    pose proof (resize_positive _ _ _ _ _ Ha) as [P1 P2]. rnum.
    apply Rltb_iff in P1. apply Rltb_iff in P2.
    apply resize_model_shape in Ha. destruct Ha as [->|(po & to & id & hp & -> & _ & _)].
    { split; [|split]; auto. }
    split; [|split]; auto. unfold tile_of, all_springs in *.
    cbn [mw mh msprings mhandles set_size set_heap set_springs set_targets set_pos set_next_id] in *. rewrite HR, app_nil_r in *.
    apply Forall_map. eapply Forall_impl; [|exact F]. intros s K Hin. cbn [scale_length s_id] in Hin.
    rewrite base_springs_ids in Hin. unfold keeps in K. rewrite base_springs_ids in K. specialize (K Hin).
    assert (ET : tile_size w h = vpscale (tile_size (mw m) (mh m)) (mkV (w / mw m) (h / mh m))).
    { rewrite tile_scale; auto. }
    rnum. rewrite ET, <- scale_number. apply in_map; auto.
  - destruct (size_step _ _ _ _ _ Ro E) as [E1 E2]. unfold regular, tile_of in *. rewrite E1, E2.
    repeat split; auto. eapply all_springs_step; eauto.
    + intros s Hs Hin. exfalso. rewrite base_springs_ids in Hin.
      assert (s_id s <= mnext_id m)%Z; [|lia]. apply (si_le _ _ (net_s _ _ N)). apply in_or_app; auto.
    + congruence.
    + congruence.
Qed.

Lemma stolens_client c (m : model R) :
  agrees c m -> (forall n, ~ In (n, KInsert) (c_live c)) -> no_inserted m.
Proof.
  intros A X n h Hin. destruct A as (A & _). destruct h as [i|st a b k aid]; auto.
  exfalso. apply (X n). rewrite A. apply in_map_iff. exists (n, HIns st a b k aid). auto.
Qed.

Lemma regular_run next fuel ops : forall m m' us c,
  Net (base_ids next) m -> agrees c m -> each_call no_insert_resize c ops -> regular next m ->
  run fuel m ops = Ok (m', us) -> regular next m'.
Proof.
  induction ops; intros m m' us c N A L Rg E; simpl in E; inv_ok; auto.
  destruct a0 as [m1 u1]. destruct a1 as [m2 us2]. simpl in *. inv_ok. destruct L as [L1 L2].
  eapply IHops; [| |exact L2| |exact Ha0].
  - eapply net_step; eauto.
  - eapply agrees_step; eauto.
  - eapply regular_step; eauto. intros Ro. apply no_inserted_lists. eapply stolens_client; eauto.
Qed.

Lemma regular_init p w h st next : 0 < w -> 0 < h -> regular next (model_init p w h st next).
Proof.
  intros. unfold regular, all_springs. cbn [mhandles model_init msprings mw mh stolens flat_map]. rewrite app_nil_r.
  repeat split; auto. apply keeps_base. rewrite base_springs_ids. apply base_ids_nodup.
Qed.

Lemma regular_restored next m :
  Net (base_ids next) m -> regular next m -> no_inserted m -> Permutation (msprings m) (base_springs (tile_of m) next).
Proof.
  intros N (_ & _ & F) X. destruct (restored _ _ N X) as (P & _). destruct (no_inserted_lists _ X) as (S & _).
  unfold all_springs in F. rewrite S, app_nil_r in F.
  assert (E : base_ids next = map s_id (base_springs (tile_of m) next)) by (symmetry; apply base_springs_ids).
  apply (perm_of_keeps s_id).
  - rewrite <- E. exact P.
  - rewrite <- E. apply base_ids_nodup.
  - intros s Hs. eapply Forall_forall in F; eauto. apply F. unfold ids. rewrite <- E.
    eapply Permutation_in; [exact P|]. apply in_map; auto.
Qed.

Lemma regular_net next m :
  Net (base_ids next) m -> regular next m -> no_inserted m ->
  forall next', same_net (msprings m) (base_springs (tile_of m) next').
Proof.
  intros N Rg X next'. eapply same_net_trans; [|apply (base_net _ next)].
  unfold same_net. apply Permutation_map. apply regular_restored; auto.
Qed.

(** ** Prediction from a resting mesh *)

Lemma predict_rest fuel (m : model R) :
  Inv m -> mvel m = still -> quiet (place_of (mpos m) []) (base_springs (tile_of m) (mnext_id m)) ->
  predict (S fuel) m (fun pos => (pos, false)) = Ok (nth 0 (mpos m) vzero).
Proof.
  intros I V Q. unfold predict. rewrite predict_loop_R.
  - rewrite V, rstep_rest; auto. 2: apply (inv_pos _ I). cbn [fst snd orb]. cbn [bind].
    rewrite (nth_error_nth' _ vzero) by (rewrite (inv_pos _ I); lia). reflexivity.
  - apply (inv_cnt _ I).
  - apply (inv_pos _ I).
  - apply (inv_vel _ I).
  - apply base_springs_valid.
Qed.

(** ** Settled states *)

Lemma constrain_false r : forall ts ps ps',
  constrain_points r ts ps = (ps', false) ->
  ps' = ps /\ forall i t p, nth_error ts i = Some t -> nth_error ps i = Some p -> vdist t p < r.
Proof.
  induction ts as [|t ts IH]; intros [|p ps] ps' E; cbn [constrain_points] in E.
  1-3: injection E as <-; split; [reflexivity|]; intros [|i] t1 p1; simpl; intros A B; discriminate.
  destruct (constrain_point r t p) as [p' b] eqn:E1.
  destruct (constrain_points r ts ps) as [ps1 more] eqn:E2.
  injection E as <- E3. apply orb_false_iff in E3. destruct E3 as [-> ->].
  unfold constrain_point in E1. rnum. destruct (Rltb_spec (vdist t p) r); [|discriminate].
  injection E1 as <-. destruct (IH _ _ E2) as [-> X]. split; auto.
  intros [|i] t1 p1; simpl; intros A B.
  - injection A as <-. injection B as <-. auto.
  - exact (X i t1 p1 A B).
Qed.

Lemma constrain_near r : forall ts ps,
  (forall i t p, nth_error ts i = Some t -> nth_error ps i = Some p -> vdist t p < r) ->
  constrain_points r ts ps = (ps, false).
Proof.
  induction ts as [|t ts IH]; intros [|p ps] X; auto. cbn [constrain_points].
  unfold constrain_point. rnum. destruct (Rltb_spec (vdist t p) r) as [_|NL].
  - rewrite IH; auto. intros i t1 p1 A B. apply (X (S i)); auto.
  - exfalso. apply NL. apply (X 0%nat); auto.
Qed.

Lemma vdist_same (p : vec R) : vdist p p = 0.
Proof. apply vdist_zero. auto. Qed.

Definition settled (m : model R) : Prop :=
  mvel m = still /\ quiet (place_of (mpos m) (mheap m)) (msprings m) /\
  constrainment m (mpos m) = (mpos m, false) /\ Forall (spring_valid (mheap m)) (msprings m).

Lemma place_heap pos (h h' : list (block R)) l : heap_pos h = heap_pos h' -> place_of pos h l = place_of pos h' l.
Proof.
  intros E. destruct l as [i|b]; auto. simpl.
  assert (X : nth b (heap_pos h) None = nth b (heap_pos h') None) by congruence.
  unfold heap_pos in X. change (@None (vec R)) with (option_map (@fst (vec R) (vec R)) None) in X.
  unfold block in *. rewrite !map_nth in X.
  destruct (nth b h None), (nth b h' None); simpl in X; congruence.
Qed.

Lemma quiet_ext f g ss : (forall l, f l = g l) -> quiet f ss -> quiet g ss.
Proof.
  intros E. unfold quiet. intros <-. apply existsb_ext. intros s _. unfold stretched_at. rewrite !E. auto.
Qed.

Lemma add_force_ok_valid {T} `{Num T} (mm mm' : mem T) l f :
  length (m_force mm) = 16%nat -> add_force mm l f = Ok mm' -> loc_valid (m_heap mm) l.
Proof.
  intros L E. destruct l as [i|b]; simpl in *; inv_ok.
  - rewrite <- L. apply nth_error_Some. congruence.
  - apply rd_blk_ok in Ha. unfold heap_live. rewrite (map_nth_error _ _ _ Ha). auto.
Qed.
Lemma rd_pos_ok_valid {T} `{Num T} (mm : mem T) l p :
  length (m_pos mm) = 16%nat -> rd_pos mm l = Ok p -> loc_valid (m_heap mm) l.
Proof.
  intros L E. destruct l as [i|b]; simpl in *; inv_ok.
  - rewrite <- L. apply nth_error_Some. congruence.
  - apply rd_blk_ok in Ha. unfold heap_live. rewrite (map_nth_error _ _ _ Ha). auto.
Qed.

Lemma apply_all_ok_valid {T} `{Num T} k ss : forall (mm : mem T) b r,
  length (m_force mm) = 16%nat -> length (m_pos mm) = 16%nat ->
  apply_all k ss mm b = Ok r -> Forall (spring_valid (m_heap mm)) ss.
Proof.
  induction ss as [|s ss IH]; intros mm b r L1 L2 E; constructor; cbn [apply_all] in E; inv_ok.
  - unfold apply_forces in Ha. inv_ok. destruct (spring_deltas _ _ _). inv_ok.
    match goal with X1 : add_force mm _ _ = Ok ?m1, X2 : add_force ?m1 _ _ = Ok _ |- _ =>
      pose proof (add_force_ok_valid _ _ _ _ L1 X1) as V1; pose proof (add_force_shape _ _ _ _ X1) as (A & B & C);
      apply add_force_ok_valid in X2; [|congruence] end.
    unfold spring_valid. repeat split; auto.
    + eapply loc_valid_ext; [|eassumption]. apply heap_live_pos; auto.
    + eapply rd_pos_ok_valid; eauto.
    + eapply rd_pos_ok_valid; eauto.
  - destruct a as [m1 b1]. apply apply_forces_shape in Ha. destruct Ha as (A & B & C). simpl in E.
    eapply IH in E; [| congruence | congruence]. eapply Forall_impl; [|exact E].
    intros s0. apply spring_valid_ext. symmetry; apply heap_live_pos; auto.
Qed.

Lemma integrate_once_ok_valid {T} `{Num T} (m m' : model T) b :
  Inv m -> integrate_once m = Ok (m', b) -> Forall (spring_valid (mheap m)) (msprings m).
Proof.
  intros I E. unfold integrate_once in E. pose proof (constrainment_length m (mpos m)) as L.
  destruct (constrainment m (mpos m)) as [p1 b1]. simpl in L. rewrite (inv_pos _ I) in L.
  inv_ok. unfold spring_step, calculate_forces in Ha. inv_ok.
  apply apply_all_ok_valid in Ha0; auto.
Qed.

Lemma integrate_once_false m m' :
  Inv m -> integrate_once m = Ok (m', false) ->
  exists h, m' = set_sim m (mpos m) still h /\ heap_pos h = heap_pos (mheap m) /\ settled m'.
Proof.
  intros I E. pose proof (integrate_once_ok_valid _ _ _ I E) as V.
  destruct (integrate_once_R m I V) as (h & E' & Hh). cbv zeta in E'. rewrite E in E'. clear E.
  destruct (constrainment m (mpos m)) as [p1 b1] eqn:C. cbn [fst snd] in E'.
  match type of E' with context [rstep ?a ?b ?c ?d ?e ?f ?g] => remember (rstep a b c d e f g) as r eqn:Er0 in E' end.
  injection E' as Em Eb. symmetry in Eb. apply orb_false_iff in Eb. destruct Eb as [-> Eb].
  assert (p1 = mpos m) as ->.
  { unfold constrainment in C. destruct (active m).
    - apply constrain_false in C. tauto.
    - congruence. }
  rewrite Er0 in Eb. apply rstep_false in Eb; [|apply (inv_pos _ I)]. destruct Eb as [Er Q]. rewrite Er in Er0. subst r. cbn [fst snd] in Em.
  exists h. split; auto. split; auto. subst m'. unfold settled. simpl. repeat split; auto.
  - eapply quiet_ext; [|exact Q]. intros l. apply place_heap. auto.
  - eapply Forall_impl; [|exact V]. intros s. apply spring_valid_ext. symmetry. apply heap_live_pos; auto.
Qed.

Lemma settled_once m :
  Inv m -> settled m ->
  exists h, integrate_once m = Ok (set_sim m (mpos m) (mvel m) h, false) /\ heap_pos h = heap_pos (mheap m).
Proof.
  intros I (V & Q & C & F). destruct (integrate_once_R m I F) as (h & E & Hh). cbv zeta in E.
  rewrite C in E. cbn [fst snd] in E. rewrite V, rstep_rest in E by (auto; apply (inv_pos _ I)).
  cbn [fst snd orb] in E. exists h. rewrite V. auto.
Qed.

Lemma settled_sim m h :
  settled m -> heap_pos h = heap_pos (mheap m) -> settled (set_sim m (mpos m) (mvel m) h).
Proof.
  intros (V & Q & C & F) E. unfold settled. simpl. repeat split; auto.
  - eapply quiet_ext; [|exact Q]. intros l. apply place_heap. auto.
  - eapply Forall_impl; [|exact F]. intros s. apply spring_valid_ext. symmetry. apply heap_live_pos; auto.
Qed.

Lemma inv_sim m p v h : Inv m -> length p = 16%nat -> length v = 16%nat -> Inv (set_sim (T:=R) m p v h).
Proof. intros [] ? ?. constructor; auto. Qed.

Lemma settled_n n : forall m b,
  Inv m -> settled m ->
  exists h, integrate_n n m b = Ok (set_sim m (mpos m) (mvel m) h, b) /\ heap_pos h = heap_pos (mheap m).
Proof.
  induction n; intros m b I S; simpl.
  - exists (mheap m). split; auto. destruct m; auto.
  - destruct (settled_once m I S) as (h & -> & Hh). simpl. rewrite orb_false_r.
    destruct (IHn (set_sim m (mpos m) (mvel m) h) b) as (h' & -> & Hh').
    + apply inv_sim; auto; apply I.
    + apply settled_sim; auto.
    + simpl in *. exists h'. split; auto. congruence.
Qed.

(** The mesh may stay where it is: snapping would not move it. *)
Definition home (m : model R) : Prop := active m = true -> mpos m = mtargets m.

Lemma settled_step t m :
  Inv m -> settled m -> munequal m = false -> home m ->
  exists h, model_step t m = Ok (set_sim m (mpos m) (mvel m) h, false) /\ heap_pos h = heap_pos (mheap m).
Proof.
  intros I S U Hm. unfold model_step. destruct (settled_n (step_count t) m false I S) as (h & -> & Hh).
  cbn [bind]. exists h. split; auto. rewrite U. replace (if (t =? 0)%Z then false else false) with false by (destruct (t =? 0)%Z; auto).
  cbn [orb negb]. unfold set_unequal, active. cbn [mcount set_sim andb].
  unfold home, active in Hm. destruct (mcount m =? 1)%Z; cbn [andb].
  - rewrite <- U. specialize (Hm eq_refl). f_equal. f_equal. unfold set_pos, set_sim. cbn.  rewrite Hm. reflexivity.
  - rewrite <- U. reflexivity.
Qed.

Lemma integrate_n_false n : forall m b m',
  Inv m -> integrate_n (S n) m b = Ok (m', false) ->
  b = false /\ exists h, m' = set_sim m (mpos m) still h /\ heap_pos h = heap_pos (mheap m) /\ settled m'.
Proof.
  intros m b m' I E. cbn [integrate_n] in E. inv_ok. destruct a as [m1 b1]. cbn [fst snd] in E.
  assert (M : forall k (m2 : model R) b2 m3, integrate_n k m2 b2 = Ok (m3, false) -> b2 = false).
  { induction k; intros m2 b2 m3 X; simpl in X; inv_ok; auto. apply IHk in X. apply orb_false_iff in X. tauto. }
  pose proof (M _ _ _ _ E) as Eb. apply orb_false_iff in Eb. destruct Eb as [-> ->].
  destruct (integrate_once_false _ _ I Ha) as (h & E1 & Hh & S). split; auto.
  assert (I1 : Inv m1) by (subst m1; apply inv_sim; [auto|apply I|reflexivity]).
  destruct (settled_n n m1 (false || false) I1 S) as (h' & E' & Hh'). rewrite E in E'. injection E' as ->.
  subst m1. simpl in *. exists h'. repeat split; auto; try congruence.
  - eapply quiet_ext; [|apply S]. intros l. simpl. apply place_heap. auto.
  - destruct S as (_ & _ & C & _). apply C.
  - destruct S as (_ & _ & _ & F). eapply Forall_impl; [|exact F]. intros s. apply spring_valid_ext. symmetry. apply heap_live_pos; auto.
Qed.

(** ** The rest mesh is always a regular grid *)

Definition grid_targets (m : model R) : Prop :=
  0 < mw m /\ 0 < mh m /\ exists q, mtargets m = position_array q (tile_of m).

Lemma grid_translate (q tile d : vec R) :
  map (fun p => vadd p d) (position_array q tile) = position_array (vadd q d) tile.
Proof.
  unfold position_array. rewrite map_map. apply map_ext. intros i. cbv zeta. veq; ring.
Qed.

Lemma grid_nth0 (q tile : vec R) : nth_error (position_array q tile) 0 = Some q.
Proof. cbn. f_equal. veq; ring. Qed.

Lemma grid_rescale (q tile f : vec R) :
  map (rescale q f) (position_array q tile) = position_array q (vpscale tile f).
Proof.
  unfold position_array. rewrite map_map. apply map_ext. intros i. cbv zeta. unfold rescale. veq; ring.
Qed.

Lemma recalc_grid fuel (m m' : model R) : recalc_targets fuel m = Ok m' ->
  exists q, mtargets m' = position_array q (tile_of m) /\ mw m' = mw m /\ mh m' = mh m.
Proof. unfold recalc_targets. intros E. inv_ok. exists a. auto. Qed.

Lemma grid_targets_eq (m m' : model R) :
  grid_targets m -> mtargets m' = mtargets m -> mw m' = mw m -> mh m' = mh m -> grid_targets m'.
Proof. intros (A & B & C) E1 E2 E3. unfold grid_targets, tile_of. rewrite E1, E2, E3. auto. Qed.

Lemma grid_activate fuel (m m' : model R) : grid_targets m -> activate fuel m = Ok m' -> grid_targets m'.
Proof.
  unfold activate. intros G E. cbv zeta in E. destruct (mcount (set_count m (mcount m + 1)) =? 1)%Z.
  - destruct (recalc_grid _ _ _ E) as (q & E1 & E2 & E3). destruct G as (A & B & _).
    unfold grid_targets, tile_of in *. rewrite E2, E3. simpl. eauto.
  - inv_ok. auto.
Qed.
Lemma grid_deactivate fuel (m m' : model R) : grid_targets m -> deactivate fuel m = Ok m' -> grid_targets m'.
Proof.
  unfold deactivate. intros G E. cbv zeta in E. destruct (mcount (set_count m (mcount m - 1)) =? 1)%Z.
  - destruct (recalc_grid _ _ _ E) as (q & E1 & E2 & E3). destruct G as (A & B & _).
    unfold grid_targets, tile_of in *. rewrite E2, E3. simpl. eauto.
  - inv_ok. auto.
Qed.

Lemma grid_move (m m' : model R) d :
  grid_targets m -> mtargets m' = map (fun p => vadd p d) (mtargets m) -> mw m' = mw m -> mh m' = mh m -> grid_targets m'.
Proof.
  intros (A & B & q & C) E1 E2 E3. unfold grid_targets, tile_of in *. rewrite E1, E2, E3, C, grid_translate. eauto.
Qed.

Lemma grid_targets_step fuel m o m' u :
  grid_targets m -> step_op fuel m o = Ok (m', u) -> grid_targets m'.
Proof.
  intros G E. unfold step_op in E. destruct (needs_model o && negb (malive m))%bool; [discriminate|].
  destruct o; inv_ok; auto.
  - destruct a as [m1 k]. simpl in *. unfold grab_anchor in Ha. inv_ok.
    match goal with X : activate _ _ = Ok ?m2 |- _ => apply grid_activate in X; [|exact G]; exact X end.
  - destruct a as [m1 k]. simpl in *. unfold insert_anchor in Ha. inv_ok.
    match goal with X : activate _ _ = Ok ?m2 |- _ => apply grid_activate in X; [|exact G] end.
    match goal with X : install_anchor _ _ = Ok ?a |- _ => destruct a as [m1 hd]; apply install_anchor_shape in X;
      destruct X as (idx & found & da & db & _ & Hn & -> & _ & _ & ->) end. simpl. auto.
  - unfold move_anchor in Ha. destruct (lookup_handle (mhandles m) n) as [[i|? ? ? b ?]|]; try discriminate;
      destruct (malive m), (active m); try discriminate; inv_ok; auto;
      apply (grid_move m _ d); auto.
  - unfold release_anchor in Ha. destruct (lookup_handle (mhandles m) n) as [hd|]; [|inv_ok; auto].
    destruct (malive m); [|discriminate]. inv_ok.
    assert (G1 : grid_targets a).
    { destruct hd as [i|st i1 i2 b aid]; simpl in Ha0; inv_ok; auto. }
    eapply grid_deactivate; eauto.
  - destruct a as [m1 b]. apply model_step_shape in Ha. destruct Ha as (p & v & h & -> & _). auto.
  - apply move_model_by_shape in Ha. destruct Ha as (h & -> & _). apply (grid_move m _ d); auto.
  - unfold move_model_to in Ha. inv_ok. destruct a as [q m1]. simpl in *.
    apply target_position_shape in Ha0. destruct Ha0 as (id & -> & _).
    apply move_model_by_shape in Ha. destruct Ha as (h & -> & _). apply (grid_move m _ (vsub p q)); auto.
  - pose proof (resize_positive _ _ _ _ _ Ha) as [P1 P2]. rnum. apply Rltb_iff in P1. apply Rltb_iff in P2.
    unfold resize_model in Ha. destruct (negb _); [discriminate|]. cbv zeta in Ha.
    destruct (vequals _ _); inv_ok; auto.
    destruct a as [po m1]. inv_ok. apply target_position_shape in Ha0. destruct Ha0 as (id & -> & _).
    destruct G as (W & Hh & q & E). unfold grid_targets, tile_of.
    cbn [mtargets mw mh set_next_id set_size set_heap set_springs set_targets] in *. rewrite E in *.
    repeat split; auto. exists q.
    match goal with X : nth_error _ 0 = Some _ |- _ => rewrite grid_nth0 in X; injection X as X; subst end.
    rewrite grid_rescale. unfold tile_of. rnum. rewrite tile_scale; auto.
Qed.

Lemma grid_targets_init p w h st next : 0 < w -> 0 < h -> grid_targets (model_init p w h st next).
Proof. intros. repeat split; auto. exists p. reflexivity. Qed.

Lemma grid_targets_reached p w h st ops m : 0 < w -> 0 < h -> reached p w h st ops m -> grid_targets m.
Proof.
  intros W Hh (fuel & next & us & E). eapply (run_inv grid_targets); [| |exact E].
  - intros; eapply grid_targets_step; eauto.
  - apply grid_targets_init; auto.
Qed.

(** ** Settling *)

Lemma settle m m' t :
  Inv m -> (0 < t)%Z -> model_step t m = Ok (m', false) ->
  munequal m' = false /\ mvel m' = still /\
  if active m then mpos m' = mtargets m' else mpos m' = mpos m /\ settled m'.
Proof.
  intros I Ht E. unfold model_step in E. inv_ok. destruct a as [m1 b1].
  destruct (t =? 0)%Z eqn:Et; [apply Z.eqb_eq in Et; lia|].
  injection E as Em Eb. subst b1. cbn [orb] in Em.
  assert (exists n, step_count t = S n) as (n & En).
  { unfold step_count. assert (1 <= (t + 15) / 16)%Z by (apply Z.div_le_lower_bound; lia).
    exists (Z.to_nat ((t + 15) / 16) - 1)%nat. lia. }
  rewrite En in Ha. apply integrate_n_false in Ha; auto. destruct Ha as (_ & h & -> & Hh & S).
  cbn [negb andb] in Em. unfold active in *. cbn [mcount set_unequal set_sim] in Em.
  destruct (mcount m =? 1)%Z eqn:C; subst m'; simpl; auto.
Qed.

Lemma place_mesh_quiet pos h h' ss : Forall mesh_only ss -> quiet (place_of pos h) ss -> quiet (place_of pos h') ss.
Proof.
  intros F. unfold quiet. intros <-. apply existsb_ext. intros s Hs. apply stretched_at_mesh.
  eapply Forall_forall in F; eauto.
Qed.

Lemma home_settled next m :
  Net (base_ids next) m -> regular next m -> no_inserted m -> grid_targets m -> 0 < st_range (mset m) ->
  mpos m = mtargets m -> mvel m = still -> settled m.
Proof.
  intros N Rg X (_ & _ & q & G) Rr P V. pose proof (regular_net _ _ N Rg X next) as SN.
  assert (F : Forall mesh_only (msprings m)) by (eapply same_net_mesh; [apply same_net_sym; exact SN|apply base_mesh_only]).
  unfold settled. split; auto. split; [|split].
  - rewrite P, G. unfold quiet. rewrite (same_net_stretched _ _ _ SN). apply grid_quiet.
  - unfold constrainment. destruct (active m); auto. rewrite <- P. apply constrain_near.
    intros i t p A B. rewrite A in B. injection B as <-. rewrite vdist_same. auto.
  - eapply Forall_impl; [|exact F]. intros s. apply mesh_only_valid.
Qed.

(** If some round reports that nothing happened while the targets are active,
    the range is positive. *)
Lemma settle_range m m' t :
  Inv m -> (0 < t)%Z -> model_step t m = Ok (m', false) -> active m = true -> 0 < st_range (mset m).
Proof.
  intros I Ht E A. unfold model_step in E. inv_ok. destruct a as [m1 b1].
  destruct (t =? 0)%Z eqn:Et; [apply Z.eqb_eq in Et; lia|]. injection E as Em Eb. subst b1.
  assert (exists n, step_count t = S n) as (n & En).
  { unfold step_count. assert (1 <= (t + 15) / 16)%Z by (apply Z.div_le_lower_bound; lia).
    exists (Z.to_nat ((t + 15) / 16) - 1)%nat. lia. }
  rewrite En in Ha. apply integrate_n_false in Ha; auto. destruct Ha as (_ & h & -> & Hh & (S1 & S2 & S3 & S4)).
  unfold constrainment, active in *. cbn [mcount set_sim mset mtargets mpos] in S3. rewrite A in S3.
  apply constrain_false in S3. destruct S3 as [_ S3].
  destruct (nth_error_ex (mtargets m) 0) as (tt & Ht0). { rewrite (inv_tgt _ I). lia. }
  destruct (nth_error_ex (mpos m) 0) as (pp & Hp0). { rewrite (inv_pos _ I). lia. }
  specialize (S3 _ _ _ Ht0 Hp0). pose proof (vdist_nonneg tt pp). lra.
Qed.
