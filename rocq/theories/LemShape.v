(** Resizing, forces and batching of integrations. *)

From Coq Require Import ZArith Reals Bool List Lia Lra Permutation.
From Verif Require Import Num Geometry Outcome Wobbly Spec SpecMotion LemBasic LemReal LemInv LemSprings LemHistory LemNetwork LemLifo LemAnchors LemMoves LemForce LemRest LemSettle LemSafe LemStill LemNetworkFacts LemBezier LemWhole.
Import ListNotations.
Local Open Scope R_scope.
Local Arguments vdist : simpl never.

(** ** Resizing a resting model *)

Lemma grid_array (q : vec R) w h : grid q w h = position_array q (tile_size w h).
Proof.
  unfold grid, position_array, tile_size, mesh_n, mesh_w.
  cbn [map seq vx vy Nat.div Nat.modulo Nat.divmod Nat.sub fst snd Z.of_nat Pos.of_succ_nat Pos.succ INR].
  repeat (apply f_equal2; [veq; field|]). reflexivity.
Qed.

Lemma grid_still_predicts (m : model R) q :
  Inv m -> mpos m = position_array q (tile_of m) -> mvel m = still -> predicts m.
Proof. intros I P V. split; auto. rewrite P. apply grid_quiet. Qed.

Lemma target_rest fuel (m : model R) :
  Inv m -> predicts m -> active m = false ->
  target_position (S fuel) m = Ok (nth 0 (mpos m) vzero, set_next_id m (mnext_id m + base_spring_count)).
Proof.
  intros I (V & Q) A. unfold target_position. rewrite A.
  assert (Ec : constrainment m = fun pos => (pos, false)) by (unfold constrainment; rewrite A; reflexivity).
  rewrite Ec, predict_rest by auto. reflexivity.
Qed.

Lemma target_home fuel (m : model R) :
  Inv m -> predicts m -> home m ->
  exists m1, target_position (S fuel) m = Ok (nth 0 (mpos m) vzero, m1) /\
    (m1 = m \/ m1 = set_next_id m (mnext_id m + base_spring_count)).
Proof.
  intros I P Hm. destruct (active m) eqn:A.
  - exists m. split; [|auto]. unfold target_position. rewrite A. rewrite (nth_error_nth' _ vzero) by (rewrite (inv_tgt _ I); lia).
    cbn [of_option bind]. rewrite <- (Hm A). reflexivity.
  - eexists. split; [apply target_rest; auto|]. auto.
Qed.

Definition resized (w h : R) (m m' : model R) : Prop :=
  let f := mkV (w / mw m) (h / mh m) in
  mvel m' = mvel m /\ mw m' = w /\ mh m' = h /\ mhandles m' = mhandles m /\
  mtargets m' = map (rescale (nth 0 (mtargets m) vzero) f) (mtargets m) /\
  msprings m' = map (scale_length f) (msprings m) /\ mset m' = mset m /\ mcount m' = mcount m /\
  malive m' = malive m /\ munequal m' = munequal m.

Lemma rescale_one (o p : vec R) : rescale o (mkV 1 1) p = p.
Proof. unfold rescale. veq; ring. Qed.
Lemma scale_length_one (s : spring R) : scale_length (mkV 1 1) s = s.
Proof. destruct s as [a b c d [x y] i]. unfold scale_length, vpscale. cbn [s_fa s_fb s_pa s_pb s_len s_id vx vy]. f_equal. f_equal; rnum; ring. Qed.

Lemma map_same {A} (f : A -> A) l : (forall x, f x = x) -> map f l = l.
Proof. intros E. rewrite <- (map_id l) at 2. apply map_ext. auto. Qed.

Lemma vec_eq_dec_one (f : vec R) : {f = mkV 1 1} + {f <> mkV 1 1}.
Proof.
  destruct (vequals f (mkV 1 1)) eqn:E; [left|right].
  - apply vequals_R; auto.
  - intros X. apply vequals_R in X. congruence.
Qed.

Lemma resize_rest fuel w h (m : model R) q :
  Inv m -> HInv m -> 0 < mw m -> 0 < mh m -> 0 < w -> 0 < h -> home m -> malive m = true ->
  mpos m = position_array q (tile_of m) -> mvel m = still ->
  exists m', step_op (S fuel) m (OpResize w h) = Ok (m', ONone) /\
    mpos m' = position_array q (tile_size w h) /\ resized w h m m'.
Proof.
  intros I HH W0 H0 W Hh A Al P V.
  unfold step_op. cbn [needs_model]. rewrite Al. cbn [negb andb].
  unfold resize_model. unfold nzero. rnum.
  destruct (Rltb_spec 0 w) as [_|X]; [|lra]. destruct (Rltb_spec 0 h) as [_|X]; [|lra]. cbn [negb andb].
  set (f := mkV (w / mw m) (h / mh m)).
  destruct (vequals f (mkV 1 1)) eqn:E.
  - apply vequals_R in E. cbn [bind]. exists m. split; [auto|].
    assert (w = mw m /\ h = mh m) as [-> ->].
    { unfold f in E. injection E as E1 E2. split.
      - rewrite <- (Rmult_1_l (mw m)), <- E1. field. lra.
      - rewrite <- (Rmult_1_l (mh m)), <- E2. field. lra. }
    split; [rewrite P; reflexivity|]. unfold resized. cbv zeta. fold f. rewrite E.
    rewrite (map_same (rescale _ _)) by (intros; apply rescale_one). rewrite (map_same (scale_length _)) by (intros; apply scale_length_one).
    repeat split.
  - destruct (target_home fuel m I) as (m1 & -> & M1); auto. { eapply grid_still_predicts; eauto. }
    cbn [bind].
    assert (T0 : nth_error (mtargets m) 0 = Some (nth 0 (mtargets m) vzero)).
    { apply nth_error_nth'. rewrite (inv_tgt _ I). lia. }
    replace (mtargets m1) with (mtargets m) by (destruct M1 as [-> | ->]; reflexivity).
    rewrite T0. cbn [of_option bind].
    match goal with |- context [update_inserted ?g ?a ?b] =>
      replace (update_inserted g a b) with (update_inserted g (minserted m) (mheap m)) by (destruct M1 as [-> | ->]; reflexivity) end.
    rewrite update_inserted_net by auto. cbn [bind]. eexists. split; [reflexivity|].
    assert (Q0 : nth 0 (mpos m) vzero = q).
    { rewrite P. apply nth_error_nth. apply grid_nth0. }
    rewrite Q0. cbn [set_size set_heap set_springs set_targets set_pos set_next_id mpos].
    destruct M1 as [-> | ->]; cbn [set_next_id mpos mtargets msprings mvel]; (split; [rewrite P, grid_rescale; unfold tile_of, f; rewrite tile_scale; auto|];
      unfold resized; cbn [set_size set_heap set_springs set_targets set_pos set_next_id mvel mw mh mhandles mtargets msprings mset mcount malive munequal];
      fold f; repeat split; auto).
Qed.

Lemma calm_resize (ops : list (op R)) w h : calm_history ops -> live_inserted ops = [] -> calm_history (ops ++ [OpResize w h]).
Proof.
  intros C L. unfold calm_history. apply each_call_app. split; auto. cbn [each_call]. split; auto.
  intros _ n Hin. unfold live_inserted, live_anchors in L.
  assert (X : In n (map fst (filter is_inserted (c_live (client_after ops))))).
  { apply in_map_iff. exists (n, KInsert). split; auto. apply filter_In. split; auto. }
  rewrite L in X. exact X.
Qed.

Lemma constrain_points_home (r : R) l : 0 < r -> constrain_points r l l = (l, false).
Proof.
  intros Hr. induction l as [|x l IH]; [reflexivity|]. cbn [constrain_points].
  assert (E : constrain_point r x x = (x, false)).
  { unfold constrain_point. replace (vdist x x) with 0.
    - rnum. destruct (Rltb_spec 0 r); [reflexivity|lra].
    - symmetry. apply vdist_zero. auto. }
  rewrite E, IH. reflexivity.
Qed.

Lemma home_range p w h st ops (m : model R) :
  reached p w h st ops m -> (length (live_anchors ops) = 1%nat -> mtargets m = mpos m /\ 0 < st_range (mset m)) ->
  active m = true -> mtargets m = mpos m /\ 0 < st_range (mset m).
Proof.
  intros Hr LA A. apply LA. destruct (Nat.eq_dec (length (live_anchors ops)) 1) as [E|N]; [auto|].
  pose proof (inactive_of _ _ _ _ _ _ Hr N). congruence.
Qed.

Lemma grid_settled p w h st ops (m : model R) q :
  0 < w -> 0 < h -> reached p w h st ops m -> calm_history ops -> live_inserted ops = [] ->
  (length (live_anchors ops) = 1%nat -> mtargets m = mpos m /\ 0 < st_range (mset m)) ->
  mpos m = position_array q (tile_of m) -> mvel m = still -> settled m.
Proof.
  intros W Hh Hr Ca LI LA P V.
  pose proof (no_inserted_of _ _ _ _ _ _ Hr LI) as X. pose proof (home_range _ _ _ _ _ _ Hr LA) as A.
  destruct (regular_reached _ _ _ _ _ _ W Hh Hr Ca) as (next & N & Rg).
  pose proof (regular_net _ _ N Rg X next) as SN.
  assert (F : Forall mesh_only (msprings m)) by (eapply same_net_mesh; [apply same_net_sym; exact SN|apply base_mesh_only]).
  unfold settled. split; [auto|]. split; [|split].
  - rewrite P. unfold quiet. rewrite (same_net_stretched _ _ _ SN). apply grid_quiet.
  - unfold constrainment. destruct (active m); [|auto]. destruct (A eq_refl) as [-> Rr]. apply constrain_points_home; auto.
  - eapply Forall_impl; [|exact F]. intros s. apply mesh_only_valid.
Qed.

(** A settled model reports nothing from the first real step on. *)
Lemma settled_first t m :
  Inv m -> settled m -> home m -> (0 < t)%Z ->
  exists h, model_step t m = Ok (set_unequal (set_sim m (mpos m) (mvel m) h) false, false) /\ heap_pos h = heap_pos (mheap m).
Proof.
  intros I S A Ht. unfold model_step. destruct (settled_n (step_count t) m false I S) as (h & -> & Hh).
  exists h. split; [|auto]. destruct (Z.eqb_spec t 0) as [->|_]; [lia|]. cbn [bind orb negb].
  change (active (set_unequal _ _)) with (active m). destruct (active m) eqn:E; [|reflexivity].
  cbn [andb]. f_equal. f_equal. unfold set_unequal, set_pos, set_sim. cbn [mtargets mpos]. rewrite <- (A E). reflexivity.
Qed.

Lemma settled_steps fuel t ts m :
  Inv m -> settled m -> home m -> (0 < t)%Z -> malive m = true ->
  exists m', run fuel m (map OpStep (t :: ts)) = Ok (m', map (fun _ => OMore false) (t :: ts)) /\ same_geometry m m'.
Proof.
  intros I S A Ht Al. destruct (settled_first t m I S A Ht) as (h & E & Hh).
  set (m1 := set_unequal (set_sim m (mpos m) (mvel m) h) false) in *.
  destruct (steps_settled fuel ts m1) as (m' & E' & G).
  - apply (inv_step_op fuel m (OpStep t) m1 (OMore false)); auto. unfold step_op. cbn [needs_model]. rewrite Al.
    cbn [negb andb]. rewrite E. reflexivity.
  - exact (settled_sim m h S Hh).
  - reflexivity.
  - exact A.
  - exact Al.
  - exists m'. split.
    + cbn [map run]. unfold step_op. cbn [needs_model]. rewrite Al. cbn [negb andb]. rewrite E. cbn [bind fst snd]. rewrite E'. reflexivity.
    + destruct G as (? & ? & ? & Ga & ? & ? & ? & ?). repeat split; auto.
      intros n. rewrite Ga. unfold anchor_point, m1. cbn [set_sim set_unequal mhandles mpos mheap].
      destruct (lookup_handle (mhandles m) n) as [[i|st a b blk aid]|]; auto.
      apply (ins_point_pos h (mheap m) blk). auto.
Qed.

Lemma at_rest_still l : length l = 16%nat -> at_rest l -> l = still.
Proof.
  intros L F. unfold still. rewrite <- L. clear L. induction F; cbn [repeat length]; [auto|]. rewrite <- IHF. subst. reflexivity.
Qed.

Lemma size_positive p w h st ops (m : model R) : 0 < w -> 0 < h -> reached p w h st ops m -> 0 < mw m /\ 0 < mh m.
Proof. intros W Hh Hr. destruct (grid_targets_reached _ _ _ _ _ _ W Hh Hr) as (A & B & _). auto. Qed.

Lemma home_resized (m m' : model R) q w h :
  0 < mw m -> 0 < mh m -> 0 < w -> 0 < h ->
  mpos m = position_array q (tile_of m) -> mtargets m = mpos m ->
  mpos m' = position_array q (tile_size w h) ->
  mtargets m' = map (rescale (nth 0 (mtargets m) vzero) (mkV (w / mw m) (h / mh m))) (mtargets m) -> mtargets m' = mpos m'.
Proof.
  intros W0 H0 W Hh P E P' T'. rewrite T', E, P', P.
  replace (nth 0 (position_array q (tile_of m)) vzero) with q by (symmetry; apply nth_error_nth; apply grid_nth0).
  rewrite grid_rescale. unfold tile_of. rewrite tile_scale; auto.
Qed.

Lemma resize_regular p w h st ops (m : model R) q w' h' fuel :
  0 < w -> 0 < h -> 0 < w' -> 0 < h' -> reached p w h st ops m -> malive m = true -> calm_history ops -> live_inserted ops = [] ->
  (length (live_anchors ops) = 1%nat -> mtargets m = mpos m /\ 0 < st_range (mset m)) ->
  mpos m = grid q (mw m) (mh m) -> at_rest (mvel m) ->
  exists m', step_op (S fuel) m (OpResize w' h') = Ok (m', ONone) /\
    mpos m' = grid q w' h' /\ at_rest (mvel m') /\ mw m' = w' /\ mh m' = h' /\
    forall fuel' t ts, (0 < t)%Z ->
      exists m'', run fuel' m' (map OpStep (t :: ts)) = Ok (m'', map (fun _ => OMore false) (t :: ts)) /\ same_geometry m' m''.
Proof.
  intros W Hh W' Hh' Hr Al Ca LI LA P V. pose proof (inv_reached _ _ _ _ _ _ Hr) as I.
  destruct (size_positive _ _ _ _ _ _ W Hh Hr) as (W0 & H0).
  pose proof (at_rest_still _ (inv_vel _ I) V) as V0. rewrite grid_array in P.
  pose proof (home_range _ _ _ _ _ _ Hr LA) as Hom.
  assert (Hm0 : home m) by (intros X; symmetry; apply (Hom X)).
  destruct (resize_rest fuel w' h' m q I (hinv_reached _ _ _ _ _ _ Hr) W0 H0 W' Hh' Hm0 Al P V0)
    as (m' & E & P' & (V' & Wm & Hm & Hd & T' & S' & St & C & A' & U)).
  exists m'. split; [exact E|]. split; [rewrite grid_array; auto|]. split; [rewrite V'; auto|]. split; [auto|]. split; [auto|].
  intros fuel' t ts Ht.
  pose proof (reached_fuel _ _ _ _ _ _ _ _ _ _ Hr E) as Hr'.
  assert (Ls : live_anchors (ops ++ [OpResize w' h']) = live_anchors ops) by (apply live_snoc_same; reflexivity).
  assert (Th : length (live_anchors ops) = 1%nat -> mtargets m' = mpos m' /\ 0 < st_range (mset m')).
  { intros L1. destruct (LA L1) as [TP Rr]. split; [|rewrite St; auto]. exact (home_resized m m' q w' h' W0 H0 W' Hh' P TP P' T'). }
  assert (LA' : length (live_anchors (ops ++ [OpResize w' h'])) = 1%nat -> mtargets m' = mpos m' /\ 0 < st_range (mset m')) by (rewrite Ls; auto).
  apply settled_steps; auto.
  - eapply inv_reached; eauto.
  - apply (grid_settled p w h st (ops ++ [OpResize w' h']) m' q); auto.
    + apply calm_resize; auto.
    + unfold live_inserted. rewrite Ls. auto.
    + unfold tile_of. rewrite Wm, Hm. auto.
    + congruence.
  - intros X. symmetry. apply (home_range _ _ _ _ _ _ Hr' LA' X).
  - congruence.
Qed.

Lemma resize_same p w h st ops (m : model R) fuel :
  0 < w -> 0 < h -> reached p w h st ops m -> malive m = true ->
  step_op fuel m (OpResize (mw m) (mh m)) = Ok (m, ONone).
Proof.
  intros W Hh Hr Al. destruct (size_positive _ _ _ _ _ _ W Hh Hr) as (W0 & H0).
  unfold step_op. cbn [needs_model]. rewrite Al. cbn [negb andb]. unfold resize_model, nzero. rnum.
  destruct (Rltb_spec 0 (mw m)) as [_|X]; [|lra]. destruct (Rltb_spec 0 (mh m)) as [_|X]; [|lra]. cbn [negb andb].
  assert (E : vequals (mkV (mw m / mw m) (mh m / mh m)) (mkV 1 1) = true).
  { apply vequals_R. f_equal; field; lra. }
  rewrite E. reflexivity.
Qed.

Lemma rescale_twice (o p : vec R) a b c d : a <> 0 -> b <> 0 ->
  forall a0 b0, a0 <> 0 -> b0 <> 0 ->
  rescale o (mkV (c / a) (d / b)) (rescale o (mkV (a / a0) (b / b0)) p) = rescale o (mkV (c / a0) (d / b0)) p.
Proof. intros. unfold rescale. veq; field; auto. Qed.

Lemma resize_twice p w h st ops (m : model R) q w1 h1 w2 h2 fuel :
  0 < w -> 0 < h -> 0 < w1 -> 0 < h1 -> 0 < w2 -> 0 < h2 ->
  reached p w h st ops m -> malive m = true -> calm_history ops -> live_inserted ops = [] ->
  (length (live_anchors ops) = 1%nat -> mtargets m = mpos m /\ 0 < st_range (mset m)) ->
  mpos m = grid q (mw m) (mh m) -> at_rest (mvel m) ->
  exists m' m'', run (S fuel) m [OpResize w1 h1; OpResize w2 h2] = Ok (m', [ONone; ONone]) /\
    run (S fuel) m [OpResize w2 h2] = Ok (m'', [ONone]) /\ same_geometry m'' m'.
Proof.
  intros W Hh W1 H1 W2 H2 Hr Al Ca LI LA P V. pose proof (inv_reached _ _ _ _ _ _ Hr) as I.
  destruct (size_positive _ _ _ _ _ _ W Hh Hr) as (W0 & H0).
  pose proof (at_rest_still _ (inv_vel _ I) V) as V0. rewrite grid_array in P.
  pose proof (home_range _ _ _ _ _ _ Hr LA) as Hom.
  assert (A : home m) by (intros X; symmetry; apply (Hom X)).
  pose proof (hinv_reached _ _ _ _ _ _ Hr) as HH.
  destruct (resize_rest fuel w1 h1 m q I HH W0 H0 W1 H1 A Al P V0)
    as (m1 & E1 & P1 & (V1 & Wm1 & Hm1 & Hd1 & T1 & S1 & St1 & C1 & A1 & U1)).
  destruct (resize_rest fuel w2 h2 m q I HH W0 H0 W2 H2 A Al P V0)
    as (m2 & E2 & P2 & (V2 & Wm2 & Hm2 & Hd2 & T2 & S2 & St2 & C2 & A2 & U2)).
  pose proof (reached_fuel _ _ _ _ _ _ _ _ _ _ Hr E1) as Hr1. pose proof (inv_reached _ _ _ _ _ _ Hr1) as I1.
  destruct (resize_rest fuel w2 h2 m1 q I1 (hinv_reached _ _ _ _ _ _ Hr1)) as (m3 & E3 & P3 & (V3 & Wm3 & Hm3 & Hd3 & T3 & S3 & St3 & C3 & A3 & U3)); auto; try congruence.
  { intros X. symmetry. unfold active in X. rewrite C1 in X. destruct (Hom X) as [TP _]. exact (home_resized m m1 q w1 h1 W0 H0 W1 H1 P TP P1 T1). }
  { unfold tile_of. congruence. }
  exists m3, m2. split; [cbn [run]; rewrite E1; cbn [bind fst snd]; rewrite E3; reflexivity|].
  split; [cbn [run]; rewrite E2; reflexivity|].
  pose proof (no_inserted_of _ _ _ _ _ _ Hr LI) as NI.
  assert (Pe : mpos m3 = mpos m2) by congruence.
  assert (T0 : nth 0 (mtargets m1) vzero = nth 0 (mtargets m) vzero).
  { rewrite T1. destruct (mtargets m) as [|t0 l] eqn:Et; [apply (f_equal (@length _)) in Et; rewrite (inv_tgt _ I) in Et; discriminate|].
    cbn [map nth]. unfold rescale. veq; ring. }
  unfold same_geometry. split; [auto|]. split; [congruence|]. split; [|split; [|split; [|split; [congruence|split; [congruence|congruence]]]]].
  - rewrite T3, T2, T0, T1, Wm1, Hm1, map_map. apply map_ext. intros x. apply rescale_twice; lra.
  - intros n. unfold anchor_point. replace (mhandles m3) with (mhandles m2) by congruence.
    destruct (lookup_handle (mhandles m2) n) as [[i|s a b blk aid]|] eqn:L; [congruence| |auto].
    exfalso. rewrite Hd2 in L. apply lookup_handle_in in L. discriminate (NI _ _ L).
  - rewrite S3, S2, S1, map_map, Wm1, Hm1. apply map_ext. intros [a b c d l i]. unfold scale_length. cbn [s_fa s_fb s_pa s_pb s_len s_id].
    f_equal. veq; field; lra.
Qed.

(** ** Action and reaction *)

Lemma total_app a b : total (a ++ b) = vadd (total a) (total b).
Proof. induction a as [|f a IH]; cbn [total app]; [veq; ring|]. rewrite IH. veq; ring. Qed.

Lemma total_set i f : forall (l : list (vec R)) x, nth_error l i = Some x -> total (list_set i (vadd x f) l) = vadd (total l) f.
Proof.
  induction i; intros [|y l] x E; cbn [nth_error] in E; try discriminate; cbn [list_set total].
  - injection E as ->. veq; ring.
  - rewrite (IHi _ _ E). veq; ring.
Qed.

Lemma block_forces_set b p g f : forall (h : list (block R)), nth_error h b = Some (Some (p, g)) ->
  total (block_forces (list_set b (Some (p, vadd g f)) h)) = vadd (total (block_forces h)) f.
Proof.
  induction b; intros [|y h] E; cbn [nth_error] in E; try discriminate; cbn [list_set block_forces flat_map].
  - injection E as ->. cbn [snd app total]. fold (block_forces h). veq; ring.
  - rewrite !total_app. fold (block_forces h). fold (block_forces (list_set b (Some (p, vadd g f)) h)). rewrite (IHb _ E). veq; ring.
Qed.

Definition whole (mm : mem R) : vec R := vadd (total (m_force mm)) (total (block_forces (m_heap mm))).

Lemma add_force_whole mm l f mm' : add_force mm l f = Ok mm' -> whole mm' = vadd (whole mm) f.
Proof.
  intros E. destruct l as [i|b]; unfold add_force in E; inv_ok; unfold whole; cbn [m_force m_heap].
  - rewrite (total_set _ _ _ _ Ha). veq; ring.
  - apply rd_blk_ok in Ha. destruct a as [p g]. cbn [fst snd]. rewrite block_forces_set by auto. veq; ring.
Qed.

Lemma apply_forces_whole k s mm mm' b : apply_forces k s mm = Ok (mm', b) -> whole mm' = whole mm.
Proof.
  intros E. unfold apply_forces in E. inv_ok. rewrite spring_deltas_pull in E. inv_ok.
  match goal with X1 : add_force mm _ _ = Ok ?m1, X2 : add_force ?m1 _ _ = Ok _ |- _ =>
    rewrite (add_force_whole _ _ _ _ X2), (add_force_whole _ _ _ _ X1) end.
  unfold vneg. veq; ring.
Qed.

Lemma apply_all_whole k ss : forall mm b mm' b', apply_all k ss mm b = Ok (mm', b') -> whole mm' = whole mm.
Proof.
  induction ss; intros mm b mm' b' E; cbn [apply_all] in E; inv_ok; auto.
  destruct a0 as [m1 b1]. cbn [fst snd] in E. rewrite (IHss _ _ _ _ E). eapply apply_forces_whole; eauto.
Qed.

Lemma total_zero n : total (repeat vzero n) = mkV 0 0.
Proof. induction n; cbn [repeat total]; auto. rewrite IHn. veq; ring. Qed.

Lemma action_reaction k ss pos heap mm b :
  calculate_forces k ss pos heap = Ok (mm, b) ->
  vadd (total (m_force mm)) (total (block_forces (m_heap mm))) = total (block_forces heap).
Proof.
  unfold calculate_forces. intros E. apply apply_all_whole in E. unfold whole in E. rewrite E. cbn [m_force m_heap].
  rewrite total_zero. veq; ring.
Qed.

Lemma add_zero_force mm l mm' : add_force mm l (mkV 0 0 : vec R) = Ok mm' -> mm' = mm.
Proof.
  intros E. destruct l as [i|b]; unfold add_force in E; inv_ok; destruct mm as [p f h]; cbn [m_pos m_force m_heap] in *.
  - f_equal. replace (vadd a (mkV 0 0)) with a by (veq; ring). apply list_set_same. auto.
  - f_equal. apply rd_blk_ok in Ha. destruct a as [q g]. cbn [fst snd]. replace (vadd g (mkV 0 0)) with g by (veq; ring).
    apply list_set_same. auto.
Qed.

Lemma slack_forces k ss : forall mm b mm' b',
  Forall (fun s => exists pa pb, rd_pos mm (s_pa s) = Ok pa /\ rd_pos mm (s_pb s) = Ok pb /\ slack pa pb (s_len s)) ss ->
  apply_all k ss mm b = Ok (mm', b') -> mm' = mm /\ b' = b.
Proof.
  induction ss as [|s ss IH]; intros mm b mm' b' F E; cbn [apply_all] in E; inv_ok; auto.
  inversion F as [|x l (pa & pb & Ea & Eb & Sl) F' E1]; subst. destruct a as [m1 b1]. cbn [fst snd] in E.
  unfold apply_forces in Ha. rewrite Ea, Eb in Ha. cbn [bind] in Ha. rewrite spring_deltas_pull in Ha.
  rewrite (slack_pull 1 _ _ _ Sl) in Ha. inv_ok.
  match goal with X1 : add_force mm _ _ = Ok ?m1, X2 : add_force ?m1 _ _ = Ok _ |- _ =>
    rename X1 into A1; rename X2 into A2 end.
  assert (Z1 : vscale (vzero : vec R) k = mkV 0 0) by (veq; ring).
  assert (Z2 : vscale (vneg vzero) k = mkV 0 0) by (unfold vneg; veq; ring).
  rewrite Z1 in A1. apply add_zero_force in A1. subst. rewrite Z2 in A2. apply add_zero_force in A2. subst.
  apply IH in E; auto. destruct E as [-> ->]. split; auto.
  unfold vneg, vabs, vmap, vadd, vzero, nzero. cbn [vx vy]. rnum. rewrite Ropp_0, Rabs_R0, Rplus_0_r.
  destruct (Rltb_spec 0 0); [lra|]. destruct b; reflexivity.
Qed.

Lemma rest_forces k ss pos heap mm b :
  Forall (fun s => exists pa pb, rd_pos (mkMem pos (repeat vzero 16) heap) (s_pa s) = Ok pa /\
     rd_pos (mkMem pos (repeat vzero 16) heap) (s_pb s) = Ok pb /\ slack pa pb (s_len s)) ss ->
  calculate_forces k ss pos heap = Ok (mm, b) ->
  at_rest (m_force mm) /\ m_heap mm = heap /\ b = false.
Proof.
  intros F E. unfold calculate_forces in E. apply slack_forces in E; auto. destruct E as [-> ->].
  cbn [m_force m_heap]. repeat split. apply Forall_forall. intros x Hx. apply repeat_spec in Hx. auto.
Qed.

(** ** Batches of integrations *)

Section Batches.
Context {T : Type} `{Num T}.

Lemma integrate_n_counts n : forall (m m' : model T) b b',
  integrate_n n m b = Ok (m', b') <-> exists b1, integrations n m m' b1 /\ b' = (b || b1)%bool.
Proof.
  induction n; intros m m' b b'; cbn [integrate_n].
  - split.
    + intros E. inv_ok. exists false. rewrite orb_false_r. split; auto. constructor.
    + intros (b1 & X & ->). inversion X; subst. rewrite orb_false_r. auto.
  - split.
    + intros E. inv_ok. destruct a as [m1 b1]. cbn [fst snd] in E. apply IHn in E. destruct E as (b2 & X & ->).
      exists (b1 || b2)%bool. split; [econstructor; eauto|]. rewrite orb_assoc. auto.
    + intros (b1 & X & ->). inversion X as [|n' m0 m1 m2 b2 b3 E1 X2]; subst. rewrite E1. cbn [bind fst snd].
      apply IHn. exists b3. split; auto. rewrite orb_assoc. auto.
Qed.

Lemma step_count_bounds t : (0 <= t)%Z ->
  (16 * (Z.of_nat (step_count t) - 1) < t <= 16 * Z.of_nat (step_count t))%Z.
Proof.
  intros Ht. unfold step_count. rewrite Z2Nat.id by (apply Z.div_pos; lia).
  pose proof (Z.div_mod (t + 15) 16). pose proof (Z.mod_pos_bound (t + 15) 16). lia.
Qed.

Lemma step_integrates t (m m' : model T) b :
  (0 <= t)%Z -> model_step t m = Ok (m', b) ->
  exists n m1 b1,
    (16 * (Z.of_nat n - 1) < t <= 16 * Z.of_nat n)%Z /\ integrations n m m1 b1 /\
    b = (((t =? 0)%Z && munequal m) || b1)%bool /\
    mvel m' = mvel m1 /\
    mpos m' = (if (negb b && active m)%bool then mtargets m else mpos m1).
Proof.
  intros Ht E. unfold model_step in E. inv_ok. destruct a as [m1 b1]. inv_ok.
  apply integrate_n_counts in Ha. destruct Ha as (b2 & X & ->). cbn [orb] in *.
  exists (step_count t), m1, b2. split; [apply step_count_bounds; auto|]. split; [exact X|].
  assert (Sh : mtargets m1 = mtargets m /\ active m1 = active m).
  { clear - X. induction X; auto. apply integrate_once_shape in H0. destruct H0 as (p & v & hh & E1 & _). subst m1.
    destruct IHX as (-> & ->). auto. }
  destruct Sh as (E1 & E2).
  assert (B : (if (t =? 0)%Z then munequal m else false) = ((t =? 0)%Z && munequal m)%bool) by (destruct (t =? 0)%Z; auto).
  rewrite B. split; [auto|]. set (bb := (_ || b2)%bool).
  change (active (set_unequal m1 bb)) with (active m1). rewrite E2.
  destruct (negb bb && active m)%bool; split; auto.
Qed.

Lemma integrate_once_flag (m : model T) x :
  integrate_once (set_unequal m x) = on_ok (fun r => (set_unequal (fst r) x, snd r)) (integrate_once m).
Proof.
  unfold integrate_once. change (constrainment (set_unequal m x)) with (constrainment m).
  cbn [set_unequal mpos mset mtracked msprings mvel mheap].
  destruct (constrainment m (mpos m)) as [p1 b1].
  destruct (spring_step _ _ _ _ _ _ _) as [[[[p v] hh] b2]|e]; reflexivity.
Qed.

Lemma integrations_flag n (m m' : model T) b x : integrations n m m' b -> integrations n (set_unequal m x) (set_unequal m' x) b.
Proof.
  induction 1; [constructor|]. apply (integrations_more n _ (set_unequal m1 x)); auto.
  rewrite integrate_once_flag, H0. reflexivity.
Qed.

Lemma integrations_app n k (m m1 m2 : model T) b1 b2 :
  integrations n m m1 b1 -> integrations k m1 m2 b2 -> integrations (n + k) m m2 (b1 || b2).
Proof. induction 1; intros X; [exact X|]. rewrite <- orb_assoc. cbn [Nat.add]. econstructor; eauto. Qed.

Lemma step_count_multiple a : (0 <= a)%Z -> step_count (16 * a) = Z.to_nat a.
Proof. intros Ha. unfold step_count. f_equal. rewrite Z.add_comm, Z.mul_comm, Z.div_add by lia. reflexivity. Qed.

Lemma integrate_once_keeps (m m' : model T) b : integrate_once m = Ok (m', b) -> active m' = active m /\ munequal m' = munequal m.
Proof. intros E. apply integrate_once_shape in E. destruct E as (p & v & hh & -> & _). auto. Qed.

Lemma integrations_keep n (m m' : model T) b : integrations n m m' b -> active m' = active m /\ munequal m' = munequal m.
Proof. induction 1; auto. apply integrate_once_keeps in H0. intuition congruence. Qed.

Lemma step_unfold a (m m1 : model T) b1 :
  (0 <= a)%Z -> model_step (16 * a) m = Ok (m1, b1) -> active m = false \/ b1 = true ->
  exists mi bi, integrations (Z.to_nat a) m mi bi /\ b1 = (((a =? 0)%Z && munequal m) || bi)%bool /\ m1 = set_unequal mi b1.
Proof.
  intros Ha E X. unfold model_step in E. rewrite step_count_multiple in E by auto. inv_ok. destruct a0 as [mi bi].
  match goal with Y : integrate_n _ _ _ = Ok _ |- _ => apply integrate_n_counts in Y; destruct Y as (bj & Yi & ->) end.
  cbn [orb] in *.
  replace (16 * a =? 0)%Z with (a =? 0)%Z in * by (destruct (Z.eqb_spec a 0), (Z.eqb_spec (16 * a) 0); auto; lia).
  assert (Bq : (if (a =? 0)%Z then munequal m else false) = ((a =? 0)%Z && munequal m)%bool) by (destruct (a =? 0)%Z; auto).
  rewrite Bq in *. inv_ok. exists mi, bj. split; auto. split; auto.
  change (active (set_unequal mi ?x)) with (active mi). destruct (integrations_keep _ _ _ _ Yi) as (-> & _).
  destruct X as [->| ->]; [rewrite andb_false_r|]; reflexivity.
Qed.

Lemma set_unequal_twice (m : model T) x y : set_unequal (set_unequal m x) y = set_unequal m y.
Proof. reflexivity. Qed.
Lemma set_unequal_same (m : model T) : set_unequal m (munequal m) = m.
Proof. destruct m; reflexivity. Qed.

Lemma step_batch a b (m m1 m2 : model T) b1 b2 :
  (0 <= a)%Z -> (0 <= b)%Z ->
  model_step (16 * a) m = Ok (m1, b1) -> model_step (16 * b) m1 = Ok (m2, b2) ->
  active m = false \/ (b1 = true /\ b2 = true) ->
  exists b3, model_step (16 * (a + b)) m = Ok (set_unequal m2 b3, b3) /\
    ((0 < a)%Z -> (0 < b)%Z -> b3 = (b1 || b2)%bool).
Proof.
  intros Ha Hb E1 E2 X.
  destruct (step_unfold a m m1 b1) as (mi & bi & I1 & B1 & M1); auto; [tauto|].
  assert (A1 : active m1 = active m) by (subst m1; apply integrations_keep in I1; tauto).
  destruct (step_unfold b m1 m2 b2) as (mj & bj & I2 & B2 & M2); auto; [rewrite A1; tauto|].
  apply (integrations_flag _ _ _ _ (munequal mi)) in I2. rewrite M1, set_unequal_twice, set_unequal_same in I2.
  pose proof (integrations_app _ _ _ _ _ _ _ I1 I2) as I3.
  unfold model_step. rewrite step_count_multiple, Z2Nat.inj_add by lia.
  assert (E3 : integrate_n (Z.to_nat a + Z.to_nat b) m false = Ok (set_unequal mj (munequal mi), (bi || bj)%bool)).
  { apply integrate_n_counts. exists (bi || bj)%bool. auto. }
  rewrite E3. cbn [bind]. set (b3 := ((if (16 * (a + b) =? 0)%Z then munequal m else false) || (bi || bj))%bool).
  exists b3. split.
  - rewrite set_unequal_twice. change (active (set_unequal mj b3)) with (active mj).
    assert (Aj : active mj = active m).
    { apply integrations_keep in I3. destruct I3 as (Y & _). exact Y. }
    rewrite Aj. rewrite M2, set_unequal_twice.
    destruct X as [->|(X1 & X2)]; [rewrite andb_false_r; reflexivity|].
    assert (b3 = true) as ->; [|reflexivity]. unfold b3.
    rewrite X1 in B1. rewrite X2 in B2. assert (U1 : munequal m1 = b1) by (subst m1; reflexivity).
    destruct (Z.eqb_spec a 0) as [->|Na], (Z.eqb_spec b 0) as [->|Nb].
    + cbn [Z.add Z.mul Z.eqb]. inversion I1; subst. cbn [andb orb] in *. rewrite orb_false_r in B1. rewrite <- B1. reflexivity.
    + cbn [andb orb] in B2. rewrite <- B2. rewrite !orb_true_r. reflexivity.
    + cbn [andb orb] in B1. rewrite <- B1. rewrite orb_true_r. reflexivity.
    + cbn [andb orb] in B1. rewrite <- B1. rewrite orb_true_r. reflexivity.
  - intros Pa Pb. unfold b3. destruct (Z.eqb_spec (16 * (a + b)) 0); [lia|].
    destruct (Z.eqb_spec a 0); [lia|]. destruct (Z.eqb_spec b 0); [lia|]. cbn [andb orb] in *. congruence.
Qed.

Lemma step_zero (m m' : model T) b :
  model_step 0 m = Ok (m', b) ->
  b = munequal m /\ mvel m' = mvel m /\ mheap m' = mheap m /\ (b = true \/ active m = false -> m' = m).
Proof.
  intros E. unfold model_step in E. change (step_count 0) with 0%nat in E. cbn [integrate_n bind Z.eqb] in E. rewrite orb_false_r in E.
  rewrite set_unequal_same in E. inv_ok. repeat split; auto.
  1-2: destruct (negb (munequal m) && active m)%bool; reflexivity.
  intros [->| ->]; [reflexivity|]. rewrite andb_false_r. reflexivity.
Qed.
End Batches.

(** ** Resizing and held springs *)

Lemma resize_held {T} (N : Num T) fuel (m m' : model T) w h u :
  step_op fuel m (OpResize w h) = Ok (m', u) -> m' <> m ->
  held_springs m' = held_springs m /\
  msprings m' = map (scale_length (mkV (ndiv w (mw m)) (ndiv h (mh m)))) (msprings m).
Proof.
  intros E Ne. unfold step_op in E. destruct (needs_model _ && negb (malive m))%bool; [discriminate|]. inv_ok.
  match goal with X : resize_model _ _ _ _ = Ok _ |- _ => apply resize_model_shape in X; destruct X as [X|(po & to & id & hp & -> & _)]; [contradiction|] end.
  split; reflexivity.
Qed.

Lemma one_spring k s (mm : mem R) pa pb :
  rd_pos mm (s_pa s) = Ok pa -> rd_pos mm (s_pb s) = Ok pb ->
  apply_forces k s mm =
    bind (add_force mm (s_fa s) (pull k pa pb (s_len s))) (fun m1 =>
    bind (add_force m1 (s_fb s) (vneg (pull k pa pb (s_len s)))) (fun m2 =>
    Ok (m2, negb (if Rlt_dec (Rabs (vx (extension pa pb (s_len s)))) 1 then
                  if Rlt_dec (Rabs (vy (extension pa pb (s_len s)))) 1 then true else false else false)))).
Proof.
  intros E1 E2. unfold apply_forces. rewrite E1, E2. cbn [bind]. rewrite spring_deltas_pull, vneg_scale, !pull_scale.
  destruct (add_force mm (s_fa s) (pull k pa pb (s_len s))) as [m1|e]; cbn [bind]; [|reflexivity].
  destruct (add_force m1 (s_fb s) _) as [m2|e]; cbn [bind]; [|reflexivity]. f_equal. f_equal.
  etransitivity; [apply delta_stretched|].
  destruct (stretched pa pb (s_len s)) eqn:St.
  - destruct (Rlt_dec _ 1) as [A|]; [|reflexivity]. destruct (Rlt_dec _ 1) as [B|]; [|reflexivity].
    exfalso. assert (X : slack pa pb (s_len s)) by (split; auto). apply stretched_slack in X. congruence.
  - apply stretched_slack in St. destruct St as [A B]. destruct (Rlt_dec _ 1); [|contradiction]. destruct (Rlt_dec _ 1); [reflexivity|contradiction].
Qed.

Lemma one_spring_case :
  exists mm, calculate_forces 8 [mkSpring (LMesh 0) (LBlk 0) (LMesh 0) (LBlk 0) (mkV 30 0) 1]
      (grid (mkV 0 0) 90 60) [Some (mkV 40 0, mkV 0 0)] = Ok (mm, true) /\
    nth_error (m_force mm) 0 = Some (mkV 40 0) /\ m_heap mm = [Some (mkV 40 0, mkV (-40) 0)].
Proof.
  unfold calculate_forces. cbn [apply_all]. rewrite (one_spring _ _ _ (mkV 0 0) (mkV 40 0)).
  2:{ cbn [s_pa rd_pos m_pos]. rewrite grid_array, grid_nth0. reflexivity. }
  2:{ reflexivity. }
  assert (P : pull 8 (mkV 0 0) (mkV 40 0) (mkV 30 0) = mkV 40 0).
  { unfold pull, extension, clip. cbn [vx vy]. rewrite (Rabs_right ((40 - 0 - 30) / 2)) by lra. rewrite (Rabs_right ((0 - 0 - 0) / 2)) by lra.
    destruct (Rlt_dec ((40 - 0 - 30) / 2) (1 / 2)); [lra|]. destruct (Rlt_dec ((0 - 0 - 0) / 2) (1 / 2)); [|lra]. apply vec_eq; cbn [vx vy]; lra. }
  cbn [s_len]. rewrite P. cbn [s_fa s_fb add_force m_force m_heap m_pos repeat mesh_n nth_error of_option bind rd_blk list_set fst snd orb].
  unfold extension. cbn [vx vy]. rewrite (Rabs_right (40 - 0 - 30)) by lra. destruct (Rlt_dec (40 - 0 - 30) 1); [lra|]. cbn [negb].
  eexists. split; [reflexivity|]. cbn [m_force m_heap nth_error list_set repeat].
  split; [f_equal; veq; ring|]. unfold vneg. do 3 f_equal. veq; ring.
Qed.

Lemma rest_forces_case :
  exists mm b, calculate_forces 8 (base_springs (tile_size 90 60) 0) (grid (mkV 0 0) 90 60) [] = Ok (mm, b) /\
    Forall (fun s => exists pa pb, rd_pos (mkMem (grid (mkV 0 0) 90 60) (repeat vzero 16) []) (s_pa s) = Ok pa /\
       rd_pos (mkMem (grid (mkV 0 0) 90 60) (repeat vzero 16) []) (s_pb s) = Ok pb /\ slack pa pb (s_len s))
      (base_springs (tile_size 90 60) 0).
Proof.
  assert (V : Forall (spring_valid (T:=R) []) (base_springs (tile_size 90 60) 0)) by apply base_springs_valid.
  destruct (apply_all_valid 8 (base_springs (tile_size 90 60) 0) (mkMem (grid (mkV 0 0) 90 60) (repeat vzero mesh_n) []) false) as ([mm fe] & E); auto.
  exists mm, fe. split; [exact E|]. apply Forall_forall. intros s Hs.
  pose proof (proj1 (Forall_forall _ _) V s Hs) as Vs.
  destruct (where_place (grid (mkV 0 0) 90 60) [] (repeat vzero 16) s) as (A & B); auto.
  eexists. eexists. split; [exact A|]. split; [exact B|].
  pose proof (grid_quiet (mkV 0 0) (tile_size 90 60) 0 []) as Q. rewrite quiet_forall in Q.
  rewrite grid_array. exact (proj1 (Forall_forall _ _) Q s Hs).
Qed.
