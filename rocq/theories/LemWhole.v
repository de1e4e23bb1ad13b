(** Movements of the whole model: translation, prediction, agreement of the
    prediction with the simulation. *)

From Coq Require Import ZArith Reals Bool List Lia Lra Permutation.
From Verif Require Import Num Geometry Outcome Wobbly Spec SpecMesh SpecMotion LemBasic LemInv LemReal LemHistory
  LemSprings LemNetwork LemLifo LemAnchors LemForce LemRest LemSettle LemSafe LemStill LemMoves LemAnchorFacts LemNetworkFacts LemTranslate LemBezier.
Import ListNotations.
Local Open Scope R_scope.

(** ** Displacement *)

Lemma displace_sh d o : displace_op d o = sh_op d o.
Proof. destruct o; reflexivity. Qed.

Lemma displaced_sh d m : displaced d m (sh_model d m).
Proof.
  unfold displaced. repeat split; try reflexivity. intros n. unfold anchor_point.
  change (mhandles (sh_model d m)) with (mhandles m).
  destruct (lookup_handle (mhandles m) n) as [[i|st a b k aid]|]; [| |reflexivity].
  - change (mpos (sh_model d m)) with (map (sh d) (mpos m)). apply nth_error_map.
  - change (mheap (sh_model d m)) with (map (sh_blk d) (mheap m)). rewrite nth_error_map. unfold block in *.
    match goal with |- context [@nth_error ?A (mheap m) k] => destruct (@nth_error A (mheap m) k) as [[[q f]|]|] end; reflexivity.
Qed.

Lemma translated_run fuel p d w h st next ops :
  match run fuel (model_init p w h st next) ops,
        run fuel (model_init (vadd p d) w h st next) (map (displace_op d) ops) with
  | Ok (m, us), Ok (m', us') => us' = us /\ displaced d m m'
  | Err e, Err e' => e' = e
  | _, _ => False
  end.
Proof.
  change (vadd p d) with (sh d p). rewrite init_sh.
  replace (map (displace_op d) ops) with (map (sh_op d) ops) by (apply map_ext; intros; symmetry; apply displace_sh).
  rewrite run_sh. destruct (run fuel (model_init p w h st next) ops) as [[m us]|e]; cbn [on_ok bind on1 fst snd]; auto.
  split; auto. apply displaced_sh.
Qed.

Lemma displaced_deform d m m' uv :
  length (mpos m) = 16%nat -> displaced d m m' ->
  deform_texcoords (L:=R) m' uv = vadd (deform_texcoords (L:=R) m uv) d.
Proof. intros L (E & _). unfold deform_texcoords. rewrite E. destruct uv. apply deform_translate. auto. Qed.

(** ** Inserted points *)

Lemma update_inserted_all (f : vec R -> vec R) : forall l (h : list (block R)),
  NoDup (map snd l) -> (forall b, In b (map snd l) -> exists pf, nth_error h b = Some (Some pf)) ->
  exists h', update_inserted f l h = Ok h' /\
    forall b, nth_error h' b =
      if in_dec Nat.eq_dec b (map snd l) then option_map (option_map (fun pf => (f (fst pf), snd pf))) (nth_error h b)
      else nth_error h b.
Proof.
  induction l as [|[a b] l IH]; intros h ND X.
  - exists h. split; [reflexivity|]. intros b. destruct (in_dec _ _ _) as [[]|]. auto.
  - cbn [map snd] in *. apply NoDup_cons_iff in ND. destruct ND as [NB ND]. cbn [update_inserted].
    destruct (X b (or_introl eq_refl)) as (pf & Hb).
    assert (Lb : (b < length h)%nat) by (apply nth_error_Some; unfold block in *; congruence).
    rewrite (proj2 (rd_blk_ok h b pf) Hb). cbn [bind].
    destruct (IH (list_set b (Some (f (fst pf), snd pf)) h) ND) as (h' & E & Hn).
    { intros b' Hb'. destruct (X b' (or_intror Hb')) as (pf' & Hf). exists pf'.
      rewrite nth_error_list_set_neq; [exact Hf|]. intros ->. auto. }
    exists h'. split; [exact E|]. intros b'. rewrite Hn.
    destruct (Nat.eq_dec b b') as [<-|Nb].
    + destruct (in_dec _ b (map snd l)); [tauto|]. destruct (in_dec _ b (b :: map snd l)) as [_|Y]; [|exfalso; apply Y; left; auto].
      rewrite nth_error_list_set_eq by auto. unfold block in *. rewrite Hb. reflexivity.
    + rewrite nth_error_list_set_neq by auto.
      destruct (in_dec _ b' (map snd l)) as [Y|Y]; destruct (in_dec _ b' (b :: map snd l)) as [Z|Z]; auto.
      * exfalso. apply Z. right; auto.
      * exfalso. destruct Z; auto.
Qed.

Lemma update_inserted_net (f : vec R -> vec R) (m : model R) :
  HInv m ->
  update_inserted f (minserted m) (mheap m) = Ok (map (option_map (fun pf => (f (fst pf), snd pf))) (mheap m)).
Proof.
  intros HH. destruct HH as [A _ _ ND L]. rewrite A.
  assert (X : forall b, In b (map snd (live_blks (mhandles m))) -> exists pf, nth_error (mheap m) b = Some (Some pf)).
  { intros b Hb. apply L in Hb. unfold heap_live in Hb. rewrite nth_error_map in Hb. unfold block in *.
    match type of Hb with context [@nth_error ?A (mheap m) b] => destruct (@nth_error A (mheap m) b) as [[pf|]|] end; try discriminate. eauto. }
  destruct (update_inserted_all f _ _ ND X) as (h' & E & Hn). rewrite E. f_equal. apply nth_error_ext. intros b.
  rewrite Hn, nth_error_map. destruct (in_dec _ _ _) as [Y|Y]; auto.
  specialize (L b). unfold heap_live in L. rewrite nth_error_map in L. unfold block in *.
  match goal with |- context [@nth_error ?A (mheap m) b] => destruct (@nth_error A (mheap m) b) as [[pf|]|] end; try reflexivity. exfalso. apply Y, L. reflexivity.
Qed.

Lemma move_by_sh d m : HInv m -> move_model_by d m = Ok (sh_model d m).
Proof. intros HH. unfold move_model_by. cbv zeta. cbn [set_targets set_pos minserted mheap]. rewrite update_inserted_net by auto. reflexivity. Qed.

Lemma hinv_reached p w h st ops (m : model R) : reached p w h st ops m -> HInv m.
Proof. intros Hr. destruct (net_reached _ _ _ _ _ _ Hr) as (next & N). apply (net_h _ _ N). Qed.

Lemma move_by_whole p w h st ops (m : model R) d fuel :
  reached p w h st ops m -> malive m = true ->
  exists m', step_op fuel m (OpMoveBy d) = Ok (m', ONone) /\ displaced d m m'.
Proof.
  intros Hr Al. exists (sh_model d m). split; [|apply displaced_sh]. unfold step_op. cbn [needs_model]. rewrite Al. cbn [negb andb].
  rewrite move_by_sh by (eapply hinv_reached; eauto). reflexivity.
Qed.

Lemma sh_blk_twice d e b : sh_blk e (sh_blk d b) = sh_blk (vadd d e) b.
Proof. destruct b as [[q f]|]; [|reflexivity]. cbn [sh_blk option_map fst snd]. unfold sh. rewrite vadd_assoc. reflexivity. Qed.

Lemma sh_model_twice d e m : sh_model e (sh_model d m) = sh_model (vadd d e) m.
Proof.
  destruct m as [a1 a2 a3 a4 a5 a6 a7 a8 a9 a10 a11 a12 a13 a14 a15 a16 a17 a18].
  cbv beta iota zeta delta [sh_model set_heap set_targets set_pos mtargets mw mh mpos mvel mheap mtracked mcount msprings mpending minserted mnext_anchor mnext_id mset munequal mhandles mnext_handle malive].
  rewrite !map_map. f_equal; apply map_ext; intros; try apply sh_blk_twice; unfold sh; apply vadd_assoc.
Qed.

Lemma move_by_twice p w h st ops (m : model R) d e fuel :
  reached p w h st ops m -> malive m = true ->
  exists m', run fuel m [OpMoveBy d; OpMoveBy e] = Ok (m', [ONone; ONone]) /\
    run fuel m [OpMoveBy (vadd d e)] = Ok (m', [ONone]).
Proof.
  intros Hr Al. pose proof (hinv_reached _ _ _ _ _ _ Hr) as HH. exists (sh_model (vadd d e) m).
  cbn [run]. unfold step_op. cbn [needs_model]. rewrite Al. cbn [negb andb]. rewrite !move_by_sh by auto. cbn [bind fst snd].
  change (malive (sh_model d m)) with (malive m). rewrite Al. cbn [negb andb].
  rewrite move_model_by_sh, move_by_sh by auto. cbn [on_ok bind fst snd]. split; [|reflexivity].
  f_equal. f_equal. rewrite <- sh_model_twice.
  replace (sh_model d (sh_model e m)) with (sh_model e (sh_model d m)); [reflexivity|].
  rewrite !sh_model_twice, (vadd_comm d e). reflexivity.
Qed.

Lemma move_by_step p w h st ops (m m1 m2 : model R) d t b fuel :
  reached p w h st ops m -> step_op fuel m (OpMoveBy d) = Ok (m1, ONone) ->
  step_op fuel m (OpStep t) = Ok (m2, OMore b) ->
  exists m3, step_op fuel m1 (OpStep t) = Ok (m3, OMore b) /\ displaced d m2 m3.
Proof.
  intros Hr E1 E2. pose proof (hinv_reached _ _ _ _ _ _ Hr) as HH.
  assert (E : m1 = sh_model d m).
  { unfold step_op in E1. destruct (needs_model _ && negb (malive m))%bool; [discriminate|].
    rewrite move_by_sh in E1 by auto. cbn [bind] in E1. congruence. }
  subst m1. exists (sh_model d m2). split; [|apply displaced_sh].
  change (OpStep t) with (sh_op d (OpStep t)). rewrite step_op_sh, E2. reflexivity.
Qed.

(** ** Prediction *)

Lemma apply_all_body k : forall ss ss' (mm : mem R) b,
  map body ss = map body ss' -> apply_all k ss mm b = apply_all k ss' mm b.
Proof.
  induction ss as [|s ss IH]; intros [|s' ss'] mm b E; try discriminate; [reflexivity|].
  cbn [map] in E. injection E as E1 E2 E3 E4 E5 E6. cbn [apply_all].
  assert (X : apply_forces k s mm = apply_forces k s' mm) by (unfold apply_forces; rewrite E1, E2, E3, E4, E5; reflexivity).
  rewrite X. destruct (apply_forces k s' mm) as [r|]; [|reflexivity]. cbn [bind]. apply IH; auto.
Qed.

Lemma predict_loop_body k fr cs extra ss ss' : map body ss = map body ss' -> forall fuel pos vel,
  predict_loop fuel k fr cs ss extra pos vel = predict_loop fuel k fr cs ss' extra pos vel.
Proof.
  intros E. induction fuel as [|fuel IH]; intros pos vel; [reflexivity|]. cbn [predict_loop].
  assert (X : spring_step k fr cs ss pos vel [] = spring_step k fr cs ss' pos vel []).
  { unfold spring_step, calculate_forces. rewrite (apply_all_body k ss ss') by auto. reflexivity. }
  rewrite X. destruct (spring_step k fr cs ss' pos vel []) as [[[[p v] h] b]|]; [|reflexivity]. cbn [bind].
  destruct (extra p) as [p2 b2]. destruct (b || b2)%bool; auto.
Qed.

Lemma base_bodies (tile : vec R) next next' : map body (base_springs tile next) = map body (base_springs tile next').
Proof.
  unfold base_springs. generalize (base_spring_specs tile). intros l. revert next next'.
  induction l as [|[[a b] len] l IH]; intros; [reflexivity|]. cbn [number_springs map]. f_equal. apply IH.
Qed.

Lemma predict_next fuel (m : model R) extra id : predict fuel (set_next_id m id) extra = predict fuel m extra.
Proof.
  unfold predict. cbn [set_next_id mset mtracked mw mh mnext_id mpos mvel].
  rewrite (predict_loop_body _ _ _ _ _ (base_springs (tile_size (mw m) (mh m)) (mnext_id m))) by apply base_bodies. reflexivity.
Qed.

Lemma target_position_next fuel (m : model R) id :
  target_position fuel (set_next_id m id) =
  on_ok (fun r => (fst r, set_next_id m (if active m then id else id + base_spring_count)%Z)) (target_position fuel m).
Proof.
  unfold target_position. change (active (set_next_id m id)) with (active m). destruct (active m).
  - cbn [set_next_id mtargets]. destruct (nth_error (mtargets m) 0); reflexivity.
  - rewrite predict_next. change (constrainment (set_next_id m id)) with (constrainment m).
    destruct (predict fuel m (constrainment m)); reflexivity.
Qed.

(** The state after [MoveModelTo]. *)
Lemma move_to_shape fuel p (m m' : model R) :
  HInv m -> move_model_to fuel p m = Ok m' ->
  exists q id, target_position fuel m = Ok (q, set_next_id m id) /\ m' = sh_model (vsub p q) (set_next_id m id).
Proof.
  intros HH E. unfold move_model_to in E. inv_ok. destruct a as [q m1].
  match goal with X : target_position _ _ = Ok _ |- _ => pose proof X as Et; apply target_position_shape in X; destruct X as (id & -> & _) end.
  cbn [fst snd] in *. exists q, id. split; auto. rewrite move_by_sh in * by (eapply hinv_ext; eauto; reflexivity). inv_ok. auto.
Qed.

Lemma displaced_next d m id : displaced d m (sh_model d (set_next_id m id)).
Proof. apply (displaced_sh d (set_next_id m id)). Qed.

Lemma move_to_again fuel p p' (m m' : model R) u :
  HInv m -> step_op fuel m (OpMoveTo p) = Ok (m', u) ->
  (exists d, displaced d m m') /\
  exists m'', step_op fuel m' (OpMoveTo p') = Ok (m'', ONone) /\ displaced (vsub p' p) m' m''.
Proof.
  intros HH E. unfold step_op in E. cbn [needs_model] in E. destruct (true && negb (malive m))%bool eqn:G; [discriminate|]. inv_ok.
  match goal with X : move_model_to _ _ _ = Ok _ |- _ => apply move_to_shape in X; auto; destruct X as (q & id & Et & ->) end.
  split; [exists (vsub p q); apply displaced_next|].
  unfold step_op. cbn [needs_model]. change (malive (sh_model (vsub p q) (set_next_id m id))) with (malive m). rewrite G.
  unfold move_model_to. rewrite target_position_sh, target_position_next, Et. cbn [on_ok bind fst snd].
  set (id2 := if active m then id else _).
  assert (Q : sh (vsub p q) q = p) by (unfold sh; rewrite vadd_comm; apply vadd_sub). rewrite Q.
  rewrite move_by_sh.
  - cbn [bind]. exists (sh_model (vsub p' p) (sh_model (vsub p q) (set_next_id m id2))). split; [reflexivity|].
    exact (displaced_sh (vsub p' p) (sh_model (vsub p q) (set_next_id m id2))).
  - destruct HH as [A B C D F]. constructor; auto.
    intros b. change (mhandles (sh_model (vsub p q) (set_next_id m id2))) with (mhandles m). rewrite <- F.
    assert (X : heap_live (mheap (sh_model (vsub p q) (set_next_id m id2))) = heap_live (mheap m)).
    { unfold heap_live. cbn [sh_model set_heap mheap set_next_id]. rewrite map_map. apply map_ext. intros [[? ?]|]; reflexivity. }
    rewrite X. tauto.
Qed.

Lemma move_to_target fuel p (m m' : model R) u :
  HInv m -> step_op fuel m (OpMoveTo p) = Ok (m', u) -> exists m'', target_position fuel m' = Ok (p, m'').
Proof.
  intros HH E. unfold step_op in E. cbn [needs_model] in E. destruct (true && negb (malive m))%bool eqn:G; [discriminate|]. inv_ok.
  match goal with X : move_model_to _ _ _ = Ok _ |- _ => apply move_to_shape in X; auto; destruct X as (q & id & Et & ->) end.
  rewrite target_position_sh, target_position_next, Et. cbn [on_ok bind fst snd].
  assert (Q : sh (vsub p q) q = p) by (unfold sh; rewrite vadd_comm; apply vadd_sub). rewrite Q. eauto.
Qed.

(** ** The prediction agrees with the simulation *)

Lemma step_inactive t m :
  active m = false -> Inv m -> Forall mesh_only (msprings m) -> (0 < t <= 16)%Z ->
  exists h, let r := rstep (st_k (mset m)) (st_friction (mset m)) (t_counts (mtracked m)) (msprings m) (mheap m) (mpos m) (mvel m) in
    model_step t m = Ok (set_unequal (set_sim m (fst (fst r)) (snd (fst r)) h) (snd r), snd r).
Proof.
  intros A I F Ht. unfold model_step. 
  assert (S1 : step_count t = 1%nat).
  { unfold step_count. assert (X : (1 <= (t + 15) / 16 < 2)%Z).
    { split; [apply Z.div_le_lower_bound|apply Z.div_lt_upper_bound]; lia. }
    replace ((t + 15) / 16)%Z with 1%Z by lia. reflexivity. }
  rewrite S1. destruct (Z.eqb_spec t 0) as [->|_]; [lia|].
  destruct (integrate_once_R m I) as (h & E & _).
  { eapply Forall_impl; [|exact F]. intros; apply mesh_only_valid; auto. }
  assert (C : constrainment m (mpos m) = (mpos m, false)) by (unfold constrainment; rewrite A; auto).
  rewrite C in E. cbn [fst snd orb] in E. exists h. cbv zeta. cbn [integrate_n]. rewrite E. cbn [bind fst snd orb].
  rewrite andb_comm. cbn [set_unequal set_sim active mcount]. change (active (set_unequal _ _)) with (active m). rewrite A. reflexivity.
Qed.

Lemma lockstep fuel0 : forall fuel (m : model R) pos ss extra,
  active m = false -> Inv m -> malive m = true -> same_net (msprings m) ss -> Forall mesh_only ss ->
  (forall p, extra p = (p, false)) ->
  predict_loop fuel (st_k (mset m)) (st_friction (mset m)) (t_counts (mtracked m)) ss extra (mpos m) (mvel m) = Ok pos ->
  exists n m', run fuel0 m (repeat (OpStep 16) (S n)) = Ok (m', repeat (OMore true) n ++ [OMore false]) /\ mpos m' = pos.
Proof.
  induction fuel as [|fuel IH]; intros m pos ss extra A I Al SN F X E; [discriminate|].
  rewrite predict_loop_R in E; try apply I.
  2:{ eapply Forall_impl; [|exact F]. intros; apply mesh_only_valid; auto. }
  cbv zeta in E. rewrite X in E. cbn [fst snd] in E. rewrite orb_false_r in E.
  assert (F' : Forall mesh_only (msprings m)) by (eapply same_net_mesh; [apply same_net_sym; exact SN|auto]).
  destruct (step_inactive 16 m A I F') as (h & Es); [lia|]. cbv zeta in Es.
  rewrite (rstep_net _ _ _ _ _ _ _ _ SN), (rstep_mesh _ _ _ _ (mheap m) [] _ _ F) in Es.
  set (r := rstep _ _ _ _ _ _ _) in *.
  destruct (snd r) eqn:Er.
  - set (m1 := set_unequal (set_sim m (fst (fst r)) (snd (fst r)) h) true) in *.
    assert (I1 : Inv m1).
    { apply (inv_step_op fuel0 m (OpStep 16) m1 (OMore true)); auto. unfold step_op. cbn [needs_model]. rewrite Al.
      cbn [negb andb]. rewrite Es. reflexivity. }
    destruct (IH m1 pos ss extra) as (n & m' & Er' & Ep); auto.
    exists (S n), m'. split; [|exact Ep]. change (repeat (OpStep (T:=R) 16) (S (S n))) with (OpStep (T:=R) 16 :: repeat (OpStep 16) (S n)).
    cbn [run]. unfold step_op at 1. cbn [needs_model]. rewrite Al. cbn [negb andb]. rewrite Es. cbn [bind fst snd].
    change (run fuel0 m1 (repeat (OpStep 16) (S n))) with (run fuel0 m1 (repeat (OpStep 16) (S n))) in Er'.
    rewrite Er'. reflexivity.
  - inv_ok. exists 0%nat, (set_unequal (set_sim m (fst (fst r)) (snd (fst r)) h) false). split; [|reflexivity]. cbn [repeat run]. unfold step_op. cbn [needs_model]. rewrite Al. cbn [negb andb].
    rewrite Es. reflexivity.
Qed.

Lemma steps_unique fuel (m : model R) n n' m1 m2 :
  run fuel m (repeat (OpStep 16) (S n)) = Ok (m1, repeat (OMore true) n ++ [OMore false]) ->
  run fuel m (repeat (OpStep 16) (S n')) = Ok (m2, repeat (OMore true) n' ++ [OMore false]) -> n = n' /\ m1 = m2.
Proof.
  assert (G : forall n n' m1 m2, (n < n')%nat -> run fuel m (repeat (OpStep 16) (S n)) = Ok (m1, repeat (OMore true) n ++ [OMore false]) ->
    run fuel m (repeat (OpStep 16) (S n')) = Ok (m2, repeat (OMore true) n' ++ [OMore false]) -> False).
  { clear. intros n n' m1 m2 L E1 E2. replace (S n') with (S n + (n' - n))%nat in E2 by lia.
    rewrite repeat_app in E2. rewrite (run_app _ _ _ _ _ _ E1) in E2. inv_ok.
    assert (A1 : forall l, nth_error ((repeat (OMore true) n ++ [OMore false]) ++ l) n = Some (OMore false)).
    { intros l. rewrite <- app_assoc. rewrite nth_error_app2 by (rewrite repeat_length; lia).
      rewrite repeat_length, Nat.sub_diag. reflexivity. }
    assert (A2 : nth_error (repeat (OMore true) n' ++ [OMore false]) n = Some (OMore true)).
    { rewrite nth_error_app1 by (rewrite repeat_length; lia). apply nth_error_repeat. lia. }
    match goal with X : _ ++ _ = _ ++ [_] |- _ => rewrite <- X in A2; rewrite A1 in A2; discriminate A2
                  | X : _ ++ [_] = _ ++ _ |- _ => rewrite X in A2; rewrite A1 in A2; discriminate A2 end. }
  intros E1 E2. destruct (lt_eq_lt_dec n n') as [[L|L]|L].
  - exfalso; eauto.
  - subst. split; auto. rewrite E1 in E2. congruence.
  - exfalso; eauto.
Qed.

(** A history without a resize while an anchor is inserted, extended by a call
    that is not a resize. *)
Lemma calm_snoc (ops : list (op R)) o : calm_history ops -> is_resize o = false -> calm_history (ops ++ [o]).
Proof.
  intros C R0. unfold calm_history. apply each_call_app. split; auto. cbn [each_call]. split; auto.
  intros X. congruence.
Qed.

Lemma live_snoc_same (ops : list (op R)) o :
  (forall c, client_step c o = c) -> live_anchors (ops ++ [o]) = live_anchors ops.
Proof. intros X. unfold live_anchors, client_after. rewrite fold_left_app. cbn [fold_left]. rewrite X. reflexivity. Qed.

Lemma regular_reached p w h st ops (m : model R) :
  0 < w -> 0 < h -> reached p w h st ops m -> calm_history ops ->
  exists next, Net (base_ids next) m /\ regular next m.
Proof.
  intros W Hh (fuel & next & us & Er) Ca. exists next. split; [eapply net_run; [apply net_init|exact Er]|].
  exact (regular_run next fuel ops _ _ _ _ (net_init p w h st next) (agrees_init p w h st next) Ca (regular_init p w h st next W Hh) Er).
Qed.

Lemma no_inserted_of p w h st ops (m : model R) : reached p w h st ops m -> live_inserted ops = [] -> no_inserted m.
Proof. intros (fuel & next & us & Er) L. eapply no_inserted_reached; eauto. Qed.

Lemma inactive_of {T} `{Num T} (p : vec T) w h st ops (m : model T) :
  reached p w h st ops m -> length (live_anchors ops) <> 1%nat -> active m = false.
Proof.
  intros Hr L. destruct (active m) eqn:A; auto. exfalso. apply L. apply (reached_active _ _ _ _ _ _ Hr). auto.
Qed.

Lemma comes_to_rest p w h st ops (m m1 : model R) q u fuel :
  0 < w -> 0 < h -> reached p w h st ops m -> calm_history ops -> live_inserted ops = [] ->
  length (live_anchors ops) <> 1%nat ->
  step_op fuel m (OpMoveTo q) = Ok (m1, u) ->
  exists n m2,
    run fuel m1 (repeat (OpStep 16) (S n)) = Ok (m2, repeat (OMore true) n ++ [OMore false]) /\
    nth_error (mpos m2) 0 = Some q.
Proof.
  intros W Hh Hr Ca LI LA E.
  destruct (move_to_target fuel q m m1 u (hinv_reached _ _ _ _ _ _ Hr) E) as (m' & Et).
  pose proof (reached_fuel _ _ _ _ _ _ _ _ _ _ Hr E) as Hr1.
  assert (Ls : live_anchors (ops ++ [OpMoveTo q]) = live_anchors ops) by (apply live_snoc_same; reflexivity).
  assert (A : active m1 = false) by (eapply inactive_of; [exact Hr1|rewrite Ls; auto]).
  assert (X : no_inserted m1) by (eapply no_inserted_of; [exact Hr1|unfold live_inserted; rewrite Ls; exact LI]).
  destruct (regular_reached _ _ _ _ _ _ W Hh Hr1 (calm_snoc ops (OpMoveTo q) Ca eq_refl)) as (next & N & Rg).
  assert (Al : malive m1 = true).
  { unfold step_op in E. cbn [needs_model] in E. destruct (malive m) eqn:Al; [|discriminate]. cbn [negb andb] in E. inv_ok.
    match goal with X : move_model_to _ _ _ = Ok _ |- _ => apply move_to_shape in X; [|eapply hinv_reached; eauto];
      destruct X as (? & ? & _ & ->) end. exact Al. }
  unfold target_position in Et. rewrite A in Et. inv_ok. unfold predict in *. inv_ok.
  match goal with X : predict_loop _ _ _ _ _ _ _ _ = Ok _ |- _ => rename X into Ep end.
  assert (X1 : forall pp, constrainment m1 pp = (pp, false)) by (intros pp; unfold constrainment; rewrite A; reflexivity).
  destruct (lockstep fuel fuel m1 _ _ _ A (net_inv _ _ N) Al (regular_net next m1 N Rg X (mnext_id m1))
              (base_mesh_only _ _) X1 Ep) as (n & m2 & Er & Ep2).
  exists n, m2. split; [exact Er|]. rewrite Ep2. auto.
Qed.

Lemma comes_to_rest_all p w h st ops (m m1 m2 : model R) q u fuel n :
  0 < w -> 0 < h -> reached p w h st ops m -> calm_history ops -> live_inserted ops = [] ->
  length (live_anchors ops) <> 1%nat ->
  step_op fuel m (OpMoveTo q) = Ok (m1, u) ->
  run fuel m1 (repeat (OpStep 16) (S n)) = Ok (m2, repeat (OMore true) n ++ [OMore false]) ->
  nth_error (mpos m2) 0 = Some q.
Proof.
  intros W Hh Hr Ca LI LA E Er.
  destruct (comes_to_rest _ _ _ _ _ _ _ _ _ _ W Hh Hr Ca LI LA E) as (n' & m2' & Er' & E0).
  destruct (steps_unique _ _ _ _ _ _ Er Er') as (_ & ->). exact E0.
Qed.

(** ** Predictions that never end *)

Lemma rstep_held k fr cs ss heap pos vel i :
  (i < 16)%nat -> (0 < nth i cs 0)%Z -> nth i (fst (fst (rstep k fr cs ss heap pos vel))) vzero = nth i pos vzero.
Proof.
  intros Hi Hc. unfold rstep. cbv zeta. cbn [fst snd].
  set (f := fun j => _).
  rewrite (nth_indep _ vzero (f 0%nat)) by (rewrite map_length, seq_length; auto). rewrite map_nth, seq_nth by auto.
  cbn [plus]. unfold f, step_point. apply Z.ltb_lt in Hc. rewrite Hc. reflexivity.
Qed.

Lemma predict_hangs k fr cs ss extra s a b :
  length cs = 16%nat -> Forall (spring_valid []) ss -> (forall p, extra p = (p, false)) ->
  In s ss -> s_pa s = LMesh a -> s_pb s = LMesh b -> (a < 16)%nat -> (b < 16)%nat ->
  (0 < nth a cs 0)%Z -> (0 < nth b cs 0)%Z ->
  forall fuel pos vel, length pos = 16%nat -> length vel = 16%nat ->
  ~ slack (nth a pos vzero) (nth b pos vzero) (s_len s) ->
  predict_loop fuel k fr cs ss extra pos vel = Err NoFuel.
Proof.
  intros Lc V X Hs Ea Eb Ha Hb Ca Cb. induction fuel as [|fuel IH]; intros pos vel Lp Lv NS; [reflexivity|].
  rewrite predict_loop_R by auto. cbv zeta. rewrite X. cbn [fst snd]. rewrite orb_false_r.
  assert (St : snd (rstep k fr cs ss [] pos vel) = true).
  { unfold rstep. cbv zeta. cbn [snd]. apply orb_true_iff. left. apply existsb_exists. exists s. split; auto.
    unfold stretched_at. rewrite Ea, Eb. cbn [place_of]. destruct (stretched _ _ _) eqn:St; auto. exfalso. apply NS.
    apply stretched_slack. auto. }
  rewrite St. apply IH; try apply rstep_length. rewrite !rstep_held by auto. auto.
Qed.

Lemma base_spring_in (tile : vec R) next a b len :
  In (a, b, len) (base_spring_specs tile) ->
  exists s, In s (base_springs tile next) /\ s_pa s = LMesh a /\ s_pb s = LMesh b /\ s_len s = len.
Proof.
  unfold base_springs. generalize (base_spring_specs tile). intros l. revert next.
  induction l as [|[[x y] z] l IH]; intros next Hin; [destruct Hin|]. cbn [number_springs].
  destruct Hin as [E|Hin].
  - injection E as -> -> ->. eexists. split; [left; reflexivity|auto].
  - destruct (IH (next + 1)%Z Hin) as (s & Hs & E). exists s. split; [right; auto|auto].
Qed.

Lemma grabbed_two p w h st ops (m : model R) a b :
  reached p w h st ops m -> grabbed m a -> grabbed m b -> a <> b -> active m = false.
Proof.
  intros Hr (na & Ha) (nb & Hb) N. pose proof (inv_reached _ _ _ _ _ _ Hr) as I. unfold active.
  rewrite (inv_count _ I). apply Z.eqb_neq. intros E.
  destruct (mhandles m) as [|[i1 x1] [|y l]] eqn:Eh; simpl in *; try discriminate; try lia.
  destruct (Nat.eqb i1 na); [|discriminate]. destruct (Nat.eqb i1 nb); [|discriminate]. congruence.
Qed.

Lemma hang p w h st ops (m : model R) a b len pa pb :
  reached p w h st ops m -> (Z.of_nat (length ops) < two32)%Z -> malive m = true ->
  grabbed m a -> grabbed m b ->
  ((b = a + 1)%nat /\ (a mod 4 <> 3)%nat /\ len = mkV (mw m / 3) 0) \/ ((b = a + 4)%nat /\ len = mkV 0 (mh m / 3)) ->
  nth_error (mpos m) a = Some pa -> nth_error (mpos m) b = Some pb -> ~ slack pa pb len ->
  forall fuel,
    (forall q, step_op fuel m (OpMoveTo q) = Err NoFuel) /\
    (forall w' h', 0 < w' -> 0 < h' -> w' / mw m <> 1 \/ h' / mh m <> 1 -> step_op fuel m (OpResize w' h') = Err NoFuel).
Proof.
  intros Hr Bd Al Ga Gb Adj Ea Eb NS fuel. pose proof (inv_reached _ _ _ _ _ _ Hr) as I.
  assert (Ha : (a < 16)%nat) by (rewrite <- (inv_pos _ I); apply nth_error_Some; congruence).
  assert (Hb : (b < 16)%nat) by (rewrite <- (inv_pos _ I); apply nth_error_Some; congruence).
  assert (Act : active m = false) by (apply (grabbed_two _ _ _ _ _ _ a b Hr Ga Gb); destruct Adj as [[-> _]|[-> _]]; lia).
  assert (Hc : forall i, (i < 16)%nat -> grabbed m i -> (0 < nth i (t_counts (mtracked m)) 0)%Z).
  { intros i Hi G. destruct (counts_held m i I (reached_bound _ _ _ _ _ _ Hr Bd) Hi) as (c & Ec & Hc).
    rewrite (nth_error_nth _ _ _ Ec). apply Z.ltb_lt. apply Hc. auto. }
  assert (Hin : In (a, b, len) (base_spring_specs (tile_size (mw m) (mh m)))).
  { apply base_adjacent. unfold adjacent, tile_size. cbn [vx vy]. rnum.
    destruct Adj as [(-> & A & ->)|(-> & ->)]; [left|right]; repeat split; auto; lia. }
  assert (P : predict fuel m (constrainment m) = Err NoFuel).
  { unfold predict. destruct (base_spring_in _ (mnext_id m) _ _ _ Hin) as (s & Hs & Es1 & Es2 & Es3).
    rewrite (predict_hangs _ _ _ _ _ s a b); auto.
    - apply (inv_cnt _ I).
    - apply base_springs_valid.
    - intros pp. unfold constrainment. rewrite Act. reflexivity.
    - apply (inv_pos _ I).
    - apply (inv_vel _ I).
    - rewrite Es3, (nth_error_nth _ _ _ Ea), (nth_error_nth _ _ _ Eb). auto. }
  assert (Tp : target_position fuel m = Err NoFuel) by (unfold target_position; rewrite Act, P; reflexivity).
  split.
  - intros q. unfold step_op. cbn [needs_model]. rewrite Al. cbn [negb andb]. unfold move_model_to. rewrite Tp. reflexivity.
  - intros w' h' W' H' NE. unfold step_op. cbn [needs_model]. rewrite Al. cbn [negb andb]. unfold resize_model.
    assert (Y : (nltb nzero w' && nltb nzero h')%bool = true) by (rnum; rewrite (proj2 (Rltb_iff 0 w')), (proj2 (Rltb_iff 0 h')) by auto; auto).
    rewrite Y. cbn [negb]. cbv zeta. destruct (vequals _ _) eqn:Ev.
    + exfalso. apply vequals_R in Ev. rnum. injection Ev as E1 E2. lra.
    + rewrite Tp. reflexivity.
Qed.

(** ** Grabbing a point of a resting mesh *)

Lemma recalc_rest fuel (m : model R) :
  Inv m -> predicts m ->
  recalc_targets (S fuel) m =
  Ok (set_targets (set_next_id m (mnext_id m + base_spring_count)) (position_array (nth 0 (mpos m) vzero) (tile_of m))).
Proof. intros I (V & Q). unfold recalc_targets. rewrite predict_rest by auto. reflexivity. Qed.

Lemma grab_exact fuel (m : model R) i q :
  Inv m -> predicts m -> malive m = true -> nth_error (mpos m) i = Some q ->
  (forall j, nth_error (mpos m) j = Some q -> (i <= j)%nat) ->
  exists m',
    step_op (S fuel) m (OpGrab q) = Ok (m', OHandle (mnext_handle m)) /\
    mhandles m' = mhandles m ++ [(mnext_handle m, HGrab i)] /\ mnext_handle m' = S (mnext_handle m) /\
    mpos m' = mpos m /\ mvel m' = mvel m /\ mw m' = mw m /\ mh m' = mh m /\ msprings m' = msprings m /\
    mheap m' = mheap m /\ mset m' = mset m /\ mcount m' = (mcount m + 1)%Z /\ malive m' = true /\
    munequal m' = true /\
    mtargets m' = (if (mcount m =? 0)%Z then position_array (nth 0 (mpos m) vzero) (tile_of m) else mtargets m) /\
    Inv m' /\ predicts m'.
Proof.
  intros I P Al Hq Hmin.
  destruct (grab_ok fuel m q I P) as (m' & n & E); auto.
  { exists i, q. split; auto. rewrite euclid_same. apply Rmaxv_pos. }
  pose proof (grab_step _ _ _ _ _ E) as (P1 & V1 & W1 & H1 & S1 & Hp1 & St1 & C1 & -> & A1).
  exists m'. split; [exact E|].
  assert (I' : Inv m') by (eapply inv_step_op; eauto).
  assert (P' : predicts m') by (eapply predicts_same; eauto).
  unfold step_op in E. cbn [needs_model] in E. rewrite Al in E. cbn [negb andb] in E. unfold grab_anchor in E.
  destruct (closest_index (mpos m) q) as [j|] eqn:C; [|discriminate].
  assert (j = i) as ->.
  { apply closest_index_nearest in C. destruct C as (r & Hr & Hm). specialize (Hm i q Hq).
    rewrite euclid_same in Hm. pose proof (sqrt_pos ((vx q - vx r) ^ 2 + (vy q - vy r) ^ 2)) as Pp. fold (euclid q r) in Pp.
    destruct Hm as [?|[E0 L]]; [lra|]. rewrite <- euclid_vdist in E0. apply vdist_zero in E0. subst r.
    specialize (Hmin _ Hr). lia. }
  cbn [of_option bind] in E. inv_ok.
  match goal with X : activate _ _ = Ok ?x |- _ => unfold activate in X; rename x into m1; rename X into EA end.
  cbn [set_count mcount set_unequal] in EA.
  assert (Ic : Inv (set_unequal m true)) by (destruct I; constructor; auto).
  match goal with |- ?G => assert (EA' : m1 = set_targets (set_next_id (set_count (set_unequal m true) (mcount m + 1)) (mnext_id m1))
     (if (mcount m =? 0)%Z then position_array (nth 0 (mpos m) vzero) (tile_of m) else mtargets m)) end.
  { destruct (Z.eqb_spec (mcount m + 1) 1) as [E1|E1]; destruct (Z.eqb_spec (mcount m) 0) as [E2|E2]; try lia.
    - unfold recalc_targets in EA.
      assert (X : predict (S fuel) (set_count (set_unequal m true) (mcount m + 1)) (fun pos => (pos, false)) = Ok (nth 0 (mpos m) vzero)).
      { transitivity (predict (S fuel) m (fun pos => (pos, false))); [reflexivity|]. destruct P. apply predict_rest; auto. }
      cbn [set_count set_unequal mcount mw mh] in *. rewrite X in EA. cbn [bind] in EA. inv_ok. reflexivity.
    - inv_ok. reflexivity. }
  match goal with |- context [Inv ?x] => set (mm := x) in * end.
  assert (J : Inv mm /\ predicts mm) by auto.
  assert (mhandles mm = mhandles m ++ [(mnext_handle m, HGrab i)]) by (unfold mm; rewrite EA'; reflexivity).
  assert (mnext_handle mm = S (mnext_handle m)) by (unfold mm; rewrite EA'; reflexivity).
  assert (munequal mm = true) by (unfold mm; rewrite EA'; reflexivity).
  assert (mtargets mm = (if (mcount m =? 0)%Z then position_array (nth 0 (mpos m) vzero) (tile_of m) else mtargets m))
    by (unfold mm; rewrite EA'; reflexivity).
  assert (malive mm = true) by congruence.
  clearbody mm. auto 20.
Qed.

(** The history that makes [MoveModelTo] hang: grab two neighbours, pull. *)
Definition pull_apart : list (op R) := [OpGrab (mkV 0 0); OpGrab (mkV 30 0); OpMoveAnchor 1 (mkV 100 0)].

Lemma grid_9060 : position_array (T:=R) (mkV 0 0) (tile_size 90 60) =
  [mkV 0 0; mkV 30 0; mkV 60 0; mkV 90 0; mkV 0 20; mkV 30 20; mkV 60 20; mkV 90 20;
   mkV 0 40; mkV 30 40; mkV 60 40; mkV 90 40; mkV 0 60; mkV 30 60; mkV 60 60; mkV 90 60].
Proof.
  unfold position_array, tile_size, mesh_n, mesh_w.
  cbn [map seq vx vy Nat.div Nat.modulo Nat.divmod Nat.sub fst snd Z.of_nat Pos.of_succ_nat Pos.succ].
  repeat (apply f_equal2; [veq; lra|]). reflexivity.
Qed.

Lemma pull_apart_hangs st :
  exists m : model R, reached (mkV 0 0) 90 60 st pull_apart m /\
    grabbed m 0 /\ grabbed m 1 /\ nth_error (mpos m) 0 = Some (mkV 0 0) /\ nth_error (mpos m) 1 = Some (mkV 130 0) /\
    malive m = true /\ mw m = 90 /\ mh m = 60.
Proof.
  set (m0 := model_init (mkV 0 0) 90 60 st 0). assert (G0 : mpos m0 = position_array (mkV 0 0) (tile_size 90 60)) by reflexivity.
  rewrite grid_9060 in G0.
  destruct (grab_exact 0 m0 0 (mkV 0 0)) as (m1 & E1 & Hd1 & N1 & P1 & V1 & W1 & H1 & S1 & Hp1 & St1 & C1 & A1 & _ & _ & I1 & Pr1).
  { apply inv_init. } { apply predicts_fresh. } { reflexivity. } { rewrite G0. reflexivity. } { intros; lia. }
  destruct (grab_exact 0 m1 1 (mkV 30 0)) as (m2 & E2 & Hd2 & N2 & P2 & V2 & W2 & H2 & S2 & Hp2 & St2 & C2 & A2 & _ & _ & I2 & Pr2); auto.
  { rewrite P1, G0. reflexivity. }
  { intros [|j] Hj; [|lia]. rewrite P1, G0 in Hj. cbn [nth_error] in Hj. injection Hj as X. lra. }
  change (mhandles m0) with (@nil (nat * handle R)) in Hd1. change (mnext_handle m0) with 0%nat in *. cbn [app] in Hd1.
  rewrite Hd1, N1 in Hd2. cbn [app] in Hd2. change (mcount m0) with 0%Z in C1.
  exists (set_pos m2 (list_set 1 (mkV 130 0) (mpos m2))).
  split; [|split; [|split; [|split; [|split; [|split; [|split]]]]]].
  - exists 1%nat, 0%Z, [OHandle 0; OHandle 1; ONone]. fold m0. unfold pull_apart. cbn [run]. rewrite E1. cbn [bind fst snd].
    rewrite E2. cbn [bind fst snd]. cbn [step_op needs_model andb]. unfold move_anchor. rewrite Hd2. cbn [lookup_handle Nat.eqb].
    rewrite A2. unfold active. rewrite C2, C1. cbn [Z.add Pos.add Pos.succ Z.eqb Pos.eqb].
    rewrite P2, P1, G0. cbn [nth_error of_option bind fst snd]. rewrite N1. do 4 f_equal. unfold vadd. cbn [vx vy]. rnum.
    all: try (f_equal; lra); lra.
  - exists 0%nat. cbn [set_pos mhandles]. rewrite Hd2. reflexivity.
  - exists 1%nat. cbn [set_pos mhandles]. rewrite Hd2. reflexivity.
  - cbn [set_pos mpos]. rewrite P2, P1, G0. reflexivity.
  - cbn [set_pos mpos]. rewrite P2, P1, G0. reflexivity.
  - cbn [set_pos malive]. auto.
  - cbn [set_pos mw]. rewrite W2, W1. reflexivity.
  - cbn [set_pos mh]. rewrite H2, H1. reflexivity.
Qed.

Lemma pull_apart_stuck :
  exists m : model R, reached (mkV 0 0) 90 60 (mkSettings 8 3 500) pull_apart m /\ careful_history pull_apart /\
    forall fuel q, step_op fuel m (OpMoveTo q) = Err NoFuel.
Proof.
  destruct (pull_apart_hangs (mkSettings 8 3 500)) as (m & Hr & G0 & G1 & P0 & P1 & Al & W & Hh).
  exists m. split; [auto|]. split; [unfold careful_history, pull_apart; cbn; auto 10|]. intros fuel q.
  refine (proj1 (hang _ _ _ _ _ m 0 1 (mkV (mw m / 3) 0) _ _ Hr _ Al G0 G1 _ P0 P1 _ fuel) q).
  - reflexivity.
  - left. cbn. repeat split; auto.
  - rewrite W. intros [X _]. unfold extension in X. cbn [vx vy] in X. rewrite Rabs_right in X; lra.
Qed.

(** ** A case for the whole-model movements *)

Lemma nudge_move q :
  exists m m1 : model R,
    reached (mkV 0 0) 90 60 (mkSettings 8 3 500) nudge m /\ malive m = true /\
    nth_error (mpos m) 0 = Some (mkV (1 / 2) 0) /\ nth_error (mpos m) 1 = Some (mkV 30 0) /\
    step_op 1 m (OpMoveTo q) = Ok (m1, ONone).
Proof.
  destruct (nudge_reached (mkSettings 8 3 500) 0) as (m & E & P & V & Sp & Hp & St & G & C & A & W & Hh).
  assert (Hr : reached (mkV 0 0) 90 60 (mkSettings 8 3 500) nudge m) by (exists 1%nat, 0%Z; eauto).
  exists m. rewrite P, grid_9060. cbn [list_set nth_error].
  assert (X : predict 1 m (fun pos => (pos, false)) = Ok (nth 0 (mpos m) vzero)).
  { apply predict_rest; [apply inv_reached in Hr; auto|exact V|]. unfold tile_of. rewrite P, W, Hh. apply nudge_quiet. }
  unfold step_op. cbn [needs_model]. rewrite A. cbn [negb andb]. unfold move_model_to, target_position.
  unfold active. rewrite C. cbn [Z.eqb Pos.eqb]. assert (Ec : constrainment m = fun pos => (pos, false)) by (unfold constrainment, active; rewrite C; reflexivity). rewrite Ec, X. cbn [bind fst snd].
  match goal with |- context [move_model_by ?d ?x] => rewrite (move_by_sh d x) end.
  2:{ pose proof (hinv_reached _ _ _ _ _ _ Hr) as [X1 X2 X3]. constructor; auto. }
  eexists. cbn [bind]. auto.
Qed.

Lemma mesh_size p w h st ops (m : model R) : reached p w h st ops m -> length (mpos m) = 16%nat.
Proof. intros Hr. apply inv_pos. eapply inv_reached; eauto. Qed.

Lemma move_to_same fuel q (m m' : model R) u :
  HInv m -> step_op fuel m (OpMoveTo q) = Ok (m', u) ->
  exists m'', step_op fuel m' (OpMoveTo q) = Ok (m'', ONone) /\ same_geometry m' m''.
Proof.
  intros HH E. destruct (proj2 (move_to_again fuel q q m m' u HH E)) as (m'' & E2 & (D1 & D2 & D3 & D4 & D5 & D6 & D7 & D8 & D9 & D10 & _)).
  assert (Z : forall l : list (vec R), map (fun x => vadd x (vsub q q)) l = l).
  { intros l. rewrite <- (map_id l) at 2. apply map_ext. intros x. veq; lra. }
  exists m''. split; auto. unfold same_geometry. rewrite !Z in *. repeat split; auto.
  intros n. rewrite D3. destruct (anchor_point m' n) as [x|]; [|reflexivity]. cbn [option_map]. f_equal. veq; lra.
Qed.
