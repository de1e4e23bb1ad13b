(** Fresh models, repeated steps of settled models, and anchors taken on fresh
    models, over the real numbers. *)

From Coq Require Import ZArith Reals Bool List Lia Lra Permutation.
From Verif Require Import Num Geometry Outcome Wobbly Spec LemBasic LemReal LemInv LemSprings LemHistory LemNetwork LemLifo LemAnchors LemMoves LemForce LemRest LemSettle LemSafe.
Import ListNotations.
Local Open Scope R_scope.
Local Arguments vdist : simpl never.

Lemma steps_settled fuel : forall ts m,
  Inv m -> settled m -> munequal m = false -> home m -> malive m = true ->
  exists m', run fuel m (map OpStep ts) = Ok (m', map (fun _ => OMore false) ts) /\ same_geometry m m'.
Proof.
  induction ts as [|t ts IH]; intros m I S U Hm Al.
  - exists m. split; auto. repeat split.
  - cbn [map run]. unfold step_op. cbn [needs_model]. rewrite Al. cbn [negb andb].
    destruct (settled_step t m I S U Hm) as (h & -> & Hh). cbn [bind fst snd].
    destruct (IH (set_sim m (mpos m) (mvel m) h)) as (m' & -> & G); auto.
    + apply inv_sim; auto; apply I.
    + apply settled_sim; auto.
    + exists m'. split; auto. destruct G as (? & ? & ? & Ga & ? & ? & ? & ?). repeat split; auto.
      intros n. rewrite Ga. unfold anchor_point. cbn [set_sim mhandles mpos mheap].
      destruct (lookup_handle (mhandles m) n) as [[i|st a b blk aid]|]; auto.
      apply (ins_point_pos h (mheap m) blk). auto.
Qed.

Lemma fresh_settled p w h st next : settled (model_init p w h st next).
Proof.
  unfold settled. split; [reflexivity|]. split; [|split].
  - apply grid_quiet.
  - reflexivity.
  - apply base_springs_valid.
Qed.

Lemma fresh_steps fuel p w h st next ts :
  exists m', run fuel (model_init p w h st next) (map OpStep ts) = Ok (m', map (fun _ => OMore false) ts) /\
    same_geometry (model_init p w h st next) m'.
Proof.
  apply steps_settled; auto.
  - apply inv_init.
  - apply fresh_settled.
  - intros X. discriminate X.
Qed.

Lemma live_not_inserted p w h st ops (m : model R) :
  reached p w h st ops m -> active m = true -> (forall n, live_anchors ops <> [(n, KInsert)]) -> no_inserted m.
Proof.
  intros Rc A X n hd Hin. pose proof (reached_live _ _ _ _ _ _ Rc) as L.
  pose proof (inv_count _ (inv_reached _ _ _ _ _ _ Rc)) as C. unfold active in A. apply Z.eqb_eq in A.
  destruct (mhandles m) as [|[n' h'] [|]]; simpl in C; try lia. destruct Hin as [E|[]]. injection E as -> ->.
  destruct hd; auto. exfalso. apply (X n). rewrite L. reflexivity.
Qed.

Lemma settle_reached p w h st ops m t m' :
  0 < w -> 0 < h -> reached p w h st ops m -> calm_history ops ->
  (forall n, live_anchors ops <> [(n, KInsert)]) -> (0 < t)%Z -> malive m = true ->
  model_step t m = Ok (m', false) ->
  settled m' /\ Inv m' /\ munequal m' = false /\ home m' /\ malive m' = true.
Proof.
  intros W Hh Rc Ca NI Ht Al E. pose proof (inv_reached _ _ _ _ _ _ Rc) as I.
  assert (E' : step_op 0 m (OpStep t) = Ok (m', OMore false)).
  { unfold step_op. cbn [needs_model]. rewrite Al. cbn [negb andb]. rewrite E. reflexivity. }
  assert (I' : Inv m') by (eapply inv_step_op; eauto).
  pose proof (settle m m' t I Ht E) as (U & V & P).
  assert (Sh : exists pp vv hh, m' = set_unequal (set_sim m pp vv hh) false).
  { apply model_step_shape in E. destruct E as (pp & vv & hh & -> & _). eauto. }
  assert (Al' : malive m' = true) by (destruct Sh as (? & ? & ? & ->); auto).
  assert (Ac : active m' = active m) by (destruct Sh as (? & ? & ? & ->); auto).
  destruct (active m) eqn:A.
  - split; [|split; [auto|split; [auto|split; [intros _; auto|auto]]]].
    pose proof (live_not_inserted _ _ _ _ _ _ Rc A NI) as X.
    destruct Rc as (fuel & next & us & Er).
    pose proof (net_run _ _ _ _ _ _ (net_init p w h st next) Er) as N.
    pose proof (regular_run next fuel ops _ _ _ _ (net_init p w h st next) (agrees_init p w h st next) Ca
                  (regular_init p w h st next W Hh) Er) as Rg.
    assert (Rg' : regular next m').
    { eapply regular_step; [exact N|exact Rg| |exact E']. discriminate. }
    assert (G' : grid_targets m').
    { eapply grid_targets_step; [|exact E']. apply (grid_targets_reached p w h st ops); auto. exists fuel, next, us; auto. }
    apply (home_settled next); auto.
    + eapply net_step; eauto.
    + destruct Sh as (? & ? & ? & ->). exact X.
    + pose proof (settle_range _ _ _ I Ht E A). destruct Sh as (? & ? & ? & ->). auto.
  - destruct P as [P S]. split; auto. split; auto. split; auto. split; auto. intros X. congruence.
Qed.

(** What settling means: no velocity, every spring within one unit of its rest
    vector on each axis. *)
Lemma settled_slack m s :
  Inv m -> settled m -> In s (msprings m) ->
  exists pa pb, place m (s_pa s) = Some pa /\ place m (s_pb s) = Some pb /\ slack pa pb (s_len s).
Proof.
  intros I (_ & Q & _ & F) Hin. eapply Forall_forall in F; eauto. destruct F as (_ & _ & A & B).
  exists (place_of (mpos m) (mheap m) (s_pa s)), (place_of (mpos m) (mheap m) (s_pb s)).
  split; [apply place_valid; auto|]. split; [apply place_valid; auto|].
  rewrite quiet_forall in Q. eapply Forall_forall in Q; eauto.
Qed.

Lemma still_zero v : In v still -> v = vzero.
Proof. unfold still. apply repeat_spec. Qed.

(** ** Anchors on resting meshes *)

Definition predicts (m : model R) : Prop :=
  mvel m = still /\ quiet (place_of (mpos m) []) (base_springs (tile_of m) (mnext_id m)).

Lemma quiet_base_next pos h tile n n' :
  quiet (place_of pos h) (base_springs tile n) -> quiet (place_of pos h) (base_springs tile n').
Proof. unfold quiet. rewrite (same_net_stretched _ _ _ (base_net tile n n')). auto. Qed.

Lemma activate_ok fuel m : Inv m -> predicts m -> exists m', activate (S fuel) m = Ok m'.
Proof.
  intros I (V & Q). unfold activate. cbv zeta. destruct (_ =? 1)%Z; [|eauto].
  unfold recalc_targets. unfold predict. rewrite predict_loop_R.
  - change (mvel (set_count m (mcount m + 1))) with (mvel m). rewrite V.
    rewrite rstep_rest.
    + cbn [fst snd orb bind]. change (mpos (set_count m (mcount m + 1))) with (mpos m).
      rewrite (nth_error_nth' _ vzero) by (rewrite (inv_pos _ I); lia). cbn [of_option bind]. eauto.
    + apply (inv_pos _ I).
    + exact Q.
  - apply (inv_cnt _ I).
  - apply (inv_pos _ I).
  - apply (inv_vel _ I).
  - apply base_springs_valid.
Qed.

Lemma grab_ok fuel m p :
  Inv m -> predicts m -> (exists i q, nth_error (mpos m) i = Some q /\ euclid p q < Rmaxv) -> malive m = true ->
  exists m' n, step_op (S fuel) m (OpGrab p) = Ok (m', OHandle n).
Proof.
  intros I P (i & q & Hq & Hd) Al. unfold step_op. cbn [needs_model]. rewrite Al. cbn [negb andb].
  unfold grab_anchor. destruct (closest_index (mpos m) p) as [j|] eqn:Ej.
  2:{ pose proof (closest_index_none _ _ Ej _ _ Hq). lra. }
  cbn [of_option bind].
  destruct (activate_ok fuel (set_unequal m true)) as (m1 & E1).
  { destruct I; constructor; auto. } { exact P. }
  rewrite E1. cbn [bind]. apply activate_shape in E1. destruct E1 as (tg & id & -> & _ & _).
  unfold tracked_lock. simpl.
  apply closest_from_range in Ej. destruct Ej as [Ej|Ej]; [discriminate|]. rewrite (inv_pos _ I) in Ej.
  destruct (nth_error_ex (t_counts (mtracked m)) j) as (c & Hc). { rewrite (inv_cnt _ I). lia. }
  rewrite Hc. simpl. eauto.
Qed.

Lemma grab_step m p m' n fuel :
  step_op fuel m (OpGrab p) = Ok (m', OHandle n) ->
  mpos m' = mpos m /\ mvel m' = mvel m /\ mw m' = mw m /\ mh m' = mh m /\ msprings m' = msprings m /\
  mheap m' = mheap m /\ mset m' = mset m /\ mcount m' = (mcount m + 1)%Z /\ n = mnext_handle m /\ malive m' = malive m.
Proof.
  unfold step_op. destruct (needs_model _ && _)%bool; [discriminate|]. intros E. inv_ok.
  destruct a as [m1 k]. unfold grab_anchor in Ha. inv_ok.
  match goal with X : activate _ _ = Ok _ |- _ => apply activate_shape in X; destruct X as (tg & id & -> & _ & _) end.
  simpl. repeat split.
Qed.

Lemma predicts_fresh p w h st next : predicts (model_init p w h st next).
Proof. split; [reflexivity|]. apply grid_quiet. Qed.

Lemma predicts_same m m' :
  predicts m -> mpos m' = mpos m -> mvel m' = mvel m -> mw m' = mw m -> mh m' = mh m -> predicts m'.
Proof.
  intros [V Q] E1 E2 E3 E4. split; [congruence|]. unfold tile_of. rewrite E1, E3, E4.
  eapply quiet_base_next; exact Q.
Qed.

Lemma Rmaxv_pos : 0 < Rmaxv.
Proof. unfold Rmaxv. apply IZR_lt. reflexivity. Qed.

Lemma euclid_same p : euclid p p = 0.
Proof. rewrite <- euclid_vdist. apply vdist_same. Qed.

(** Grabbing the top-left corner of a fresh model returns. *)
Lemma fresh_grab fuel p w h st next :
  exists m, step_op (S fuel) (model_init p w h st next) (OpGrab p) = Ok (m, OHandle 0).
Proof.
  destruct (grab_ok fuel (model_init p w h st next) p) as (m' & n & E); auto.
  - apply inv_init.
  - apply predicts_fresh.
  - exists 0%nat, p. split; [apply grid_nth0|]. rewrite euclid_same. apply Rmaxv_pos.
  - exists m'. pose proof (grab_step _ _ _ _ _ E) as X. destruct X as (_ & _ & _ & _ & _ & _ & _ & _ & -> & _). exact E.
Qed.

Lemma fresh_grab_twice fuel p w h st next :
  exists m us, run (S fuel) (model_init p w h st next) [OpGrab p; OpGrab p] = Ok (m, us).
Proof.
  destruct (fresh_grab fuel p w h st next) as (m1 & E1).
  pose proof (grab_step _ _ _ _ _ E1) as (P & V & W & Hh & _ & _ & _ & _ & _ & Al).
  destruct (grab_ok fuel m1 p) as (m2 & n2 & E2).
  - eapply inv_step_op; [|exact E1]. apply inv_init.
  - eapply predicts_same; [apply (predicts_fresh p w h st next)|auto..].
  - exists 0%nat, p. rewrite P. split; [apply grid_nth0|]. rewrite euclid_same. apply Rmaxv_pos.
  - rewrite Al. reflexivity.
  - exists m2, [OHandle 0; OHandle n2]. cbn [run]. rewrite E1. cbn [bind fst snd]. rewrite E2. reflexivity.
Qed.

(** Inserting an anchor on a resting mesh returns. *)
Lemma insert_returns base fuel m p :
  Net base m -> base <> [] -> RInv m -> predicts m -> malive m = true -> in_range m (OpInsert p) ->
  exists m' n, step_op (S fuel) m (OpInsert p) = Ok (m', OHandle n).
Proof.
  intros N NB Rv P Al IR. unfold step_op. cbn [needs_model]. rewrite Al. cbn [negb andb].
  destruct (insert_anchor (S fuel) p m) as [[m' n]|e] eqn:E.
  - exists m', n. reflexivity.
  - exfalso. pose proof (insert_ok _ _ _ _ _ N NB Rv IR E). subst e. unfold insert_anchor in E.
    destruct (activate_ok fuel (set_unequal m true)) as (m1 & E1).
    { destruct (net_inv _ _ N); constructor; auto. } { exact P. }
    rewrite E1 in E. cbn [bind] in E.
    apply bind_err in E. destruct E as [E|(q & _ & E)]; [|discriminate]. eapply install_ok; eauto.
Qed.
