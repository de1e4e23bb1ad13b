(** Calls that cannot fail, over the real numbers. *)

From Coq Require Import ZArith Reals Bool List Lia Lra Permutation.
From Verif Require Import Num Geometry Outcome Wobbly Spec LemBasic LemReal LemInv LemSprings LemHistory LemNetwork LemLifo LemAnchors LemMoves LemForce LemRest LemSettle.
Import ListNotations.
Local Open Scope R_scope.
Local Arguments vdist : simpl never.

Lemma springs_nonempty {T} `{Num T} base (m : model T) : SInv base m -> base <> [] -> msprings m <> [].
Proof.
  intros S NE E. pose proof (Permutation_length (si_perm _ _ S)) as L. rewrite E in L. unfold ids in L.
  rewrite map_length, !app_length in L. simpl in L.
  assert (X : (length (live_ids (mhandles m)) = 2 * length (stolens (mhandles m)))%nat).
  { clear. induction (mhandles m) as [|[n h] l IH]; auto. cbn [live_ids stolens flat_map].
    fold (live_ids l) (stolens l). rewrite !app_length, IH. destruct h; simpl; lia. }
  destruct base; [congruence|]. simpl in L. lia.
Qed.

Lemma base_ids_nonempty next : base_ids next <> [].
Proof. discriminate. Qed.

Lemma index_of_position_found (pts : list (vec R)) p : In p pts -> forall i, index_of_position pts p i <> None.
Proof.
  induction pts as [|q pts IH]; intros Hin i; [destruct Hin|]. cbn [index_of_position].
  destruct (vequals p q) eqn:E; [discriminate|]. apply IH. destruct Hin as [->|]; auto.
  exfalso. assert (X : vequals p p = true) by (apply vequals_R; auto). congruence.
Qed.

Lemma place_rd (m : model R) l p : rd_pos (mem_of m) l = Ok p <-> place m l = Some p.
Proof.
  destruct l as [i|b]; simpl.
  - apply of_option_ok.
  - unfold rd_blk. unfold block in *. destruct (@nth_error (option (vec R * vec R)) (mheap m) b) as [[[q f]|]|]; simpl;
      split; intros E; inversion E; auto.
Qed.

Lemma place_valid (m : model R) l : Inv m -> loc_valid (mheap m) l -> place m l = Some (place_of (mpos m) (mheap m) l).
Proof.
  intros I V. destruct l as [i|b]; simpl in *.
  - rewrite (nth_error_nth' _ vzero); auto. rewrite (inv_pos _ I). auto.
  - unfold heap_live in V. rewrite nth_error_map in V. unfold block in *.
    destruct (@nth_error (option (vec R * vec R)) (mheap m) b) as [[pf|]|] eqn:E; simpl in V; try discriminate.
    apply nth_error_nth with (d := None) in E. rewrite E. destruct pf; auto.
Qed.

Lemma rinv_valid {T} `{Num T} (m : model T) : HInv m -> RInv m -> Forall (spring_valid (mheap m)) (msprings m).
Proof.
  intros HH Rv. apply Forall_forall. intros s Hs. apply valid_of_refs; auto.
  eapply Forall_forall in Rv; [exact Rv|]. apply in_or_app; auto.
Qed.

Lemma install_ok base fuel (m m1 : model R) p e :
  Net base m -> base <> [] -> RInv m -> in_range m (OpInsert p) ->
  activate fuel (set_unequal m true) = Ok m1 -> install_anchor p m1 <> Err e.
Proof.
  intros N NB Rv IR E1 E. pose proof (net_inv _ _ N) as I. pose proof (net_h _ _ N) as HH.
  assert (Hc : active m1 = true -> mhandles m = []).
  { apply activate_shape in E1. destruct E1 as (tg & id & -> & _). unfold active. simpl. intros X. apply Z.eqb_eq in X.
    pose proof (inv_count _ I). destruct (mhandles m); auto. simpl in *. lia. }
  apply activate_shape in E1. destruct E1 as (tg & id & -> & _ & Ltg). simpl in Ltg.
  set (m1 := set_targets _ tg) in *.
  pose proof (rinv_valid m HH Rv) as F.
  assert (P1 : forall l, place m1 l = place m l) by reflexivity.
  unfold install_anchor in E. apply bind_err in E. destruct E as [E|(idx & Hidx & E)].
  { apply (find_spring_found (mem_of m1) p (msprings m1) e) in E; auto.
    - intros s Hs. eapply Forall_forall in F; [|exact Hs]. destruct F as (_ & _ & V3 & V4).
      pose proof (place_valid _ _ I V3) as A. pose proof (place_valid _ _ I V4) as B.
      eexists. split; [eexists _, _; split; [apply place_rd; exact A|split; [apply place_rd; exact B|reflexivity]]|].
      cbn [fst snd]. split; rewrite vdist_comm, euclid_vdist; eapply IR; eauto.
    - exact (springs_nonempty base m (net_s _ _ N) NB). }
  apply bind_err in E. destruct E as [E|(found & Hf & E)].
  { apply of_option_err in E. destruct E as [E _]. apply nth_error_None in E.
    apply find_spring_range in Hidx. simpl in *. lia. }
  apply of_option_ok in Hf.
  assert (Hin : In found (msprings m)) by (eapply nth_error_In; eauto).
  assert (Vf : spring_valid (mheap m) found) by (eapply Forall_forall; [exact F|]; auto).
  assert (Rf : refs_ok (mhandles m) found).
  { eapply Forall_forall in Rv; [exact Rv|]. apply in_or_app; auto. }
  assert (VA : forall l, loc_valid (mheap m) l -> loc_valid (mheap m ++ [Some (p, vzero)]) l).
  { intros [i|b]; simpl; auto. intros X. rewrite heap_live_app. rewrite nth_error_app1; auto.
    apply nth_error_Some. rewrite X. discriminate. }
  destruct Vf as (V1 & V2 & V3 & V4). destruct Rf as (R1 & R2 & R3 & R4).
  set (m2 := set_heap m1 (mheap m1 ++ [Some (p, vzero)])) in *.
  assert (X : forall l, loc_valid (mheap m) l -> loc_ok (mhandles m) (s_id found) l ->
             exists x y, rd_pos (mem_of m2) l = Ok x /\ desired_position m2 x = Ok y).
  { intros l Vl Rl. destruct (rd_pos_valid (mem_of m2) l) as (x & Ex); [apply (inv_pos _ I)|apply VA; auto|].
    exists x. unfold desired_position. change (active m2) with (active m1). destruct (active m1) eqn:Ac.
    - specialize (Hc eq_refl). destruct l as [i|b].
      + simpl in Ex. apply of_option_ok in Ex.
        destruct (index_of_position (mpos m2) x 0) as [j|] eqn:Ej.
        2:{ exfalso. eapply index_of_position_found; [|exact Ej]. eapply nth_error_In; exact Ex. }
        apply index_of_position_range in Ej. simpl in Ej. rewrite (inv_pos _ I) in Ej.
        destruct (nth_error_ex tg j) as (y & Hy). { rewrite Ltg; [lia|]. apply (inv_tgt _ I). }
        exists y. split. { simpl. rewrite Ex. auto. } cbn [of_option bind]. simpl. rewrite Hy. auto.
      + exfalso. simpl in Rl. rewrite Hc in Rl. destruct Rl as (? & ? & ? & ? & ? & X & _). destruct X.
    - exists x. auto. }
  destruct (X _ V3 R3) as (pa & da & Epa & Eda). destruct (X _ V4 R4) as (pb & db & Epb & Edb).
  rewrite Epa, Epb in E. cbn [bind] in E. rewrite Eda, Edb in E. discriminate.
Qed.

Lemma insert_ok base fuel (m : model R) p e :
  Net base m -> base <> [] -> RInv m -> in_range m (OpInsert p) ->
  insert_anchor fuel p m = Err e -> e = NoFuel.
Proof.
  intros N NB Rv IR E. pose proof (net_inv _ _ N) as I.
  unfold insert_anchor in E. apply bind_err in E. destruct E as [E|(m1 & E1 & E)].
  { eapply activate_err; [exact I| |exact E]. reflexivity. }
  exfalso. apply bind_err in E. destruct E as [E|(q & _ & E)]; [|discriminate].
  eapply install_ok; eauto.
Qed.

Lemma safe_step base fuel m o e c :
  Net base m -> base <> [] -> RInv m -> agrees c m -> (c_destroyed c = true -> c_live c = []) -> careful c o ->
  in_range m o -> step_op fuel m o = Err e -> e = NoFuel.
Proof.
  intros N NB Rv A CD C IR E. pose proof E as E0. eapply step_op_err in E0; eauto.
  destruct E0 as [E0|E0]; auto. destruct o; try tauto.
  - destruct E0 as [_ E0]. destruct IR as (i & q & Hq & Hd). pose proof (closest_index_none _ _ E0 _ _ Hq). lra.
  - unfold step_op in E. destruct (needs_model (OpInsert p) && negb (malive m))%bool.
    { destruct E0; congruence. }
    apply bind_err in E. destruct E as [E|(q & _ & E)]; [|discriminate]. eapply insert_ok; eauto.
  - destruct E0 as [_ E0]. destruct IR as [P1 P2]. rnum. apply Rltb_iff in P1. apply Rltb_iff in P2.
    rewrite P1, P2 in E0. discriminate.
Qed.

Lemma rinv_reached {T} `{Num T} (p : vec T) w h st ops m :
  reached p w h st ops m -> lifo_history ops -> RInv m.
Proof.
  intros (fuel & next & us & E) L. eapply lifo_run; [apply net_init|apply rinv_init|apply agrees_init|exact L|exact E].
Qed.
Lemma net_reached {T} `{Num T} (p : vec T) w h st ops m :
  reached p w h st ops m -> exists next, Net (base_ids next) m.
Proof.
  intros (fuel & next & us & E). exists next. eapply net_run; [apply net_init|exact E].
Qed.

Lemma each_call_app {T} (P : client -> op T -> Prop) l1 : forall l2 c,
  each_call P c (l1 ++ l2) <-> each_call P c l1 /\ each_call P (fold_left client_step l1 c) l2.
Proof.
  induction l1; intros l2 c; simpl; [tauto|]. rewrite IHl1. tauto.
Qed.

Lemma careful_alive {T} (ops : list (op T)) : forall c,
  (c_destroyed c = true -> c_live c = []) -> each_call careful c ops ->
  let c' := fold_left client_step ops c in c_destroyed c' = true -> c_live c' = [].
Proof.
  induction ops; intros c X C; simpl in *; auto. destruct C as [C1 C2]. apply IHops; auto.
  apply careful_destroyed; auto.
Qed.

Lemma safe_reached p w h st ops m o fuel e :
  reached p w h st ops m -> careful_history (ops ++ [o]) -> lifo_history ops -> in_range m o ->
  step_op fuel m o = Err e -> e = NoFuel.
Proof.
  intros Rc C L IR E. unfold careful_history in C. rewrite each_call_app in C. destruct C as [C1 [C2 _]].
  destruct (net_reached _ _ _ _ _ _ Rc) as (next & N).
  eapply safe_step; [exact N|apply base_ids_nonempty|eapply rinv_reached; eauto|eapply agrees_reached; eauto| |exact C2|exact IR|exact E].
  apply (careful_alive ops client_start); auto.
Qed.

(** ** More fuel never changes an answer *)

Lemma predict_loop_fuel {T} `{Num T} k fr cs ss extra : forall fuel pos vel,
  predict_loop (T:=T) fuel k fr cs ss extra pos vel <> Err NoFuel ->
  forall fuel', (fuel <= fuel')%nat ->
  predict_loop fuel' k fr cs ss extra pos vel = predict_loop fuel k fr cs ss extra pos vel.
Proof.
  induction fuel; intros pos vel X fuel' L; [exfalso; apply X; reflexivity|].
  destruct fuel'; [lia|]. cbn [predict_loop] in *.
  destruct (spring_step k fr cs ss pos vel []) as [[[[p1 v1] h1] b1]|]; auto. cbn [bind] in *.
  destruct (extra p1) as [p2 b2]. destruct (b1 || b2)%bool; auto. apply IHfuel; auto. lia.
Qed.

Section Fuel.
Context {T : Type} `{Num T}.
Implicit Types m : model T.
Context (fuel fuel' : nat) (Hle : (fuel <= fuel')%nat).

Lemma predict_fuel m extra : predict fuel m extra <> Err NoFuel -> predict fuel' m extra = predict fuel m extra.
Proof.
  unfold predict. intros X. rewrite (predict_loop_fuel _ _ _ _ _ fuel _ _) with (fuel' := fuel'); auto.
  intros E. rewrite E in X. apply X. reflexivity.
Qed.
Lemma recalc_fuel m : recalc_targets fuel m <> Err NoFuel -> recalc_targets fuel' m = recalc_targets fuel m.
Proof.
  unfold recalc_targets. intros X. rewrite predict_fuel; auto. intros E. rewrite E in X. apply X. reflexivity.
Qed.
Lemma activate_fuel m : activate fuel m <> Err NoFuel -> activate fuel' m = activate fuel m.
Proof. unfold activate. cbv zeta. destruct (_ =? 1)%Z; auto. apply recalc_fuel. Qed.
Lemma deactivate_fuel m : deactivate fuel m <> Err NoFuel -> deactivate fuel' m = deactivate fuel m.
Proof. unfold deactivate. cbv zeta. destruct (_ =? 1)%Z; auto. apply recalc_fuel. Qed.
Lemma target_position_fuel m : target_position fuel m <> Err NoFuel -> target_position fuel' m = target_position fuel m.
Proof.
  unfold target_position. destruct (active m); auto. intros X. rewrite predict_fuel; auto.
  intros E. rewrite E in X. apply X. reflexivity.
Qed.

Lemma step_op_fuel m o : step_op fuel m o <> Err NoFuel -> step_op fuel' m o = step_op fuel m o.
Proof.
  unfold step_op. destruct (needs_model o && negb (malive m))%bool; auto.
  destruct o; auto; intros X.
  - assert (Y : grab_anchor fuel' p m = grab_anchor fuel p m); [|rewrite Y; auto].
    unfold grab_anchor in *. destruct (closest_index (mpos m) p); auto. cbn [of_option bind] in *.
    rewrite activate_fuel; auto. intros E. rewrite E in X. apply X. reflexivity.
  - assert (Y : insert_anchor fuel' p m = insert_anchor fuel p m); [|rewrite Y; auto].
    unfold insert_anchor in *. rewrite activate_fuel; auto. intros E. rewrite E in X. apply X. reflexivity.
  - assert (Y : release_anchor fuel' n m = release_anchor fuel n m); [|rewrite Y; auto].
    unfold release_anchor in *. destruct (lookup_handle _ _); auto. destruct (malive m); auto.
    destruct (release_strategy _ _); auto. cbn [bind] in *. apply deactivate_fuel.
    intros E. rewrite E in X. apply X. reflexivity.
  - assert (Y : move_model_to fuel' p m = move_model_to fuel p m); [|rewrite Y; auto].
    unfold move_model_to in *. rewrite target_position_fuel; auto. intros E. rewrite E in X. apply X. reflexivity.
  - assert (Y : resize_model fuel' w h m = resize_model fuel w h m); [|rewrite Y; auto].
    unfold resize_model in *. destruct (negb _); auto. cbv zeta in *. destruct (vequals _ _); auto.
    rewrite target_position_fuel; auto. intros E. rewrite E in X. apply X. reflexivity.
Qed.

Lemma run_fuel ops : forall m, run fuel m ops <> Err NoFuel -> run fuel' m ops = run fuel m ops.
Proof.
  induction ops as [|o ops IH]; intros m X; simpl in *; auto.
  rewrite step_op_fuel.
  - destruct (step_op fuel m o) as [r|]; auto. cbn [bind] in *. rewrite IH; auto.
    intros E. rewrite E in X. apply X. reflexivity.
  - intros E. rewrite E in X. apply X. reflexivity.
Qed.
End Fuel.

Lemma reached_fuel {T} `{Num T} (p : vec T) w h st ops m o m' u fuel :
  reached p w h st ops m -> step_op fuel m o = Ok (m', u) -> reached p w h st (ops ++ [o]) m'.
Proof.
  intros (f1 & next & us & E) E2. exists (Nat.max f1 fuel), next.
  assert (X : run (Nat.max f1 fuel) (model_init p w h st next) ops = Ok (m, us)).
  { rewrite <- E. apply (run_fuel f1); [lia|]. congruence. }
  assert (Y : step_op (Nat.max f1 fuel) m o = Ok (m', u)).
  { rewrite <- E2. apply (step_op_fuel fuel); [lia|]. congruence. }
  eexists. rewrite (run_app _ _ _ _ _ _ X). simpl. rewrite Y. reflexivity.
Qed.
