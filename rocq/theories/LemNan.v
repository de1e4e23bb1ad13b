(** A mesh of NaN points stays one, and a zero maximum range makes one. *)

From Coq Require Import ZArith Reals Bool List Lia Lra.
From Flocq Require Import Core IEEE754.BinarySingleNaN.
From Verif Require Import Num Geometry Outcome Wobbly Spec SpecMotion LemBasic LemInv LemHistory LemAnchors LemMoves LemNetwork LemSafe.
Import ListNotations.
Local Open Scope Z_scope.

Notation nanv := (mkV nan64 nan64).

Lemma add_nan_l x : nadd nan64 x = nan64. Proof. destruct x; reflexivity. Qed.
Lemma add_nan_r x : nadd x nan64 = nan64. Proof. destruct x; reflexivity. Qed.
Lemma sub_nan_l x : nsub nan64 x = nan64. Proof. destruct x; reflexivity. Qed.
Lemma sub_nan_r x : nsub x nan64 = nan64. Proof. destruct x; reflexivity. Qed.
Lemma mul_nan_l x : nmul nan64 x = nan64. Proof. destruct x; reflexivity. Qed.
Lemma mul_nan_r x : nmul x nan64 = nan64. Proof. destruct x; reflexivity. Qed.
Lemma div_nan_r x : ndiv x nan64 = nan64. Proof. destruct x; reflexivity. Qed.
Lemma lt_nan_l x : nltb nan64 x = false. Proof. destruct x; reflexivity. Qed.
Lemma eq_nan_l x : neqb nan64 x = false. Proof. destruct x; reflexivity. Qed.
Lemma sqrt_nan : nsqrt nan64 = nan64. Proof. reflexivity. Qed.

Lemma dist_nan_l p : vdist nanv p = nan64.
Proof. unfold vdist. cbn [vx vy]. rewrite !sub_nan_l, !mul_nan_l, add_nan_r. exact sqrt_nan. Qed.
Lemma dist_nan_r p : vdist p nanv = nan64.
Proof. unfold vdist. cbn [vx vy]. rewrite !sub_nan_r, !mul_nan_l, add_nan_r. exact sqrt_nan. Qed.
Lemma vadd_nan d : vadd nanv d = nanv.
Proof. unfold vadd. cbn [vx vy]. rewrite !add_nan_l. reflexivity. Qed.

Lemma constrain_nan r t : constrain_point r t nanv = (nanv, true).
Proof.
  unfold constrain_point. rewrite dist_nan_r, lt_nan_l. cbn [vx vy]. rewrite !sub_nan_r, !div_nan_r, !mul_nan_r.
  unfold vsub. cbn [vx vy]. rewrite !sub_nan_r. reflexivity.
Qed.

Lemma rescale_nan o f : rescale o f nanv = nanv.
Proof. unfold rescale, vpscale, vsub, vadd. cbn [vx vy]. rewrite !sub_nan_l, !mul_nan_l, !add_nan_l. reflexivity. Qed.

Definition all_nan (l : list (vec f64)) : Prop := Forall (fun p => p = nanv) l.

Lemma constrain_all_nan r : forall ts ps, all_nan ps -> all_nan (fst (constrain_points r ts ps)) /\
  (ts <> [] -> ps <> [] -> snd (constrain_points r ts ps) = true).
Proof.
  induction ts as [|t ts IH]; intros [|p ps] A; cbn [constrain_points fst snd]; try (split; [exact A|congruence]).
  inversion A; subst. rewrite constrain_nan. destruct (IH ps) as [X _]; auto. destruct (constrain_points r ts ps). cbn [fst snd] in *.
  split; [constructor; auto|auto].
Qed.

Lemma euler_nan fr v f : fst (fst (euler fr nanv v f)) = nanv.
Proof. unfold euler. cbn [fst]. apply vadd_nan. Qed.

Lemma integrate_points_nan fr : forall cs ps vs fs, all_nan ps -> all_nan (fst (fst (integrate_points fr cs ps vs fs))).
Proof.
  induction cs as [|c cs IH]; intros [|p ps] [|v vs] [|f fs] A; try exact A.
  cbn [integrate_points]. inversion A; subst. specialize (IH ps vs fs). destruct (integrate_points fr cs ps vs fs) as [[ps1 vs1] more].
  cbn [fst snd] in *. destruct (0 <? c); cbn [fst]; [constructor; auto; apply IH; auto|].
  pose proof (euler_nan fr v f) as E. destruct (euler fr nanv v f) as [[p1 v1] b1]. cbn [fst] in *. constructor; auto. apply IH; auto.
Qed.

Lemma spring_step_nan k fr cs ss ps vs hp p v h b :
  all_nan ps -> spring_step k fr cs ss ps vs hp = Ok (p, v, h, b) -> all_nan p.
Proof.
  intros A E. unfold spring_step in E. inv_ok. destruct a as [mm fe].
  pose proof (integrate_points_nan fr cs ps vs (m_force mm) A) as X.
  destruct (integrate_points fr cs ps vs (m_force mm)) as [[p3 v3] mv]. inv_ok. exact X.
Qed.

(** Springs between mesh points. *)
Definition meshy (s : spring f64) : Prop := exists i j, s_pa s = LMesh i /\ s_pb s = LMesh j.

Record blank (m : model f64) : Prop := {
  bl_inv : Inv m;
  bl_pos : all_nan (mpos m);
  bl_one : (length (mhandles m) <= 1)%nat;
  bl_flag : active m = true -> munequal m = true;
  bl_grab : forall n h, In (n, h) (mhandles m) -> exists i, h = HGrab i;
  bl_spr : Forall meshy (msprings m) }.

Lemma integrate_once_nan m m' b :
  Inv m -> all_nan (mpos m) -> integrate_once m = Ok (m', b) -> all_nan (mpos m') /\ (active m = true -> b = true).
Proof.
  intros I A E. unfold integrate_once in E.
  assert (X : all_nan (fst (constrainment m (mpos m))) /\ (active m = true -> snd (constrainment m (mpos m)) = true)).
  { unfold constrainment. destruct (active m); [|split; [exact A|discriminate]].
    destruct (constrain_all_nan (st_range (mset m)) (mtargets m) (mpos m) A) as [X Y]. split; auto.
    intros _. apply Y; intros Z0; [pose proof (inv_tgt _ I) as L|pose proof (inv_pos _ I) as L]; rewrite Z0 in L; discriminate. }
  destruct (constrainment m (mpos m)) as [pos1 more1]. cbn [fst snd] in X. inv_ok. destruct a as [[[p v] h] b2]. inv_ok.
  cbn [set_sim mpos]. destruct X as [X1 X2]. split.
  - eapply spring_step_nan; [exact X1|eassumption].
  - intros Hact. rewrite (X2 Hact). reflexivity.
Qed.

Lemma integrate_n_nan k : forall m m' b b', Inv m -> all_nan (mpos m) -> integrate_n k m b = Ok (m', b') ->
  all_nan (mpos m') /\ (active m = true -> k <> O -> b' = true) /\ (b = true -> b' = true).
Proof.
  induction k; intros m m' b b' I A E; cbn [integrate_n] in E; inv_ok; [split; [auto|split; [congruence|auto]]|].
  destruct a as [m1 b1]. cbn [fst snd] in *.
  match goal with X : integrate_once m = Ok _ |- _ => rename X into E1 end.
  pose proof (integrate_once_nan _ _ _ I A E1) as [X Y].
  pose proof (integrate_once_shape _ _ _ E1) as (p & v & h & Em & L1 & L2 & _).
  assert (I1 : Inv m1) by (subst m1; destruct I; constructor; cbn [set_sim mpos mvel]; auto; congruence).
  destruct (IHk _ _ _ _ I1 X E) as (P & Q & S0). split; auto. split.
  - intros Hact _. apply S0. rewrite (Y Hact). apply orb_true_r.
  - intros ->. apply S0. reflexivity.
Qed.

Lemma map_nan f l : f nanv = nanv -> all_nan l -> all_nan (map f l).
Proof. intros F A. apply Forall_map. eapply Forall_impl; [|exact A]. cbn. intros p ->. exact F. Qed.

Lemma list_set_nan l : forall i p, all_nan l -> p = nanv -> all_nan (list_set i p l).
Proof. induction l; intros [|i] p A E; cbn [list_set]; auto; inversion A; subst; constructor; auto. apply IHl; auto. Qed.

Lemma closest_nan q l : forall i best d, all_nan l -> closest_from l q i best d = best.
Proof. induction l as [|p l IH]; intros i best d A; cbn [closest_from]; auto. inversion A; subst. rewrite dist_nan_r, lt_nan_l. auto. Qed.

Lemma rd_pos_nan mm i p : all_nan (m_pos mm) -> rd_pos mm (LMesh i) = Ok p -> p = nanv.
Proof.
  intros A E. cbn [rd_pos] in E. destruct (nth_error (m_pos mm) i) as [q|] eqn:X; cbn [of_option] in E; [|discriminate].
  injection E as <-. apply nth_error_In in X. unfold all_nan in A. rewrite Forall_forall in A. auto.
Qed.

Lemma find_nan mm q ss : forall idx acc acc', all_nan (m_pos mm) -> Forall meshy ss ->
  find_from mm q idx ss acc = Ok acc' -> acc' = acc.
Proof.
  induction ss as [|s ss IH]; intros idx acc acc' A F E; cbn [find_from] in E; inv_ok; auto.
  inversion F; subst. match goal with X : meshy s |- _ => destruct X as (i & j & S1 & S2) end.
  match goal with X : find_one _ _ _ _ _ = Ok _ |- _ => rename X into E1 end.
  unfold find_one in E1. destruct acc as [[fd pr] sc]. rewrite S1 in E1. inv_ok.
  match goal with X : rd_pos _ _ = Ok _ |- _ => apply rd_pos_nan in X; auto; subst end.
  rewrite dist_nan_l, lt_nan_l, eq_nan_l in E1. injection E1 as <-. eapply IH; eauto.
Qed.

Lemma remove_le {A} (f : A -> bool) l : (length (filter f l) <= length l)%nat.
Proof. induction l; cbn; [lia|]. destruct (f a); cbn; lia. Qed.

Lemma recalc_shape fuel (m m' : model f64) : recalc_targets fuel m = Ok m' -> exists t z, m' = set_targets (set_next_id m z) t.
Proof. unfold recalc_targets. intros E. inv_ok. eauto. Qed.

Lemma activate_keeps fuel (m m' : model f64) : activate fuel m = Ok m' -> mpos m' = mpos m /\ msprings m' = msprings m.
Proof.
  unfold activate. intros E. destruct (mcount _ =? 1); inv_ok; [apply recalc_shape in E; destruct E as (t & z & ->)|]; auto.
Qed.

Lemma blank_step fuel m o m' u :
  blank m -> (match o with OpStep t => 0 <= t | _ => True end) -> step_op fuel m o = Ok (m', u) -> blank m'.
Proof.
  intros [I P O F G S] W E. pose proof (inv_step_op _ _ _ _ _ I E) as I'.
  unfold step_op in E. destruct (needs_model o && negb (malive m)); [discriminate|].
  destruct o; inv_ok.
  - destruct a as [m1 k]. unfold grab_anchor, closest_index in *. rewrite closest_nan in * by auto. discriminate.
  - destruct a as [m1 k]. unfold insert_anchor in *. inv_ok.
    match goal with X : activate _ _ = Ok ?a |- _ => apply activate_keeps in X; destruct X as [X1 X2] end.
    unfold install_anchor, find_spring in *. inv_ok.
    match goal with X : find_from _ _ _ _ _ = Ok _ |- _ => apply find_nan in X end.
    + subst. discriminate.
    + unfold mem_of. cbn [m_pos]. rewrite X1. exact P.
    + rewrite X2. exact S.
  - unfold move_anchor in *. destruct (lookup_handle (mhandles m) n) as [hd|] eqn:L; [|discriminate]. destruct (malive m); [|discriminate].
    apply lookup_handle_in in L. destruct (G _ _ L) as (i & ->). inv_ok.
    match goal with X : nth_error (mpos _) i = Some ?p |- _ =>
      assert (p = nanv) by (apply nth_error_In in X; unfold all_nan in P; rewrite Forall_forall in P; apply P; destruct (active m); exact X) end.
    subst. destruct (active m) eqn:A.
    + constructor; auto. cbn [set_pos set_targets mpos]. apply list_set_nan; auto using vadd_nan.
    + constructor; auto; [|intros Hx; change (active m = true) in Hx; congruence]. cbn [set_pos set_targets mpos]. apply list_set_nan; auto using vadd_nan.
  - unfold release_anchor in *. destruct (lookup_handle (mhandles m) n) as [hd|] eqn:L; [|inv_ok; constructor; auto].
    destruct (malive m); [|discriminate]. apply lookup_handle_in in L. destruct (G _ _ L) as (i & ->). cbn [release_strategy] in *. inv_ok.
    assert (C1 : mcount m = 1).
    { rewrite (inv_count _ I). destruct (mhandles m) as [|x [|]]; cbn [length] in *; try lia. destruct L. }
    unfold deactivate in *. cbn [set_tracked set_handles set_count mcount] in *. rewrite C1 in *. cbn in *. inv_ok.
    constructor; auto; cbn [set_tracked set_handles set_count mhandles].
    + unfold remove_handle. pose proof (remove_le (fun ih => negb (Nat.eqb (fst ih) n)) (mhandles m)). lia.
    + discriminate.
    + intros k h Hin. unfold remove_handle in Hin. apply filter_In in Hin. eapply G. apply Hin.
  - destruct a as [m1 b1]. cbn [fst snd] in *.
    match goal with X : model_step _ _ = Ok _ |- _ => rename X into E end. unfold model_step in E. inv_ok. destruct a as [m2 b2]. inv_ok.
    match goal with X : integrate_n _ _ _ = Ok _ |- _ => pose proof (integrate_n_nan _ _ _ _ _ I P X) as (A1 & A2 & _); apply integrate_n_shape in X; destruct X as (p & v & h & -> & _) end.
    cbn [set_sim mpos] in A1.
    assert (Q : active m = true -> (if time =? 0 then munequal m else false) || b2 = true).
    { intros Hact. destruct (Z.eqb_spec time 0) as [->|N0]; [rewrite (F Hact); reflexivity|]. cbn [orb]. apply A2; auto.
      unfold step_count. assert (0 < (time + 15) / 16) by (apply Z.div_str_pos; lia). lia. }
    set (mo := (if time =? 0 then munequal m else false) || b2) in *.
    change (active (set_unequal (set_sim m p v h) mo)) with (active m) in *.
    destruct (active m) eqn:Hact.
    + rewrite (Q eq_refl) in *. cbn [negb andb] in *. constructor; auto.
    + rewrite andb_false_r in *. constructor; auto. change (active (set_unequal (set_sim m p v h) mo)) with (active m). congruence.
  - match goal with X : move_model_by _ _ = Ok _ |- _ => apply move_model_by_shape in X; destruct X as (hh & -> & _) end.
    constructor; auto. cbn [set_heap set_pos set_targets mpos]. apply map_nan; auto using vadd_nan.
  - unfold move_model_to in *. inv_ok. destruct a as [q m1].
    match goal with X : target_position _ _ = Ok _ |- _ => apply target_position_shape in X; destruct X as (id & -> & _) end.
    cbn [fst snd] in *. match goal with X : move_model_by _ _ = Ok _ |- _ => apply move_model_by_shape in X; destruct X as (hh & -> & _) end.
    constructor; auto. cbn [set_heap set_pos set_targets set_next_id mpos]. apply map_nan; auto using vadd_nan.
  - unfold resize_model in *. destruct (negb _); [discriminate|]. cbv zeta in *.
    destruct (vequals _ _); inv_ok; [constructor; auto|]. destruct a as [q m1]. 
    match goal with X : target_position _ _ = Ok _ |- _ => apply target_position_shape in X; destruct X as (id & -> & _) end. inv_ok.
    constructor; auto; cbn [set_size set_heap set_springs set_targets set_pos set_next_id mpos msprings].
    + apply map_nan; auto using rescale_nan.
    + apply Forall_map. eapply Forall_impl; [|exact S]. intros s (i & j & S1 & S2). exists i, j. auto.
  - constructor; auto.
  - constructor; auto.
Qed.

Lemma blank_run fuel ops : forall m m' us, blank m -> proper_times ops -> run fuel m ops = Ok (m', us) -> blank m'.
Proof.
  induction ops as [|o ops IH]; intros m m' us B W E; cbn [run] in E; inv_ok; auto.
  inversion W; subst. destruct a as [m1 u1]. destruct a0 as [m2 us2]. cbn [fst snd] in *. eapply IH; [|eassumption|eassumption].
  eapply blank_step; eauto.
Qed.

(** ** A zero maximum range *)

Lemma sub_zero (x y : f64) : is_finite x = true -> is_finite y = true -> neqb x y = true -> exists s, nsub x y = B754_zero s.
Proof.
  intros Fx Fy E. cbn [neqb Num_f64 Num_IEEE] in E. unfold Beqb in E.
  assert (E' : B2R x = B2R y).
  { pose proof (Beqb_correct _ _ x y Fx Fy) as C. cbn in C. unfold Beqb in *. rewrite E in C. destruct (Req_bool_spec (B2R x) (B2R y)); auto; discriminate. }
  pose proof (Bminus_correct 53 1024 Hprec64 Hemax64 mode_NE x y Fx Fy) as C.
  rewrite E', Rminus_diag_eq in C by reflexivity. rewrite round_0 in C by apply valid_rnd_round_mode.
  rewrite Rabs_R0, Rlt_bool_true in C by apply bpow_gt_0. destruct C as (C1 & C2 & _).
  change (nsub x y) with (Bminus mode_NE x y). destruct (Bminus mode_NE x y) as [s| | |s m e h]; try discriminate; [eauto|].
  exfalso. cbn [B2R] in C1. apply eq_0_F2R in C1. destruct s; discriminate.
Qed.

Definition zero64 : f64 := B754_zero false.

Lemma mul_zeros s s' : exists x, nmul (B754_zero s : f64) (B754_zero s') = B754_zero x.
Proof. exists (xorb s s'). reflexivity. Qed.
Lemma add_zeros s s' : exists x, nadd (B754_zero s : f64) (B754_zero s') = B754_zero x.
Proof. destruct s, s'; eexists; reflexivity. Qed.
Lemma sqrt_zero s : nsqrt (B754_zero s : f64) = B754_zero s.
Proof. reflexivity. Qed.
Lemma lt_zeros s s' : nltb (B754_zero s : f64) (B754_zero s') = false.
Proof. destruct s, s'; reflexivity. Qed.
Lemma div_zeros s s' : ndiv (B754_zero s : f64) (B754_zero s') = nan64.
Proof. destruct s, s'; reflexivity. Qed.
Lemma zero_form : @nzero f64 _ = B754_zero false.
Proof. reflexivity. Qed.

Lemma constrain_zero t p : at_home t p = true -> constrain_point zero64 t p = (nanv, true).
Proof.
  unfold at_home, vequals. rewrite !andb_true_iff. intros ((((X1 & X2) & X3) & X4) & ((_ & X5) & X6)).
  destruct (sub_zero _ _ X1 X3 X6) as (sx & Ex). destruct (sub_zero _ _ X2 X4 X5) as (sy & Ey).
  assert (D : exists s, vdist t p = B754_zero s).
  { unfold vdist. rewrite Ex, Ey, zero_form. destruct (mul_zeros sy sy) as (a & ->). destruct (mul_zeros sx sx) as (b & ->).
    destruct (add_zeros false a) as (c & ->). destruct (add_zeros c b) as (d & ->). exists d. apply sqrt_zero. }
  destruct D as (s & D). unfold constrain_point. rewrite D. unfold zero64. rewrite lt_zeros, Ex, Ey, !div_zeros.
  unfold vsub. cbn [vx vy]. rewrite !mul_nan_r, !sub_nan_r. reflexivity.
Qed.

Lemma constrain_all_zero : forall ts ps, length ps = length ts ->
  forallb (fun tp => at_home (fst tp) (snd tp)) (combine ts ps) = true ->
  all_nan (fst (constrain_points zero64 ts ps)) /\ (ts <> [] -> snd (constrain_points zero64 ts ps) = true).
Proof.
  induction ts as [|t ts IH]; intros [|p ps] L F; try discriminate; [split; [constructor|congruence]|].
  cbn [combine forallb fst snd] in F. apply andb_true_iff in F. destruct F as [F1 F2]. cbn [constrain_points].
  rewrite constrain_zero by auto. destruct (IH ps) as [X _]; [cbn in L; lia|auto|]. destruct (constrain_points zero64 ts ps). cbn [fst snd] in *.
  split; [constructor; auto|auto].
Qed.

Lemma meshy_step fuel (m : model f64) o m' u :
  Forall meshy (msprings m) -> (forall n h, In (n, h) (mhandles m) -> exists i, h = HGrab i) ->
  (match o with OpInsert _ => False | _ => True end) -> step_op fuel m o = Ok (m', u) ->
  Forall meshy (msprings m') /\ (forall n h, In (n, h) (mhandles m') -> exists i, h = HGrab i).
Proof.
  intros S G W E. unfold step_op in E. destruct (needs_model o && negb (malive m)); [discriminate|].
  destruct o; try contradiction; inv_ok.
  - destruct a as [m1 k]. unfold grab_anchor in *. inv_ok.
    match goal with X : activate _ _ = Ok _ |- _ => apply activate_shape in X; destruct X as (tg & id & -> & _) end.
    split; [exact S|]. cbn [fst add_handle set_handles mhandles]. intros n h Hin. apply in_app_or in Hin. destruct Hin as [Hin|[Hin|[]]]; [eapply G; exact Hin|].
    injection Hin as <- <-. eauto.
  - unfold move_anchor in *. destruct (lookup_handle (mhandles m) n) as [hd|] eqn:L; [|discriminate]. destruct (malive m); [|discriminate].
    apply lookup_handle_in in L. destruct (G _ _ L) as (i & ->). inv_ok. destruct (active m); split; auto.
  - unfold release_anchor in *. destruct (lookup_handle (mhandles m) n) as [hd|] eqn:L; [|inv_ok; split; auto].
    destruct (malive m); [|discriminate]. apply lookup_handle_in in L. destruct (G _ _ L) as (i & ->). cbn [release_strategy] in *. inv_ok.
    match goal with X : deactivate _ _ = Ok _ |- _ => unfold deactivate in X; destruct (mcount _ =? 1); inv_ok end.
    + match goal with X : recalc_targets _ _ = Ok _ |- _ => apply recalc_shape in X; destruct X as (tg & z & ->) end.
      split; [exact S|]. cbn. intros k h Hin. unfold remove_handle in Hin. apply filter_In in Hin. eapply G. apply Hin.
    + split; [exact S|]. cbn. intros k h Hin. unfold remove_handle in Hin. apply filter_In in Hin. eapply G. apply Hin.
  - destruct a as [m1 b1]. cbn [fst snd] in *. 
    match goal with X : model_step _ _ = Ok _ |- _ => unfold model_step in X end. inv_ok. destruct a as [m2 b2]. inv_ok.
    match goal with X : integrate_n _ _ _ = Ok _ |- _ => apply integrate_n_shape in X; destruct X as (p & v & h & -> & _) end.
    destruct (negb _ && active _); split; auto.
  - match goal with X : move_model_by _ _ = Ok _ |- _ => apply move_model_by_shape in X; destruct X as (hh & -> & _) end. split; auto.
  - unfold move_model_to in *. inv_ok. destruct a as [q m1].
    match goal with X : target_position _ _ = Ok _ |- _ => apply target_position_shape in X; destruct X as (id & -> & _) end.
    cbn [fst snd] in *. match goal with X : move_model_by _ _ = Ok _ |- _ => apply move_model_by_shape in X; destruct X as (hh & -> & _) end. split; auto.
  - unfold resize_model in *. destruct (negb _); [discriminate|]. cbv zeta in *.
    destruct (vequals _ _); inv_ok; [split; auto|]. destruct a as [q m1]. 
    match goal with X : target_position _ _ = Ok _ |- _ => apply target_position_shape in X; destruct X as (id & -> & _) end. inv_ok.
    split; [|exact G]. cbn [set_size set_heap set_springs set_targets set_pos set_next_id mpos msprings].
    apply Forall_map. eapply Forall_impl; [|exact S]. intros s (i & j & S1 & S2). exists i, j. auto.
  - split; auto.
  - split; auto.
Qed.

Lemma meshy_run fuel ops : forall (m m' : model f64) us,
  Forall meshy (msprings m) -> (forall n h, In (n, h) (mhandles m) -> exists i, h = HGrab i) ->
  no_insert ops -> run fuel m ops = Ok (m', us) ->
  Forall meshy (msprings m') /\ (forall n h, In (n, h) (mhandles m') -> exists i, h = HGrab i).
Proof.
  induction ops as [|o ops IH]; intros m m' us S G W E; cbn [run] in E; inv_ok; auto.
  inversion W; subst. destruct a as [m1 u1]. destruct a0 as [m2 us2]. cbn [fst snd] in *.
  match goal with X : step_op _ m o = Ok _ |- _ => eapply meshy_step in X; eauto; destruct X as [S1 G1] end. eapply IH; eauto.
Qed.

Lemma number_meshy l : forall next, Forall meshy (number_springs (T:=f64) l next).
Proof. induction l as [|[[a b] len] l IH]; intros next; cbn [number_springs]; constructor; auto. exists a, b. auto. Qed.

Lemma zero_range p w h st ops (m m1 : model f64) n t u fuel :
  reached p w h st ops m -> no_insert ops -> live_anchors ops = [(n, KGrab)] ->
  st_range (mset m) = zero64 -> all_home m = true -> 0 < t ->
  step_op fuel m (OpStep t) = Ok (m1, u) ->
  u = OMore true /\ nan_mesh m1 /\
  forall fuel' more m2 us, proper_times more -> run fuel' m1 more = Ok (m2, us) -> nan_mesh m2.
Proof.
  intros Hr W L Rz Hh Ht E. pose proof (inv_reached _ _ _ _ _ _ Hr) as I.
  assert (A : active m = true) by (apply (reached_active _ _ _ _ _ _ Hr); rewrite L; reflexivity).
  assert (B : Forall meshy (msprings m) /\ (forall n h, In (n, h) (mhandles m) -> exists i, h = HGrab i)).
  { destruct Hr as (fl & nx & us & Er). eapply meshy_run; [| |exact W|exact Er]; [apply number_meshy|intros k hd []]. }
  destruct B as [Ms Mh].
  unfold all_home in Hh. apply andb_true_iff in Hh. destruct Hh as [Hl Hh]. apply Nat.eqb_eq in Hl.
  assert (Hn : (length (mhandles m) <= 1)%nat).
  { pose proof (reached_live _ _ _ _ _ _ Hr) as X. rewrite L in X. apply (f_equal (@length _)) in X. rewrite map_length in X. cbn in X. lia. }
  assert (Q : u = OMore true /\ blank m1).
  { pose proof (inv_step_op _ _ _ _ _ I E) as I1.
    unfold step_op in E. destruct (needs_model _ && negb (malive m)); [discriminate|]. inv_ok. destruct a as [m1 b1]. cbn [fst snd] in *.
    match goal with X : model_step _ _ = Ok _ |- _ => rename X into E end. unfold model_step in E. inv_ok. destruct a as [m2 b2].
    replace (t =? 0) with false in * by (symmetry; apply Z.eqb_neq; lia). cbn [orb] in *.
    destruct (step_count t) as [|k] eqn:Ek.
    { unfold step_count in Ek. assert (0 < (t + 15) / 16) by (apply Z.div_str_pos; lia). lia. }
    match goal with X : integrate_n _ _ _ = Ok _ |- _ => rename X into E1 end. cbn [integrate_n] in E1. inv_ok. destruct a as [m3 b3]. cbn [fst snd orb] in *.
    match goal with X : integrate_once _ = Ok _ |- _ => rename X into E2 end.
    pose proof (integrate_once_shape _ _ _ E2) as (pp & vv & hh & Em & L1 & L2 & _).
    assert (N3 : all_nan (mpos m3) /\ b3 = true).
    { unfold integrate_once in E2. destruct (constrain_all_zero (mtargets m) (mpos m) Hl Hh) as [X Y].
      unfold constrainment in E2. rewrite A, Rz in E2. destruct (constrain_points zero64 (mtargets m) (mpos m)) as [pos1 more1]. cbn [fst snd] in *.
      clear Em. inv_ok. destruct a as [[[p4 v4] h4] b4]. inv_ok. split.
      - cbn [set_sim mpos]. eapply spring_step_nan; [exact X|eassumption].
      - rewrite Y; [reflexivity|]. intros Z0. pose proof (inv_tgt _ I) as L0. rewrite Z0 in L0. discriminate. }
    destruct N3 as [N3 ->].
    assert (I3 : Inv m3) by (subst m3; destruct I; constructor; cbn [set_sim mpos mvel]; auto; congruence).
    destruct (integrate_n_nan _ _ _ _ _ I3 N3 E1) as (N2 & _ & T2). specialize (T2 eq_refl). subst b1. cbn [negb andb orb] in *.
    split; auto. apply integrate_n_shape in E1. destruct E1 as (p5 & v5 & h5 & -> & _). subst m3.
    constructor; auto. }
  destruct Q as [-> Bl]. split; auto. split; [apply Bl|]. intros fuel' more m2 us Pt Er. apply (blank_run _ _ _ _ _ Bl Pt Er).
Qed.

(** ** Moving an anchor of a settled model (any arithmetic) *)

Lemma move_settled {T} `{Num T} p w h st ops (m m1 m2 : model T) t n d u fuel :
  reached p w h st ops m -> length (live_anchors ops) = 1%nat ->
  step_op fuel m (OpStep t) = Ok (m1, OMore false) ->
  step_op fuel m1 (OpMoveAnchor n d) = Ok (m2, u) ->
  exists m3, step_op fuel m2 (OpStep 0) = Ok (m3, OMore false) /\ mpos m3 = map (fun q => vadd q d) (mpos m1).
Proof.
  intros Hr L E1 E2. assert (A : active m = true) by (apply (reached_active _ _ _ _ _ _ Hr); auto).
  unfold step_op in E1. destruct (needs_model _ && negb (malive m)); [discriminate|]. inv_ok. destruct a as [m1' b1]. inv_ok.
  match goal with X : model_step _ _ = Ok _ |- _ => rename X into E1 end. cbn [fst snd] in *. subst b1.
  pose proof (model_step_snap _ _ _ A E1) as [P1 P2].
  assert (A1 : active m1' = true /\ munequal m1' = false).
  { unfold model_step in E1. inv_ok. destruct a as [m4 b4]. inv_ok. match goal with X : _ || _ = false |- _ => rewrite X in * end.
    match goal with X : integrate_n _ _ _ = Ok _ |- _ => apply integrate_n_shape in X; destruct X as (p5 & v5 & h5 & -> & _) end.
    unfold active in *. cbn. rewrite A. cbn. split; auto. }
  destruct A1 as [A1 U1].
  unfold step_op in E2. destruct (needs_model _ && negb (malive m1')); [discriminate|]. inv_ok.
  match goal with X : move_anchor _ _ _ = Ok ?a |- _ => rename X into E2; rename a into m2 end.
  assert (Q : mtargets m2 = map (fun q => vadd q d) (mtargets m1') /\ active m2 = true /\ munequal m2 = false /\ malive m2 = true).
  { unfold move_anchor in E2. destruct (lookup_handle (mhandles m1') n) as [hd|]; [|discriminate].
    destruct (malive m1') eqn:Al; [|discriminate]. rewrite A1 in E2. destruct hd; inv_ok; auto. }
  destruct Q as (Q1 & Q2 & Q3 & Q4).
  exists (set_pos (set_unequal m2 false) (mtargets m2)). split.
  - unfold step_op. cbn [needs_model]. rewrite Q4. cbn [andb negb]. unfold model_step. change (step_count 0) with O. cbn [integrate_n bind Z.eqb].
    rewrite Q3. cbn [orb negb andb]. change (active (set_unequal m2 false)) with (active m2). rewrite Q2. reflexivity.
  - cbn [set_pos mpos]. rewrite Q1, P1. reflexivity.
Qed.
