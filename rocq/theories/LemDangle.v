(** Springs never refer to storage that was not allocated, so that the only
    invalid reference a network can hold is one to freed storage. *)

From Coq Require Import ZArith Bool List Lia.
From Verif Require Import Num Geometry Outcome Wobbly Spec LemBasic LemInv LemSprings LemHistory LemNetwork LemLifo
  LemMoves LemSettle LemAnchorFacts.
Import ListNotations.
Local Open Scope Z_scope.

Section Dangle.
Context {T : Type} `{Num T}.
Implicit Types (m : model T) (s : spring T).

Definition loc_in (n : nat) (l : loc) : Prop := match l with LMesh i => (i < 16)%nat | LBlk b => (b < n)%nat end.
Definition spring_in (n : nat) s : Prop :=
  s_fa s = s_pa s /\ s_fb s = s_pb s /\ loc_in n (s_pa s) /\ loc_in n (s_pb s).
Definition BInv m : Prop := Forall (spring_in (length (mheap m))) (all_springs m).

Lemma loc_in_le n n' l : (n <= n')%nat -> loc_in n l -> loc_in n' l.
Proof. destruct l; simpl; lia. Qed.
Lemma spring_in_le n n' s : (n <= n')%nat -> spring_in n s -> spring_in n' s.
Proof. intros L (A & B & C & D). repeat split; auto; eapply loc_in_le; eauto. Qed.
Lemma spring_in_topo n s s' : topo s = topo s' -> spring_in n s -> spring_in n s'.
Proof. unfold topo, spring_in. intros E. inversion E. congruence. Qed.

Lemma number_springs_in (l : list (nat * nat * vec T)) next n :
  Forall (fun e => (fst (fst e) < 16 /\ snd (fst e) < 16)%nat) l ->
  Forall (spring_in n) (number_springs l next).
Proof.
  revert next; induction l as [|[[a b] len] l IH]; intros next F; simpl; auto.
  inversion F; subst. simpl in *. constructor; auto. unfold spring_in; simpl. tauto.
Qed.

Lemma binv_init p w h st next : BInv (model_init p w h st next).
Proof.
  unfold BInv, all_springs. cbn [model_init msprings mhandles stolens flat_map]. rewrite app_nil_r.
  apply number_springs_in. repeat constructor.
Qed.

Lemma frame_heap_len f m m' : frame f m m' -> length (mheap m') = length (mheap m).
Proof. intros F. rewrite <- !heap_live_len. rewrite (fr_heap _ _ _ F). auto. Qed.

Lemma binv_frame f m m' : frame f m m' -> BInv m -> BInv m'.
Proof.
  intros F. unfold BInv, all_springs. rewrite (frame_heap_len _ _ _ F), (fr_springs _ _ _ F), (fr_handles _ _ _ F).
  rewrite !Forall_app, Forall_map. intros [A B]. split; auto.
  eapply Forall_impl; [|exact A]. intros s. apply spring_in_topo. symmetry. apply (fr_topo _ _ _ F).
Qed.

Lemma free_blk_len (h : list (block T)) b h' : free_blk h b = Ok h' -> length h' = length h.
Proof.
  unfold free_blk. destruct (nth_error h b) as [[|]|]; intros E; inversion E. apply list_set_length.
Qed.

Lemma binv_step base fuel m o m' u :
  Net base m -> BInv m -> step_op fuel m o = Ok (m', u) -> BInv m'.
Proof.
  intros N Rv E. pose proof (frame_step _ _ _ _ _ E) as F.
  unfold step_op in E. destruct (needs_model o && negb (malive m)); [discriminate|].
  destruct o; try (destruct F as (f & F & Ff); eapply binv_frame; eauto; fail); inv_ok.
  - destruct a as [m1 k]. simpl in *. unfold grab_anchor in Ha. inv_ok.
    apply activate_shape in Ha1. destruct Ha1 as (tg & id & -> & Hid & _).
    unfold BInv, all_springs in *. simpl. rewrite stolens_app. simpl. rewrite app_nil_r. exact Rv.
  - destruct a as [m1 k]. simpl in *. unfold insert_anchor in Ha. inv_ok.
    apply activate_shape in Ha0. destruct Ha0 as (tg & id & -> & Hid & _).
    destruct a0 as [m1 hd]. apply install_anchor_shape in Ha1.
    destruct Ha1 as (idx & found & da & db & _ & Hn & -> & _ & _ & ->).
    unfold BInv, all_springs in *. simpl in *.
    rewrite Forall_app in Rv. destruct Rv as [A1 A2].
    rewrite stolens_app. simpl. rewrite app_length. cbn [length].
    assert (Qf : spring_in (length (mheap m)) found)
      by (eapply Forall_forall; [exact A1|]; eapply nth_error_In; eauto).
    assert (Mono : forall s, spring_in (length (mheap m)) s -> spring_in (length (mheap m) + 1) s)
      by (intros s; apply spring_in_le; lia).
    rewrite !Forall_app. repeat split.
    + apply Forall_forall. intros s Hs. apply Mono. eapply Forall_forall in A1; [exact A1|].
      eapply list_del_incl; eauto.
    + destruct Qf as (Q1 & Q2 & Q3 & Q4).
      constructor; [|constructor; [|constructor]]; unfold spring_in;
        cbn [s_fa s_fb s_pa s_pb s_id loc_in]; repeat split; auto; try lia;
        (apply (loc_in_le (length (mheap m))); [lia|auto]).
    + eapply Forall_impl; [|exact A2]. auto.
    + constructor; auto.
  - destruct (lookup_handle (mhandles m) n) as [hd|] eqn:EL.
    2:{ unfold release_anchor in Ha. rewrite EL in Ha. inv_ok. auto. }
    destruct (release_anchor_shape _ _ _ _ _ EL Ha) as (_ & m1 & R & Dv).
    destruct (remove_handle_perm _ _ _ (inv_keys _ (net_inv _ _ N)) EL) as (l1 & l2 & El & Er).
    apply deactivate_shape in Dv. destruct Dv as (tg & id & -> & Hid & _).
    destruct hd as [i | stolen i1 i2 b aid].
    + simpl in R. inv_ok. unfold BInv, all_springs in *. simpl in *. rewrite Er. rewrite El in Rv.
      rewrite stolens_app in *. simpl in *. exact Rv.
    + apply release_strategy_ins_shape in R.
      destruct R as (hp & r2 & r1 & r0 & Fb & R2 & R1 & R0 & ->). unfold BInv, all_springs in *. simpl in *.
      destruct (sinv_release_ins base m l1 l2 n stolen i1 i2 b aid (net_s _ _ N) El)
        as (x2 & x1 & x0 & X2 & X1 & X0 & Y & _).
      rewrite R2 in X2. inversion X2; subst x2. rewrite R1 in X1. inversion X1; subst x1.
      rewrite R0 in X0. inversion X0; subst x0.
      rewrite (free_blk_len _ _ _ Fb). rewrite Er. rewrite Forall_app. split; apply Forall_forall; intros s Hs.
      * apply Y in Hs. destruct Hs as (Hs & _ & _).
        eapply Forall_forall in Rv; [exact Rv|]. apply in_or_app. destruct Hs as [?| ->]; auto.
        right. apply in_stolens. exists n, i1, i2, b, aid. rewrite El. apply in_elt.
      * eapply Forall_forall in Rv; [exact Rv|]. apply in_or_app. right.
        rewrite El. rewrite stolens_app in *. simpl. rewrite in_app_iff in *. simpl. tauto.
Qed.

Lemma binv_run base fuel ops : forall m m' us,
  Net base m -> BInv m -> run fuel m ops = Ok (m', us) -> BInv m'.
Proof.
  induction ops; intros m m' us N Rv E; simpl in E; inv_ok; auto.
  destruct a0 as [m1 u1]. destruct a1 as [m2 us2]. simpl in *. inv_ok.
  eapply IHops; [| |exact Ha0].
  - eapply net_step; eauto.
  - eapply binv_step; eauto.
Qed.

(** ** Reading through springs *)

Lemma rd_blk_in_err (h : list (block T)) b e : (b < length h)%nat -> rd_blk h b = Err e -> e = UseAfterFree.
Proof.
  unfold rd_blk. intros L E. destruct (nth_error h b) as [[|]|] eqn:X; try congruence.
  apply nth_error_None in X. unfold block in *. lia.
Qed.
Lemma rd_pos_in_err (mm : mem T) l e :
  length (m_pos mm) = 16%nat -> loc_in (length (m_heap mm)) l -> rd_pos mm l = Err e -> e = UseAfterFree.
Proof.
  intros L. destruct l as [i|b]; simpl; intros I E.
  - apply of_option_err in E. destruct E as [E _]. apply nth_error_None in E. lia.
  - apply bind_err in E. destruct E as [E|(q & _ & E)]; [|discriminate]. eapply rd_blk_in_err; eauto.
Qed.
Lemma add_force_in_err (mm : mem T) l f e :
  length (m_force mm) = 16%nat -> loc_in (length (m_heap mm)) l -> add_force mm l f = Err e -> e = UseAfterFree.
Proof.
  intros L. destruct l as [i|b]; simpl; intros I E.
  - apply bind_err in E. destruct E as [E|(q & _ & E)]; [|discriminate].
    apply of_option_err in E. destruct E as [E _]. apply nth_error_None in E. lia.
  - apply bind_err in E. destruct E as [E|(q & _ & E)]; [|discriminate]. eapply rd_blk_in_err; eauto.
Qed.
Lemma heap_pos_len (h h' : list (block T)) : heap_pos h = heap_pos h' -> length h = length h'.
Proof. intros E. apply (f_equal (@length _)) in E. unfold heap_pos in E. rewrite !map_length in E. exact E. Qed.

Lemma apply_forces_in_err k s (mm : mem T) e :
  length (m_pos mm) = 16%nat -> length (m_force mm) = 16%nat -> spring_in (length (m_heap mm)) s ->
  apply_forces k s mm = Err e -> e = UseAfterFree.
Proof.
  intros Lp Lf (A & B & C & D) E. unfold apply_forces in E.
  apply bind_err in E. destruct E as [E|(pa & _ & E)]; [eapply rd_pos_in_err; [| |exact E]; auto|].
  apply bind_err in E. destruct E as [E|(pb & _ & E)]; [eapply rd_pos_in_err; [| |exact E]; auto|].
  destruct (spring_deltas pa pb (s_len s)) as [da db].
  apply bind_err in E. destruct E as [E|(m1 & E1 & E)]; [eapply add_force_in_err; [exact Lf| |exact E]; congruence|].
  destruct (add_force_shape _ _ _ _ E1) as (X1 & X2 & X3).
  apply bind_err in E. destruct E as [E|(m2 & _ & E)]; [|discriminate].
  eapply add_force_in_err; [exact (eq_trans X2 Lf)| |exact E].
  rewrite (heap_pos_len _ _ X3). congruence.
Qed.

Lemma apply_all_in_err k ss : forall (mm : mem T) b e,
  length (m_pos mm) = 16%nat -> length (m_force mm) = 16%nat ->
  Forall (spring_in (length (m_heap mm))) ss -> apply_all k ss mm b = Err e -> e = UseAfterFree.
Proof.
  induction ss as [|s ss IH]; intros mm b e Lp Lf F E; simpl in E; [discriminate|].
  inversion F; subst. apply bind_err in E. destruct E as [E|([m1 b1] & E1 & E)].
  - eapply apply_forces_in_err in E; eauto.
  - destruct (apply_forces_shape _ _ _ _ _ E1) as (X1 & X2 & X3). simpl in E.
    eapply IH; [| | |exact E]; try congruence. rewrite (heap_pos_len _ _ X3). auto.
Qed.

Lemma integrate_once_in_err m e :
  Inv m -> Forall (spring_in (length (mheap m))) (msprings m) -> integrate_once m = Err e -> e = UseAfterFree.
Proof.
  intros I F E. unfold integrate_once in E. pose proof (constrainment_length m (mpos m)) as L.
  destruct (constrainment m (mpos m)) as [pos1 more1]. simpl in L. rewrite (inv_pos _ I) in L.
  apply bind_err in E. destruct E as [E|([[[p2 v2] h2] b2] & _ & E)]; [|discriminate].
  unfold spring_step in E. apply bind_err in E. destruct E as [E|([mm fe] & _ & E)].
  - unfold calculate_forces in E. eapply apply_all_in_err; [| | |exact E]; auto.
  - destruct (integrate_points _ _ _ _ _) as [[? ?] ?]. discriminate.
Qed.

Lemma integrate_once_keeps m m' b :
  Inv m -> integrate_once m = Ok (m', b) ->
  Inv m' /\ msprings m' = msprings m /\ mhandles m' = mhandles m /\ heap_live (mheap m') = heap_live (mheap m).
Proof.
  intros I E. unfold integrate_once in E. pose proof (constrainment_length m (mpos m)) as L.
  destruct (constrainment m (mpos m)) as [pos1 more1]. simpl in L. rewrite (inv_pos _ I) in L.
  inv_ok. destruct a as [[[p2 v2] h2] b2]. inv_ok. apply spring_step_shape in Ha. destruct Ha as (E1 & E2 & E3).
  simpl. split; [|split; [auto|split; [auto|]]].
  - destruct I. constructor; simpl; auto; congruence.
  - apply heap_live_pos. auto.
Qed.

Lemma integrate_n_in_err n : forall m b e,
  Inv m -> Forall (spring_in (length (mheap m))) (msprings m) -> integrate_n n m b = Err e -> e = UseAfterFree.
Proof.
  induction n; intros m b e I F E; simpl in E; [discriminate|].
  apply bind_err in E. destruct E as [E|([m1 b1] & E1 & E)].
  - eapply integrate_once_in_err; eauto.
  - destruct (integrate_once_keeps _ _ _ I E1) as (I1 & S1 & _ & H1). simpl in E.
    eapply IHn; [exact I1| |exact E]. rewrite S1. rewrite <- heap_live_len, H1, heap_live_len. exact F.
Qed.

Lemma find_from_in_err mm p ss : forall i acc e,
  length (m_pos mm) = 16%nat -> Forall (spring_in (length (m_heap mm))) ss ->
  find_from (T:=T) mm p i ss acc = Err e -> e = UseAfterFree.
Proof.
  induction ss as [|s ss IH]; intros i acc e L F E; simpl in E; [discriminate|].
  inversion F; subst. apply bind_err in E. destruct E as [E|(q & _ & E)].
  - destruct H2 as (_ & _ & A & B). unfold find_one in E. destruct acc as [[found prim] sec].
    apply bind_err in E. destruct E as [E|(pa & _ & E)]; [eapply rd_pos_in_err; [| |exact E]; auto|].
    destruct (nltb (vdist pa p) prim);
      (match type of E with (if ?c then _ else _) = _ => destruct c end; [|discriminate]);
      (apply bind_err in E; destruct E as [E|(pb & _ & E)]; [eapply rd_pos_in_err; [| |exact E]; auto|]);
      (match type of E with (if ?c then _ else _) = _ => destruct c end; discriminate).
  - eapply IH; eauto.
Qed.

Lemma spring_valid_iff h s :
  spring_in (length h) s ->
  (spring_valid h s <->
   forall b, s_pa s = LBlk b \/ s_pb s = LBlk b -> nth_error h b <> Some None).
Proof.
  intros (A & B & C & D). unfold spring_valid. rewrite A, B.
  assert (X : forall l, loc_in (length h) l ->
                (loc_valid h l <-> forall b, l = LBlk b -> nth_error h b <> Some None)).
  { intros [i|k]; simpl; intros L; [intuition discriminate|]. unfold heap_live. rewrite nth_error_map. unfold block in *.
    destruct (@nth_error (option (vec T * vec T)) h k) as [[|]|] eqn:E; simpl.
    - split; auto. intros _ b Eb. inversion Eb; subst. congruence.
    - split; [discriminate|]. intros Q. exfalso. apply (Q k); auto.
    - apply nth_error_None in E. lia. }
  rewrite (X _ C), (X _ D). split.
  - intros (_ & _ & Q1 & Q2) b [E|E]; eauto.
  - intros Q. repeat split; intros b E; apply Q; auto.
Qed.

(** ** Reachable models *)

Lemma reached_net p w h st ops m : reached p w h st ops m -> exists base, Net base m /\ BInv m.
Proof.
  intros (fuel & next & us & E). exists (base_ids next). split.
  - eapply net_run; [|exact E]. apply net_init.
  - eapply binv_run; [| |exact E]; [apply net_init|apply binv_init].
Qed.

Lemma dangling_step p w h st ops m s b fuel t :
  reached p w h st ops m -> In s (msprings m) -> s_pa s = LBlk b \/ s_pb s = LBlk b ->
  nth_error (mheap m) b = Some None -> (0 < t)%Z ->
  step_op fuel m (OpStep t) = Err UseAfterFree.
Proof.
  intros Hr Hin Hs Hb Ht. destruct (reached_net _ _ _ _ _ _ Hr) as (base & N & Bm).
  assert (F : Forall (spring_in (length (mheap m))) (msprings m)).
  { unfold BInv, all_springs in Bm. rewrite Forall_app in Bm. tauto. }
  destruct (step_op fuel m (OpStep t)) as [[m' u]|e] eqn:E.
  - exfalso. unfold step_op in E. destruct (needs_model (OpStep t : op T) && negb (malive m))%bool; [discriminate|].
    inv_ok. unfold model_step in *. inv_ok.
    destruct (step_count t) as [|n] eqn:Ec; [apply step_count_pos in Ht; congruence|].
    match goal with X : integrate_n _ _ _ = Ok _ |- _ => cbn [integrate_n] in X end. inv_ok.
    match goal with X : integrate_once _ = Ok ?r |- _ => destruct r as [m1 b1];
      pose proof (integrate_once_ok_valid _ _ _ (net_inv _ _ N) X) as V end.
    pose proof (proj1 (Forall_forall _ _) V s Hin) as Vs.
    pose proof (proj1 (Forall_forall _ _) F s Hin) as Is.
    exact (proj1 (spring_valid_iff _ _ Is) Vs b Hs Hb).
  - unfold step_op in E. destruct (needs_model (OpStep t : op T) && negb (malive m))%bool; [congruence|].
    apply bind_err in E. destruct E as [E|(q & _ & E)]; [|discriminate].
    unfold model_step in E. apply bind_err in E. destruct E as [E|([m1 b1] & _ & E)]; [|discriminate].
    apply integrate_n_in_err in E; [congruence|apply (net_inv _ _ N)|exact F].
Qed.

Lemma integrate_n_valid n : forall m b,
  Inv m -> Forall (spring_valid (mheap m)) (msprings m) -> exists r, integrate_n n m b = Ok r.
Proof.
  induction n; intros m b I F; simpl; eauto.
  destruct (integrate_once m) as [[m1 b1]|e] eqn:E1.
  - destruct (integrate_once_keeps _ _ _ I E1) as (I1 & S1 & _ & H1). simpl. apply IHn; auto.
    rewrite S1. eapply Forall_impl; [|exact F]. intros s. apply spring_valid_ext. auto.
  - exfalso. unfold integrate_once in E1. pose proof (constrainment_length m (mpos m)) as L.
    destruct (constrainment m (mpos m)) as [pos1 more1]. simpl in L. rewrite (inv_pos _ I) in L.
    destruct (spring_step_valid (st_k (mset m)) (st_friction (mset m)) (t_counts (mtracked m)) (msprings m)
              pos1 (mvel m) (mheap m) L F) as ([[[p2 v2] h2] b2] & E).
    rewrite E in E1. discriminate.
Qed.

(** A step fails exactly when the network refers to freed storage. *)
Lemma step_fails_iff p w h st ops m fuel t e :
  reached p w h st ops m -> c_destroyed (client_after ops) = false -> (0 < t)%Z ->
  (step_op fuel m (OpStep t) = Err e <->
   e = UseAfterFree /\
   exists s b, In s (msprings m) /\ (s_pa s = LBlk b \/ s_pb s = LBlk b) /\ nth_error (mheap m) b = Some None).
Proof.
  intros Hr Hd Ht. destruct (reached_net _ _ _ _ _ _ Hr) as (base & N & Bm).
  assert (F : Forall (spring_in (length (mheap m))) (msprings m)).
  { unfold BInv, all_springs in Bm. rewrite Forall_app in Bm. tauto. }
  split.
  2:{ intros (-> & s & b & Hin & Hs & Hb). eapply dangling_step; eauto. }
  intros E.
  destruct (Exists_dec (fun s => ~ spring_valid (mheap m) s) (msprings m)) as [D|D].
  { intros s. unfold spring_valid. assert (X : forall l, {loc_valid (mheap m) l} + {~ loc_valid (mheap m) l}).
    { intros [i|b]; simpl; [apply Compare_dec.lt_dec|].
      destruct (nth_error (heap_live (mheap m)) b) as [[|]|]; [left; auto|right; discriminate|right; discriminate]. }
    destruct (X (s_fa s)); [|left; tauto]. destruct (X (s_fb s)); [|left; tauto].
    destruct (X (s_pa s)); [|left; tauto]. destruct (X (s_pb s)); [right; tauto|left; tauto]. }
  - apply Exists_exists in D. destruct D as (s & Hin & Nv).
    assert (Q : exists b, (s_pa s = LBlk b \/ s_pb s = LBlk b) /\ nth_error (mheap m) b = Some None).
    { assert (In_ : spring_in (length (mheap m)) s) by (eapply Forall_forall; eauto).
      pose proof (proj2 (spring_valid_iff _ _ In_)) as V.
      assert (DD : forall l, {b | l = LBlk b /\ nth_error (mheap m) b = Some None} + {forall b, l = LBlk b -> nth_error (mheap m) b <> Some None}).
      { intros [i|b]; [right; intros b E'; discriminate E'|].
        destruct (nth_error (mheap m) b) as [[pf|]|] eqn:Eb.
        - right. intros b' E'. inversion E'; subst. congruence.
        - left. exists b. auto.
        - right. intros b' E'. inversion E'; subst. congruence. }
      destruct (DD (s_pa s)) as [(b & B1 & B2)|P1]; [exists b; auto|].
      destruct (DD (s_pb s)) as [(b & B1 & B2)|P2]; [exists b; auto|].
      exfalso. apply Nv, V. intros b [Eb|Eb]; eauto. }
    destruct Q as (b & Hs & Hb). split; [|exists s, b; auto].
    rewrite (dangling_step _ _ _ _ _ _ _ _ fuel t Hr Hin Hs Hb Ht) in E. congruence.
  - exfalso. assert (V : Forall (spring_valid (mheap m)) (msprings m)).
    { apply Forall_forall. intros s Hin. assert (X : forall l, {loc_valid (mheap m) l} + {~ loc_valid (mheap m) l}).
      { intros [i|b]; simpl; [apply Compare_dec.lt_dec|].
        destruct (nth_error (heap_live (mheap m)) b) as [[|]|]; [left; auto|right; discriminate|right; discriminate]. }
      assert (Y : {spring_valid (mheap m) s} + {~ spring_valid (mheap m) s}).
      { unfold spring_valid. destruct (X (s_fa s)); [|right; tauto]. destruct (X (s_fb s)); [|right; tauto].
        destruct (X (s_pa s)); [|right; tauto]. destruct (X (s_pb s)); [left; tauto|right; tauto]. }
      destruct Y; auto. exfalso. apply D, Exists_exists. eauto. }
    assert (Al : malive m = true).
    { destruct Hr as (fl & next & us & Er). pose proof (agrees_run _ _ _ _ _ _ Er (agrees_init p w h st next)) as A.
      destruct A as (_ & _ & A). unfold client_after in Hd. rewrite Hd in A. destruct (malive m); auto. }
    unfold step_op in E. rewrite Al in E. cbn [needs_model negb andb] in E.
    destruct (integrate_n_valid (step_count t) m false (net_inv _ _ N) V) as ([m1 b1] & E1).
    unfold model_step in E. rewrite E1 in E. discriminate.
Qed.

(** ** Errors of careful clients that release in any order *)

Lemma step_op_err_order base fuel m o e c :
  Net base m -> BInv m -> agrees c m -> (c_destroyed c = true -> c_live c = []) -> careful c o ->
  step_op fuel m o = Err e ->
  match o with
  | OpInsert _ => e = NoFuel \/ e = AssertFailed \/ e = Threw \/ e = UseAfterFree
  | OpStep _ => e = UseAfterFree
  | OpGrab _ | OpResize _ _ => e = NoFuel \/ e = AssertFailed
  | _ => e = NoFuel
  end.
Proof.
  intros N Bm A CD C E. pose proof (net_inv _ _ N) as I.
  assert (F : Forall (spring_in (length (mheap m))) (msprings m)).
  { unfold BInv, all_springs in Bm. rewrite Forall_app in Bm. tauto. }
  pose proof (fun P => step_op_err_any base fuel m o e c N P A CD C E) as Q.
  destruct o; try (destruct (Q Logic.I) as [X|X]; cbv beta iota in X; tauto).
  - assert (Al : malive m = true).
    { destruct A as (A1 & A2 & A3). destruct (malive m) eqn:EA; auto. simpl in *. congruence. }
    unfold step_op in E. rewrite Al in E. cbn [needs_model negb andb] in E.
    apply bind_err in E. destruct E as [E|(q & _ & E)]; [|discriminate].
    unfold insert_anchor in E. apply bind_err in E. destruct E as [E|(m1 & E1 & E)].
    { left. eapply activate_err; [exact I| |exact E]. reflexivity. }
    apply bind_err in E. destruct E as [E|(q & _ & E)]; [|discriminate].
    apply activate_shape in E1. destruct E1 as (tg & id & -> & _ & Ltg).
    set (m1 := set_targets _ tg) in *. right.
    unfold install_anchor in E.
    apply bind_err in E. destruct E as [E|(idx & Hidx & E)].
    { unfold find_spring in E. apply bind_err in E. destruct E as [E|(q & _ & E)].
      - right. right. eapply find_from_in_err; [| |exact E]; [apply (inv_pos _ I)|exact F].
      - apply of_option_err in E. tauto. }
    apply bind_err in E. destruct E as [E|(found & Hf & E)].
    { apply of_option_err in E. destruct E as [E _]. apply nth_error_None in E.
      apply find_spring_range in Hidx. simpl in *. lia. }
    apply of_option_ok in Hf.
    assert (Vf : spring_in (length (mheap m)) found).
    { eapply Forall_forall; [exact F|]. eapply nth_error_In; eauto. }
    destruct Vf as (_ & _ & V3 & V4).
    assert (RP : forall l e', loc_in (length (mheap m)) l ->
       rd_pos (mem_of (set_heap m1 (mheap m1 ++ [Some (p, vzero)]))) l = Err e' -> e' = UseAfterFree).
    { intros l e' V X. eapply rd_pos_in_err; [| |exact X]; [apply (inv_pos _ I)|].
      eapply loc_in_le; [|exact V]. simpl. rewrite app_length. lia. }
    apply bind_err in E. destruct E as [E|(pa & _ & E)]; [right; right; eapply RP; [exact V3|exact E]|].
    apply bind_err in E. destruct E as [E|(pb & _ & E)]; [right; right; eapply RP; [exact V4|exact E]|].
    assert (DP : forall x e', desired_position (set_heap m1 (mheap m1 ++ [Some (p, vzero)])) x = Err e' -> e' = Threw).
    { intros x e' Ex. unfold desired_position in Ex. destruct (active _); [|discriminate].
      apply bind_err in Ex. destruct Ex as [Ex|(j & Hj & Ex)].
      - apply of_option_err in Ex. tauto.
      - apply of_option_err in Ex. destruct Ex as [Ex _]. apply nth_error_None in Ex. simpl in Ex.
        apply of_option_ok in Hj. apply index_of_position_range in Hj. simpl in Hj.
        rewrite (inv_pos _ I) in Hj. simpl in Ltg. rewrite Ltg in Ex by apply (inv_tgt _ I). lia. }
    apply bind_err in E. destruct E as [E|(da & _ & E)]; [right; left; eapply DP; exact E|].
    apply bind_err in E. destruct E as [E|(db & _ & E)]; [right; left; eapply DP; exact E|].
    discriminate.
  - assert (Al : malive m = true).
    { destruct A as (A1 & A2 & A3). destruct (malive m) eqn:EA; auto. simpl in *. congruence. }
    unfold step_op in E. rewrite Al in E. cbn [needs_model negb andb] in E.
    apply bind_err in E. destruct E as [E|(q & _ & E)]; [|discriminate].
    unfold model_step in E. apply bind_err in E. destruct E as [E|([m1 b1] & _ & E)]; [|discriminate].
    eapply integrate_n_in_err; eauto.
Qed.

Lemma step_err_reached p w h st ops m o fuel e :
  reached p w h st ops m -> careful_history (ops ++ [o]) -> step_op fuel m o = Err e ->
  match o with
  | OpInsert _ => e = NoFuel \/ e = AssertFailed \/ e = Threw \/ e = UseAfterFree
  | OpStep _ => e = UseAfterFree
  | OpGrab _ | OpResize _ _ => e = NoFuel \/ e = AssertFailed
  | _ => e = NoFuel
  end.
Proof.
  intros Hr C E. destruct (reached_net _ _ _ _ _ _ Hr) as (base & N & Bm).
  destruct Hr as (fl & next & us & Er). pose proof (agrees_run _ _ _ _ _ _ Er (agrees_init p w h st next)) as A.
  unfold careful_history in C.
  assert (CC : forall (l : list (op T)) c, (c_destroyed c = true -> c_live c = []) -> each_call careful c (l ++ [o]) ->
     (c_destroyed (fold_left client_step l c) = true -> c_live (fold_left client_step l c) = []) /\
     careful (fold_left client_step l c) o).
  { induction l as [|a l IH]; simpl; intros c CD [C1 C2]; auto. apply IH; auto. apply careful_destroyed; auto. }
  destruct (CC ops client_start (fun _ => eq_refl) C) as (CD & C1).
  eapply step_op_err_order; eauto.
Qed.

End Dangle.
