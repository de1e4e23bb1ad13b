(** Facts about anchors and springs over whole histories, in the form in which
    the properties use them. *)

From Coq Require Import ZArith Reals Bool List Lia Lra Permutation.
From Verif Require Import Num Geometry Outcome Wobbly Spec LemBasic LemReal LemInv LemSprings LemHistory LemNetwork LemLifo LemAnchors LemMoves LemForce LemRest LemSettle LemSafe LemStill.
Import ListNotations.
Local Open Scope R_scope.
Local Arguments vdist : simpl never.

(** ** Motion of one point *)

Lemma integrate_once_moves p w h st ops (m m' : model R) b i :
  reached p w h st ops m -> (Z.of_nat (length ops) < two32)%Z -> (i < 16)%nat ->
  integrate_once m = Ok (m', b) ->
  let pos := fst (constrainment m (mpos m)) in
  exists q v,
    nth_error pos i = Some q /\ nth_error (mvel m) i = Some v /\
    (grabbed m i -> nth_error (mpos m') i = Some q /\ nth_error (mvel m') i = Some vzero) /\
    (~ grabbed m i ->
       exists q' v', nth_error (mpos m') i = Some q' /\ nth_error (mvel m') i = Some v' /\
         moves (st_friction (mset m)) q v
               (net_force (st_k (mset m)) (place_of pos (mheap m)) (LMesh i) (msprings m)) q' v').
Proof.
  intros Hr Hb Hi E pos. pose proof (inv_reached _ _ _ _ _ _ Hr) as I.
  pose proof (reached_bound _ _ _ _ _ _ Hr Hb) as HB.
  destruct (integrate_once_point m m' b i I HB Hi E) as (q & v & f & mm & fe & Hq & Hv & Hf & Hff & G & F).
  exists q, v. repeat split; auto.
  - apply G; auto.
  - apply G; auto.
  - intros N. destruct (F N) as (F1 & F2). eexists; eexists. split; [exact F1|]. split; [exact F2|].
    assert (X : f = net_force (st_k (mset m)) (place_of pos (mheap m)) (LMesh i) (msprings m)); [|rewrite <- X; apply euler_moves].
    pose proof (integrate_once_ok_valid _ _ _ I E) as V.
    assert (W : Forall (where_ok (mkMem pos (repeat vzero mesh_n) (mheap m)) (place_of pos (mheap m))) (msprings m)).
    { eapply Forall_impl; [|exact V]. intros s Vs. apply where_place; auto.
      unfold pos. rewrite constrainment_length. apply (inv_pos _ I). }
    unfold calculate_forces in Hf. fold pos in Hf.
    destruct (apply_all_at _ _ _ _ _ _ _ W Hf) as (_ & X). specialize (X (LMesh i)).
    cbn [force_at m_force] in X. rewrite Hff in X.
    assert (Z : nth_error (repeat (@vzero R _) mesh_n) i = Some vzero).
    { destruct (nth_error (repeat (@vzero R _) mesh_n) i) eqn:EZ.
      - apply nth_error_In in EZ. apply repeat_spec in EZ. congruence.
      - apply nth_error_None in EZ. rewrite repeat_length in EZ. unfold mesh_n in EZ. lia. }
    rewrite Z in X. cbn [option_map] in X. rewrite vadd_comm, vadd_zero_r in X. congruence.
Qed.

(** ** Splitting of the nearest spring *)

Lemma euclid_sym a b : euclid a b = euclid b a.
Proof. unfold euclid. f_equal. ring. Qed.


Lemma activate_place fuel (m m1 : model R) :
  activate fuel (set_unequal m true) = Ok m1 ->
  mpos m1 = mpos m /\ mheap m1 = mheap m /\ msprings m1 = msprings m /\ mnext_handle m1 = mnext_handle m /\
  mhandles m1 = mhandles m /\ mcount m1 = (mcount m + 1)%Z.
Proof. intros E. apply activate_shape in E. destruct E as (tg & id & -> & _). repeat split. Qed.

Lemma key_of_place (m : model R) q s pa pb :
  place m (s_pa s) = Some pa -> place m (s_pb s) = Some pb ->
  spring_key (mem_of m) q s (euclid pa q, euclid pb q).
Proof.
  intros A B. exists pa, pb. rewrite !place_rd. rewrite !euclid_vdist. auto.
Qed.

Lemma place_snoc (m : model R) x l q : place m l = Some q -> place (set_heap m (mheap m ++ [x])) l = Some q.
Proof.
  destruct l as [i|b]; simpl; auto. intros E.
  assert (L : (b < length (mheap m))%nat).
  { apply nth_error_Some. destruct (nth_error (mheap m) b); congruence. }
  rewrite nth_error_app1; auto.
Qed.

Lemma index_of_position_at (pts : list (vec R)) p : forall i j,
  index_of_position pts p i = Some j -> exists k, j = (i + k)%nat /\ nth_error pts k = Some p.
Proof.
  induction pts as [|a pts IH]; intros i j E; cbn [index_of_position] in E; [discriminate|].
  destruct (vequals p a) eqn:Q.
  - injection E as <-. exists 0%nat. apply vequals_R in Q. subst. split; auto.
  - apply IH in E. destruct E as (k & -> & Hk). exists (S k). split; auto. lia.
Qed.

Lemma insert_splits p w h st ops (m m' : model R) q fuel n :
  reached p w h st ops m -> lifo_history ops ->
  (forall l r, place m l = Some r -> euclid q r < Rmaxv) ->
  step_op fuel m (OpInsert q) = Ok (m', OHandle n) ->
  exists idx s pa pb s1 s2 blk,
    nth_error (msprings m) idx = Some s /\ place m (s_pa s) = Some pa /\ place m (s_pb s) = Some pb /\
    (forall j r ra rb, nth_error (msprings m) j = Some r ->
       place m (s_pa r) = Some ra -> place m (s_pb r) = Some rb ->
       key_less (euclid pa q, euclid pb q) (euclid ra q, euclid rb q) \/
       ((euclid pa q, euclid pb q) = (euclid ra q, euclid rb q) /\ (idx <= j)%nat)) /\
    msprings m' = list_del idx (msprings m) ++ [s1; s2] /\
    s_pa s1 = LBlk blk /\ s_pb s1 = s_pa s /\ s_fa s1 = LBlk blk /\ s_fb s1 = s_fa s /\
    s_pa s2 = LBlk blk /\ s_pb s2 = s_pb s /\ s_fa s2 = LBlk blk /\ s_fb s2 = s_fb s /\
    place m (LBlk blk) = None /\ place m' (LBlk blk) = Some q /\ anchor_point m' n = Some q /\
    mpos m' = mpos m /\ mvel m' = mvel m /\
    (live_anchors ops <> [] -> s_len s1 = vsub pa q /\ s_len s2 = vsub pb q) /\
    (live_anchors ops = [] -> exists i j ta tb,
       nth_error (mpos m) i = Some pa /\ nth_error (mtargets m') i = Some ta /\ s_len s1 = vsub ta q /\
       nth_error (mpos m) j = Some pb /\ nth_error (mtargets m') j = Some tb /\ s_len s2 = vsub tb q).
Proof.
  intros Hr Lf Rg E.
  pose proof (inv_reached _ _ _ _ _ _ Hr) as I. destruct (net_reached _ _ _ _ _ _ Hr) as (next & N).
  pose proof (rinv_reached _ _ _ _ _ _ Hr Lf) as RI.
  pose proof (rinv_valid m (net_h _ _ N) RI) as V.
  pose proof (reached_live _ _ _ _ _ _ Hr) as HL.
  pose proof (inv_count _ I) as HC.
  unfold step_op in E. destruct (needs_model (OpInsert q) && negb (malive m))%bool; [discriminate|].
  inv_ok. destruct a as [m2 n2]. unfold insert_anchor in *. inv_ok.
  match goal with X : install_anchor _ _ = Ok ?r |- _ => destruct r as [m3 hd]; apply install_anchor_shape in X;
    destruct X as (idx & s & da & db & Hf & Hs & -> & (pa & Ha & Hda) & (pb & Hb & Hdb) & ->) end.
  match goal with X : activate _ _ = Ok ?x |- _ => rename x into m1; pose proof (activate_place _ _ _ X) as (E1 & E2 & E3 & E4 & E5 & E6);
    apply activate_shape in X; destruct X as (tg & id & EX & HT) end.
  cbn [fst snd] in *.
  assert (PL : forall l, place m1 l = place m l).
  { intros l. unfold place. rewrite E1, E2. auto. }
  assert (VP : forall r, In r (msprings m) ->
     place m (s_pa r) = Some (place_of (mpos m) (mheap m) (s_pa r)) /\
     place m (s_pb r) = Some (place_of (mpos m) (mheap m) (s_pb r))).
  { intros r Hin. pose proof (proj1 (Forall_forall _ _) V r Hin) as (_ & _ & Va & Vb).
    split; apply place_valid; auto. }
  destruct (find_spring_spec (mem_of m1) q (msprings m1) idx) as (s' & k & Hs' & Hk & Hmin); auto.
  { intros r Hin. rewrite E3 in Hin. destruct (VP r Hin) as (Va & Vb).
    exists (euclid (place_of (mpos m) (mheap m) (s_pa r)) q, euclid (place_of (mpos m) (mheap m) (s_pb r)) q).
    split; [|cbn [fst snd]].
    - apply key_of_place; rewrite PL; auto.
    - rewrite !(euclid_sym _ q). split; eapply Rg; eauto. }
  assert (s' = s) by congruence. subst s'.
  assert (Hsm : nth_error (msprings m) idx = Some s) by congruence.
  destruct (VP s (nth_error_In _ _ Hsm)) as (Vpa & Vpb).
  assert (A1 : place m (s_pa s) = Some pa).
  { rewrite place_rd in Ha. erewrite place_snoc in Ha; [|rewrite PL; exact Vpa]. congruence. }
  assert (B1 : place m (s_pb s) = Some pb).
  { rewrite place_rd in Hb. erewrite place_snoc in Hb; [|rewrite PL; exact Vpb]. congruence. }
  assert (Kk : k = (euclid pa q, euclid pb q)).
  { destruct Hk as (ka & kb & K1 & K2 & ->). rewrite place_rd in K1, K2. rewrite PL in K1, K2.
    rewrite !euclid_vdist. congruence. }
  assert (HN : length (mheap m1) = length (mheap m)) by congruence.
  exists idx, s, pa, pb. eexists. eexists. exists (length (mheap m1)).
  split; [auto|]. split; [auto|]. split; [auto|]. split.
  { intros j r ra rb Hj Hra Hrb. rewrite <- Kk. apply (Hmin j r); [congruence|].
    apply key_of_place; rewrite PL; auto. }
  cbn [set_handles add_handle set_inserted set_next_id set_springs set_heap msprings mpos mvel mtargets].
  split; [rewrite E3; reflexivity|].
  do 8 (split; [reflexivity|]).
  split. { unfold place. rewrite (proj2 (nth_error_None (mheap m) (length (mheap m1)))); auto. lia. }
  split. { unfold place. cbn [add_handle set_handles set_inserted set_next_id set_springs set_heap mheap].
           rewrite nth_error_app2, Nat.sub_diag; auto. }
  split. { unfold anchor_point. cbn [add_handle set_handles set_inserted set_next_id set_springs set_heap mheap mhandles mnext_handle].
           rewrite E5, E4. match goal with X : Ok _ = Ok _ |- _ => idtac | _ => idtac end.
           rewrite lookup_app. 
           destruct (lookup_handle (mhandles m) (mnext_handle m)) eqn:LH.
           { exfalso. apply lookup_handle_in in LH. apply (in_map fst) in LH. apply (inv_next _ I) in LH. simpl in LH. lia. }
           cbn [lookup_handle]. rewrite Nat.eqb_refl. rewrite nth_error_app2, Nat.sub_diag; auto. }
  split; [auto|]. split; [subst m1; auto|].
  assert (AC : active m1 = (Nat.eqb (length (live_anchors ops)) 0)).
  { unfold active. rewrite E6, HC, HL, map_length. destruct (length (mhandles m)) as [|k0]; [reflexivity|].
    cbn [Nat.eqb]. apply Z.eqb_neq. lia. }
  split.
  - intros Hne. assert (AF : active m1 = false).
    { rewrite AC. destruct (live_anchors ops); [congruence|reflexivity]. }
    unfold desired_position, active in *. cbn [set_heap mcount] in *. rewrite AF in Hda, Hdb. inv_ok. auto.
  - intros He. assert (AF : active m1 = true) by (rewrite AC, He; auto).
    unfold desired_position, active in Hda, Hdb, AF. cbn [set_heap mcount mpos mtargets] in *. rewrite AF in Hda, Hdb. inv_ok.
    rewrite E1 in *.
    repeat match goal with X : of_option _ _ = Ok _ |- _ => apply of_option_ok in X end.
    repeat match goal with X : index_of_position _ _ 0 = Some _ |- _ => apply index_of_position_at in X; destruct X as (? & -> & ?) end.
    cbn [Nat.add] in *. do 4 eexists. repeat split; eauto.
Qed.

(** ** Restoration *)

Section Restore.
Context {T : Type} `{Num T}.

Lemma no_inserted_reached p w h st next fuel ops (m : model T) us :
  run fuel (model_init p w h st next) ops = Ok (m, us) -> live_inserted ops = [] -> no_inserted m.
Proof.
  intros E L. assert (Hr : reached p w h st ops m) by (exists fuel, next, us; auto).
  pose proof (reached_live _ _ _ _ _ _ Hr) as HL. unfold live_inserted in L. rewrite HL in L.
  intros n hd Hin. destruct (kind_of hd) eqn:K; auto. exfalso.
  assert (X : In n (map fst (filter is_inserted (map view (mhandles m))))).
  { apply in_map_iff. exists (n, KInsert). split; auto. apply filter_In. split; auto.
    apply in_map_iff. exists (n, hd). split; auto. unfold view. simpl. rewrite K. auto. }
  rewrite L in X. destruct X.
Qed.

Lemma restored_run p w h st next fuel ops (m : model T) us :
  let m0 := model_init p w h st next in
  run fuel m0 ops = Ok (m, us) -> live_inserted ops = [] ->
  Permutation (map ends (msprings m)) (map ends (msprings m0)) /\
  (existsb is_resize ops = false -> Permutation (msprings m) (msprings m0)) /\
  mpending m = [] /\ minserted m = [] /\ (forall b, In b (mheap m) -> b = None) /\ held_springs m = [].
Proof.
  intros m0 E L. pose proof (no_inserted_reached _ _ _ _ _ _ _ _ _ E L) as X.
  pose proof (net_run _ _ _ _ _ _ (net_init p w h st next) E) as N.
  destruct (restored _ _ N X) as (P & Hp & Hi & Hh).
  destruct (no_inserted_lists _ X) as (S0 & _).
  assert (EB : base_ids next = ids (msprings m0)) by (symmetry; apply base_springs_ids).
  assert (ND : NoDup (ids (msprings m0))).
  { rewrite <- EB. apply base_ids_nodup. }
  assert (AS : all_springs m = msprings m) by (unfold all_springs; rewrite S0, app_nil_r; auto).
  assert (AS0 : all_springs m0 = msprings m0) by (unfold all_springs; cbn [m0 model_init mhandles stolens flat_map]; apply app_nil_r).
  pose proof (net_init p w h st next) as N0. fold m0 in N0. rewrite EB in N0.
  repeat split; auto.
  - apply (perm_of_keeps snd).
    + rewrite !map_map. cbn [ends snd]. unfold ids in EB. rewrite EB in P. exact P.
    + rewrite map_map. exact ND.
    + intros x Hin. apply in_map_iff in Hin. destruct Hin as (s & <- & Hs).
      pose proof (keeps_run true (msprings m0) fuel ops m0 m us N0) as K.
      cbv zeta in K. assert (K' : Forall (keeps_topo (msprings m0)) (all_springs m)).
      { apply K; auto; [discriminate|]. rewrite AS0. apply keeps_topo_base. }
      rewrite AS in K'. apply (proj1 (Forall_forall _ _) K') in Hs as Hk.
      apply Hk. rewrite <- EB. eapply Permutation_in; [exact P|]. apply (in_map s_id). auto.
  - intros NR. apply (perm_of_keeps s_id); auto.
    + unfold ids in EB. rewrite EB in P. exact P.
    + intros s Hs. pose proof (keeps_run false (msprings m0) fuel ops m0 m us N0) as K.
      cbv zeta in K. assert (K' : Forall (keeps (msprings m0)) (all_springs m)).
      { apply K; auto. rewrite AS0. apply keeps_base. auto. }
      rewrite AS in K'. apply (proj1 (Forall_forall _ _) K') in Hs as Hk.
      apply Hk. rewrite <- EB. eapply Permutation_in; [exact P|]. apply (in_map s_id). auto.
  - apply Forall_forall. auto.
Qed.

(** ** Identifiers *)

Lemma held_stolens (m : model T) : held_springs m = stolens (mhandles m).
Proof. reflexivity. Qed.

Lemma unique_ids p w h st ops (m : model T) :
  reached p w h st ops m ->
  NoDup (map s_id (msprings m ++ held_springs m)) /\ NoDup (mpending m) /\
  incl (mpending m) (map s_id (held_springs m)) /\
  (forall id, In id (mpending m) -> ~ In id (map s_id (msprings m))).
Proof.
  intros Hr. destruct (net_reached _ _ _ _ _ _ Hr) as (next & N). rewrite held_stolens.
  pose proof (si_perm _ _ (net_s _ _ N)) as P. pose proof (si_nodup _ _ (net_s _ _ N)) as D.
  pose proof (si_pend _ _ (net_s _ _ N)) as I.
  assert (D1 : NoDup (map s_id (msprings m ++ stolens (mhandles m)))).
  { eapply Permutation_NoDup; [symmetry; exact P|auto]. }
  repeat split; auto.
  - apply NoDup_app_remove_l in D. apply NoDup_app_remove_l in D. auto.
  - intros id Hin Hs. apply I in Hin. rewrite map_app in D1.
    clear - D1 Hin Hs. unfold ids in Hin. induction (map s_id (msprings m)) as [|a l IH]; [destruct Hs|].
    simpl in D1. inversion D1; subst. destruct Hs as [->|Hs]; [|apply IH; auto].
    match goal with X : ~ In _ _ |- _ => apply X end. apply in_or_app. auto.
Qed.

(** ** Settings *)

Lemma settings_run fuel ops : forall (m m' : model T) us,
  run fuel m ops = Ok (m', us) -> mset m' = last_settings (mset m) ops.
Proof.
  induction ops as [|o ops IH]; intros m m' us E; cbn [run] in E; inv_ok; auto.
  destruct a as [m1 u1]. destruct a0 as [m2 us2]. cbn [fst snd] in *.
  match goal with X : run _ _ _ = Ok _ |- _ => apply IH in X; rewrite X end.
  match goal with X : step_op _ _ _ = Ok _ |- _ => apply settings_step in X; rewrite X end.
  unfold last_settings. cbn [fold_left]. destruct o; auto.
Qed.

(** ** The base network *)

Definition adjacent (tile : vec T) (a b : nat) (len : vec T) : Prop :=
  (a < 16 /\ b = a + 1 /\ a mod 4 <> 3 /\ len = mkV (vx tile) nzero)%nat \/
  (a < 12 /\ b = a + 4 /\ len = mkV nzero (vy tile))%nat.

Lemma base_adjacent tile a b len : In (a, b, len) (base_spring_specs (T:=T) tile) <-> adjacent tile a b len.
Proof.
  unfold base_spring_specs, mesh_w, mesh_h. cbn [flat_map seq app Nat.ltb Nat.leb Nat.mul Nat.add Nat.sub].
  split.
  - cbn [In]. intros X.
    repeat (destruct X as [X|X]; [injection X as <- <- <-; unfold adjacent;
      ((left; repeat split; [lia|discriminate]) || (right; repeat split; lia))|]). destruct X.
  - intros [(A & -> & B & ->)|(A & -> & ->)].
    + do 16 (destruct a as [|a]; [try (exfalso; apply B; reflexivity); cbn [In Nat.add]; tauto|]). lia.
    + do 12 (destruct a as [|a]; [cbn [In Nat.add]; tauto|]). lia.
Qed.

End Restore.

(** ** Facts about reachable states used by the property files *)

Section Reach.
Context {T : Type} `{Num T}.

Lemma constrain_points_map r : forall ts ps,
  length ts = length ps ->
  fst (constrain_points (T:=T) r ts ps) = map (fun tq => fst (constrain_point r (fst tq) (snd tq))) (combine ts ps).
Proof.
  induction ts as [|t ts IH]; intros [|p ps] L; try discriminate; auto.
  cbn [constrain_points combine map fst snd]. specialize (IH ps ltac:(simpl in L; lia)).
  destruct (constrain_point r t p) as [p' b]. destruct (constrain_points r ts ps) as [ps' more].
  cbn [fst] in *. rewrite IH. reflexivity.
Qed.

Lemma constrainment_reached p w h st ops (m : model T) :
  reached p w h st ops m ->
  fst (constrainment m (mpos m)) =
  if Nat.eqb (length (live_anchors ops)) 1
  then map (fun tq => fst (constrain_point (st_range (mset m)) (fst tq) (snd tq))) (combine (mtargets m) (mpos m))
  else mpos m.
Proof.
  intros Hr. pose proof (reached_active _ _ _ _ _ _ Hr) as A. pose proof (inv_reached _ _ _ _ _ _ Hr) as I.
  unfold constrainment. destruct (Nat.eqb_spec (length (live_anchors ops)) 1) as [L|L].
  - apply A in L. rewrite L. apply constrain_points_map. rewrite (inv_pos _ I), (inv_tgt _ I). auto.
  - destruct (active m); [exfalso; tauto|reflexivity].
Qed.

Lemma attachment_reached p w h st ops more (m m' : model T) fuel n i us :
  reached p w h st ops m -> lookup_handle (mhandles m) n = Some (HGrab i) ->
  run fuel m more = Ok (m', us) -> In n (map fst (live_anchors (ops ++ more))) ->
  lookup_handle (mhandles m') n = Some (HGrab i) /\ grabbed m' i.
Proof.
  intros Hr L E Hin.
  assert (X : lookup_handle (mhandles m') n = Some (HGrab i)).
  { eapply attach_run; [exact E|exact (agrees_reached _ _ _ _ _ _ Hr)|exact (inv_reached _ _ _ _ _ _ Hr)|exact L|].
    unfold live_anchors, client_after in Hin. rewrite fold_left_app in Hin. exact Hin. }
  split; auto. exists n. auto.
Qed.

Lemma grabbed_live p w h st ops (m : model T) i :
  reached p w h st ops m -> grabbed m i ->
  exists n, In (n, KGrab) (live_anchors ops) /\ lookup_handle (mhandles m) n = Some (HGrab i).
Proof.
  intros Hr (n & L). exists n. split; auto. rewrite (reached_live _ _ _ _ _ _ Hr).
  apply lookup_handle_in in L. apply in_map_iff. exists (n, HGrab i). auto.
Qed.

Lemma integrate_n_tracked n : forall (m m' : model T) b b',
  integrate_n n m b = Ok (m', b') -> mpos m' = mpos m' /\ mcount m' = mcount m /\ mhandles m' = mhandles m /\
    mtargets m' = mtargets m /\ mset m' = mset m /\ msprings m' = msprings m /\ munequal m' = munequal m /\ malive m' = malive m.
Proof.
  induction n as [|n IH]; intros m m' b b' E; cbn [integrate_n] in E; inv_ok; [repeat split|].
  destruct a as [m1 b1]. cbn [fst snd] in *. apply IH in E.
  match goal with X : integrate_once _ = Ok _ |- _ => unfold integrate_once in X;
    destruct (constrainment m (mpos m)) as [p1 c1]; inv_ok end.
  match goal with X : spring_step _ _ _ _ _ _ _ = Ok ?a |- _ => destruct a as [[[p2 v2] h2] c2] end. inv_ok.
  destruct E as (_ & ? & ? & ? & ? & ? & ? & ?). repeat split; auto.
Qed.

Lemma step_count_pos t : (0 < t)%Z -> step_count t <> O.
Proof. intros P. unfold step_count. assert (0 < (t + 15) / 16)%Z by (apply Z.div_str_pos; lia). lia. Qed.

Lemma step_grabbed p w h st ops (m m' : model T) t b i :
  reached p w h st ops m -> (Z.of_nat (length ops) < two32)%Z ->
  (2 <= length (live_anchors ops))%nat -> grabbed m i ->
  model_step t m = Ok (m', b) ->
  nth_error (mpos m') i = nth_error (mpos m) i /\
  ((0 < t)%Z -> nth_error (mvel m') i = Some vzero).
Proof.
  intros Hr Hb L G E. pose proof (inv_reached _ _ _ _ _ _ Hr) as I.
  assert (A : active m = false).
  { destruct (active m) eqn:A; auto. apply (reached_active _ _ _ _ _ _ Hr) in A. lia. }
  pose proof (reached_bound _ _ _ _ _ _ Hr Hb) as HB.
  destruct G as (n & Gn). pose proof (lookup_handle_in _ _ _ Gn) as Gi. apply (inv_grab _ I) in Gi.
  destruct (nth_error_ex (mpos m) i) as (q & Hq); [rewrite (inv_pos _ I); auto|].
  unfold model_step in E. inv_ok. destruct a as [m1 b1].
  match goal with X : integrate_n _ _ _ = Ok _ |- _ => pose proof (integrate_n_tracked _ _ _ _ _ X) as (_ & C & _);
    apply (integrate_n_grabbed _ m false m1 b1 i q) in X; auto; [destruct X as (X1 & X2)|exists n; auto] end.
  inv_ok. assert (A1 : active (set_unequal m1 ((if (t =? 0)%Z then munequal m else false) || b1)) = false).
  { unfold active in *. cbn [set_unequal mcount]. rewrite C. auto. }
  rewrite A1, andb_false_r. cbn [set_unequal mpos mvel]. split; [congruence|].
  intros P. apply X2. apply step_count_pos; auto.
Qed.

Lemma move_by_reached p w h st ops (m m' : model T) fuel n d u :
  reached p w h st ops m ->
  step_op fuel m (OpMoveAnchor n d) = Ok (m', u) ->
  (exists q, anchor_point m n = Some q /\ anchor_point m' n = Some (vadd q d)) /\
  (forall i, lookup_handle (mhandles m) n = Some (HGrab i) ->
     (forall j, j <> i -> nth_error (mpos m') j = nth_error (mpos m) j) /\
     (forall k s a b blk aid, lookup_handle (mhandles m) k = Some (HIns s a b blk aid) ->
        anchor_point m' k = anchor_point m k)) /\
  (forall s a b blk aid, lookup_handle (mhandles m) n = Some (HIns s a b blk aid) ->
     mpos m' = mpos m /\ (forall k, k <> n -> anchor_point m' k = anchor_point m k)) /\
  mvel m' = mvel m /\ msprings m' = msprings m /\ mhandles m' = mhandles m /\ mw m' = mw m /\ mh m' = mh m.
Proof.
  intros Hr E. destruct (net_reached _ _ _ _ _ _ Hr) as (next & N).
  cbn [step_op needs_model andb] in E. inv_ok.
  match goal with X : move_anchor _ _ _ = Ok _ |- _ => pose proof (move_anchor_points _ _ _ _ _ N X) as (P & Q);
    pose proof (move_anchor_rest _ _ _ _ X) as (A & B & _ & D & F & G & _) end.
  split; [exact P|]. split; [|split].
  - intros i L. rewrite L in Q. auto.
  - intros s a b blk aid L. rewrite L in Q. auto.
  - auto 10.
Qed.

Lemma live_lookup p w h st ops (m : model T) n :
  reached p w h st ops m -> In (n, KInsert) (live_anchors ops) ->
  exists s a b blk aid, lookup_handle (mhandles m) n = Some (HIns s a b blk aid).
Proof.
  intros Hr Hin. rewrite (reached_live _ _ _ _ _ _ Hr) in Hin. apply in_map_iff in Hin.
  destruct Hin as ([k hd] & Ev & Hin). unfold view in Ev. cbn [fst snd] in Ev. injection Ev as -> Ek.
  destruct hd as [i|s a b blk aid]; [discriminate|]. exists s, a, b, blk, aid.
  apply in_lookup_handle; auto. apply (inv_keys _ (inv_reached _ _ _ _ _ _ Hr)).
Qed.

Lemma inserted_reached p w h st ops (m m' : model T) fuel n o u :
  reached p w h st ops m -> In (n, KInsert) (live_anchors ops) -> ~ moves_points o n ->
  step_op fuel m o = Ok (m', u) ->
  anchor_point m n <> None /\ anchor_point m' n = anchor_point m n.
Proof.
  intros Hr Hin NM E. destruct (net_reached _ _ _ _ _ _ Hr) as (next & N).
  destruct (live_lookup _ _ _ _ _ _ _ Hr Hin) as (s & a & b & blk & aid & L). split.
  - unfold anchor_point. rewrite L.
    assert (X : nth_error (heap_live (mheap m)) blk = Some true).
    { apply (hi_heap _ (net_h _ _ N)). apply lookup_handle_in in L.
      apply in_map_iff. exists (aid, blk). split; auto. unfold live_blks. apply in_flat_map.
      exists (n, HIns s a b blk aid). split; auto. left. reflexivity. }
    apply rd_blk_live in X. destruct X as ([q f] & X). unfold rd_blk in X.
    destruct (nth_error (mheap m) blk) as [[[? ?]|]|]; try discriminate X. discriminate.
  - eapply inserted_still; eauto.
Qed.

End Reach.

Lemma first_kept n l o t t' i :
  balanced n (l ++ [o]) -> (Z.of_nat (length (l ++ [o])) < two32)%Z ->
  lock_run (tracked_init n) l = Ok t -> lock_run (tracked_init n) (l ++ [o]) = Ok t' ->
  t_first t = Some i -> (0 < held (l ++ [o]) i)%Z -> t_first t' = Some i.
Proof.
  intros B L E E' F Hh. apply balanced_app in B as B2. destruct B2 as (B1 & Bo).
  rewrite app_length in L. simpl in L.
  destruct (lock_run_spec n l B1 ltac:(lia)) as (t1 & E1 & TI).
  assert (t1 = t) by congruence. subst t1. rewrite lock_run_app, E in E'. cbn [bind lock_run] in E'.
  rewrite held_app in Hh. pose proof (held_nonneg _ _ B1) as HN.
  pose proof (held_le l) as HLe. inv_ok.
  destruct o as [j|j]; cbn [lock_do held] in *.
  - destruct (tinv_lock n (held l) t j TI) as (t2 & E2 & _ & K); auto; [specialize (HLe j); lia|].
    assert (t2 = t') by congruence. subst. apply K. auto.
  - destruct Bo as (Bj & Bp).
    destruct (tinv_unlock n (held l) t j TI) as (t2 & E2 & _ & K & _); auto.
    { intros k _. specialize (HLe k). specialize (HN k). lia. }
    assert (t2 = t') by congruence. subst. apply K; auto; lia.
Qed.

Lemma grab_nearest p w h st ops (m m' : model R) fuel n q :
  reached p w h st ops m -> step_op fuel m (OpGrab q) = Ok (m', OHandle n) ->
  exists i, nearest (mpos m) q i /\ lookup_handle (mhandles m') n = Some (HGrab i) /\
    mpos m' = mpos m /\ mvel m' = mvel m.
Proof.
  intros Hr E. unfold step_op in E. destruct (needs_model (OpGrab q) && negb (malive m))%bool; [discriminate|].
  inv_ok. destruct a as [m1 n1]. cbn [fst snd] in *.
  match goal with X : grab_anchor _ _ _ = Ok _ |- _ =>
    destruct (grab_anchor_handle _ _ _ _ _ (inv_reached _ _ _ _ _ _ Hr) X) as (i & A & B & C & D & _) end.
  exists i. split; [apply closest_index_nearest; auto|auto].
Qed.

Lemma grab_assert p w h st ops (m : model R) fuel q :
  reached p w h st ops m -> step_op fuel m (OpGrab q) = Err AssertFailed ->
  forall i r, nth_error (mpos m) i = Some r -> Rmaxv <= euclid q r.
Proof.
  intros Hr E. pose proof (inv_reached _ _ _ _ _ _ Hr) as I.
  unfold step_op in E. destruct (needs_model (OpGrab q) && negb (malive m))%bool; [discriminate|].
  unfold grab_anchor in E.
  destruct (closest_index (mpos m) q) as [i|] eqn:C; [|apply closest_index_none; auto].
  cbn [of_option bind] in E. exfalso.
  destruct (activate fuel (set_unequal m true)) as [m1|e] eqn:A.
  - cbn [bind] in E. unfold tracked_lock in E. destruct (nth_error (t_counts (mtracked m1)) i); discriminate E.
  - cbn [bind] in E. apply (activate_err _ _ m) in A; auto. congruence.
Qed.

(** A grab on a fresh model, and a second one. *)
Lemma grab_case :
  exists m m' : model R,
    reached (mkV 5 7) 90 60 (mkSettings 8 3 500) [OpGrab (mkV 5 7)] m /\
    step_op 1 m (OpGrab (mkV 5 7)) = Ok (m', OHandle 1).
Proof.
  destruct (fresh_grab_twice 0 (mkV 5 7) 90 60 (mkSettings 8 3 500) 0) as (m' & us & E).
  cbn [run] in E.
  destruct (step_op 1 (model_init (mkV 5 7) 90 60 (mkSettings 8 3 500) 0) (OpGrab (mkV 5 7))) as [[m1 u1]|] eqn:E1; [|discriminate E].
  cbn [bind fst snd] in E.
  destruct (step_op 1 m1 (OpGrab (mkV 5 7))) as [[m2 u2]|] eqn:E2; [|discriminate E].
  exists m1, m2.
  split.
  - exists 1%nat, 0%Z, [u1]. cbn [run]. rewrite E1. reflexivity.
  - destruct (handles_step _ _ _ _ _ E1) as (h1 & _ & U1). destruct (handles_step _ _ _ _ _ E2) as (h2 & _ & U2).
    rewrite E2, U2. f_equal. f_equal. f_equal. 
    unfold step_op in E1. cbn [needs_model malive model_init negb andb] in E1. unfold grab_anchor in E1. inv_ok.
    match goal with X : activate _ _ = Ok _ |- _ => apply activate_shape in X; destruct X as (tg & id & -> & _) end.
    reflexivity.
Qed.

Lemma insert_case :
  exists (m m' : model R) (n : nat),
    reached (mkV 0 0) 90 60 (mkSettings 8 3 500) [OpGrab (mkV 0 0)] m /\
    lifo_history [OpGrab (mkV 0 0)] /\
    (forall l r, place m l = Some r -> euclid (mkV 0 0) r < Rmaxv) /\
    step_op 1 m (OpInsert (mkV 0 0)) = Ok (m', OHandle n).
Proof.
  destruct (fresh_grab 0 (mkV 0 0) 90 60 (mkSettings 8 3 500) 0) as (m & E).
  assert (Hr : reached (mkV 0 0) 90 60 (mkSettings 8 3 500) [OpGrab (mkV 0 0)] m).
  { exists 1%nat, 0%Z, [OHandle 0]. cbn [run]. rewrite E. reflexivity. }
  assert (Lf : lifo_history [@OpGrab R (mkV 0 0)]) by (repeat split).
  destruct (grab_step _ _ _ _ _ E) as (Ep & Ev & Ew & Eh & Es & Ehp & _ & _ & _ & Al).
  assert (Rg : forall l r, place m l = Some r -> euclid (mkV 0 0) r < Rmaxv).
  { intros [i|b] r; unfold place; [rewrite Ep|rewrite Ehp; destruct b; discriminate].
    intros X. apply nth_error_In in X. cbn [model_init mpos] in X.
    assert (B : forall x y, 0 <= x <= 90 -> 0 <= y <= 60 -> euclid (mkV 0 0) (mkV x y) < Rmaxv).
    { intros x y Hx Hy. unfold euclid. cbn [vx vy]. 
      apply Rle_lt_trans with (sqrt (200 ^ 2)).
      - apply sqrt_le_1_alt. nra.
      - rewrite sqrt_pow2 by lra. unfold Rmaxv. apply IZR_lt. reflexivity. }
    unfold position_array, tile_size, mesh_w, mesh_n in X. cbn [map seq Nat.div Nat.modulo Nat.divmod fst snd Nat.sub vadd vx vy] in X.
    rnum. 
    repeat (destruct X as [<-|X]; [apply B; cbn; lra|]). destruct X. }
  destruct (net_reached _ _ _ _ _ _ Hr) as (next & N).
  destruct (insert_returns (base_ids next) 0 m (mkV 0 0) N (base_ids_nonempty next)) as (m' & n & E').
  - apply (rinv_reached _ _ _ _ _ _ Hr Lf).
  - eapply predicts_same; [apply (predicts_fresh (mkV 0 0) 90 60 (mkSettings 8 3 500) 0)| | | |]; auto.
  - rewrite Al. reflexivity.
  - exact Rg.
  - exists m, m', n. auto.
Qed.
