(** Structural invariants of the wobbly model, for any arithmetic. *)

From Coq Require Import ZArith Bool List Lia Permutation.
From Verif Require Import Num Geometry Outcome Wobbly LemBasic.
Import ListNotations.
Local Open Scope Z_scope.

Section Inv.
Context {T : Type} `{Num T}.
Implicit Types (m : model T).

(** ** Shapes of the sub-operations *)

Lemma position_array_length init tile : length (position_array init tile) = 16%nat.
Proof. unfold position_array. rewrite map_length, seq_length. reflexivity. Qed.

(** Heaps that differ only in the force halves. *)
Definition heap_pos (h : list (block T)) : list (option (vec T)) := map (option_map fst) h.
(** Heaps with the same allocated blocks. *)
Definition heap_live (h : list (block T)) : list bool :=
  map (fun b => match b with Some _ => true | None => false end) h.

Lemma heap_live_pos (h h' : list (block T)) : heap_pos h = heap_pos h' -> heap_live h = heap_live h'.
Proof.
  unfold heap_pos, heap_live. revert h'; induction h; intros [|b h'] E; simpl in *; try discriminate; auto.
  inversion E. f_equal; auto. destruct a, b; simpl in *; auto; discriminate.
Qed.

Lemma heap_pos_length h h' : heap_pos h = heap_pos h' -> length h = length h'.
Proof. intros E. apply (f_equal (@length _)) in E. unfold heap_pos in E. rewrite !map_length in E. auto. Qed.

Lemma heap_live_length h h' : heap_live h = heap_live h' -> length h = length h'.
Proof. intros E. apply (f_equal (@length _)) in E. unfold heap_live in E. rewrite !map_length in E. auto. Qed.

Lemma rd_blk_ok (h : list (block T)) b pf : rd_blk h b = Ok pf <-> nth_error h b = Some (Some pf).
Proof. unfold rd_blk. destruct (nth_error h b) as [[?|]|]; split; intros E; inversion E; auto. Qed.

Lemma add_force_shape (mm mm' : mem T) l f :
  add_force mm l f = Ok mm' ->
  m_pos mm' = m_pos mm /\ length (m_force mm') = length (m_force mm) /\
  heap_pos (m_heap mm') = heap_pos (m_heap mm).
Proof.
  unfold add_force. destruct l; intros E; inv_ok; simpl.
  - rewrite list_set_length. auto.
  - repeat split; auto. unfold heap_pos. rewrite list_set_map.
    apply list_set_same. apply rd_blk_ok in Ha. rewrite (map_nth_error _ _ _ Ha). reflexivity.
Qed.

Lemma apply_forces_shape k s (mm mm' : mem T) b :
  apply_forces k s mm = Ok (mm', b) ->
  m_pos mm' = m_pos mm /\ length (m_force mm') = length (m_force mm) /\
  heap_pos (m_heap mm') = heap_pos (m_heap mm).
Proof.
  unfold apply_forces. intros E. inv_ok.
  destruct (spring_deltas a a0 (s_len s)) as [da db]. inv_ok.
  apply add_force_shape in Ha1. apply add_force_shape in Ha2.
  intuition congruence.
Qed.

Lemma apply_all_shape k ss (mm mm' : mem T) b0 b :
  apply_all k ss mm b0 = Ok (mm', b) ->
  m_pos mm' = m_pos mm /\ length (m_force mm') = length (m_force mm) /\
  heap_pos (m_heap mm') = heap_pos (m_heap mm).
Proof.
  revert mm b0; induction ss; intros mm b0 E; simpl in E; inv_ok; auto.
  destruct a0 as [m1 b1]. apply apply_forces_shape in Ha. apply IHss in E. simpl in E.
  intuition congruence.
Qed.

Lemma integrate_points_length fr cs ps vs fs ps' vs' b :
  integrate_points (T:=T) fr cs ps vs fs = (ps', vs', b) ->
  length ps' = length ps /\ length vs' = length vs.
Proof.
  revert ps vs fs ps' vs' b; induction cs; intros [|p ps] [|v vs] [|f fs] ps' vs' b E; simpl in E;
    try (inversion E; subst; simpl; auto; fail).
  destruct (integrate_points fr cs ps vs fs) as [[ps1 vs1] more] eqn:E1.
  apply IHcs in E1. destruct (0 <? a).
  - inversion E; subst; simpl; lia.
  - destruct (euler fr p v f) as [[p' v'] b']. inversion E; subst; simpl; lia.
Qed.

Lemma spring_step_shape k fr cs ss pos vel heap pos' vel' heap' b :
  spring_step (T:=T) k fr cs ss pos vel heap = Ok (pos', vel', heap', b) ->
  length pos' = length pos /\ length vel' = length vel /\ heap_pos heap' = heap_pos heap.
Proof.
  unfold spring_step, calculate_forces. intros E. inv_ok. destruct a as [mm fe].
  apply apply_all_shape in Ha. simpl in Ha.
  destruct (integrate_points fr cs pos vel (m_force mm)) as [[p1 v1] mv] eqn:E1.
  inv_ok. apply integrate_points_length in E1. intuition.
Qed.

Lemma constrain_points_length r ts ps : length (fst (constrain_points (T:=T) r ts ps)) = length ps.
Proof.
  revert ps; induction ts; intros [|p ps]; simpl; auto.
  destruct (constrain_point r a p) as [p' b]. specialize (IHts ps).
  destruct (constrain_points r ts ps). simpl in *. lia.
Qed.

Lemma constrainment_length m ps : length (fst (constrainment m ps)) = length ps.
Proof. unfold constrainment. destruct (active m); auto. apply constrain_points_length. Qed.

Lemma model_eta m tg id : mtargets m = tg -> mnext_id m = id -> set_targets (set_next_id m id) tg = m.
Proof. intros <- <-. destruct m; reflexivity. Qed.

Lemma recalc_targets_shape fuel m m' :
  recalc_targets fuel m = Ok m' ->
  exists p, m' = set_targets (set_next_id m (mnext_id m + base_spring_count))
                             (position_array p (tile_size (mw m) (mh m))).
Proof. unfold recalc_targets. intros E; inv_ok. eexists; reflexivity. Qed.

(** The effect of activating or deactivating the target mesh. *)
Definition retarget m (c : Z) m' : Prop :=
  exists tg id, m' = set_targets (set_next_id (set_count m c) id) tg /\
    mnext_id m <= id /\ (length (mtargets m) = 16%nat -> length tg = 16%nat).

Lemma base_count_nonneg : 0 <= base_spring_count.
Proof. unfold base_spring_count. lia. Qed.

Lemma activate_shape fuel m m' :
  activate fuel m = Ok m' -> retarget m (mcount m + 1) m'.
Proof.
  unfold activate, retarget. intros E.
  destruct (mcount (set_count m (mcount m + 1)) =? 1).
  - apply recalc_targets_shape in E. destruct E as (p & ->). do 2 eexists. split; [reflexivity|].
    split; [simpl; pose proof base_count_nonneg; lia|]. intros _. apply position_array_length.
  - inv_ok. exists (mtargets m), (mnext_id m). repeat split; auto; try lia.
Qed.

Lemma deactivate_shape fuel m m' :
  deactivate fuel m = Ok m' -> retarget m (mcount m - 1) m'.
Proof.
  unfold deactivate, retarget. intros E.
  destruct (mcount (set_count m (mcount m - 1)) =? 1).
  - apply recalc_targets_shape in E. destruct E as (p & ->). do 2 eexists. split; [reflexivity|].
    split; [simpl; pose proof base_count_nonneg; lia|]. intros _. apply position_array_length.
  - inv_ok. exists (mtargets m), (mnext_id m). repeat split; auto; try lia.
Qed.

Lemma target_position_shape fuel m p m' :
  target_position fuel m = Ok (p, m') -> exists id, m' = set_next_id m id /\ mnext_id m <= id.
Proof.
  unfold target_position. destruct (active m); intros E; inv_ok.
  - exists (mnext_id m'). split; [destruct m'; reflexivity | lia].
  - eexists; split; [reflexivity|]. pose proof base_count_nonneg; lia.
Qed.

Lemma integrate_once_shape m m' b :
  integrate_once m = Ok (m', b) ->
  exists p v h, m' = set_sim m p v h /\ length p = length (mpos m) /\ length v = length (mvel m) /\
    heap_pos h = heap_pos (mheap m).
Proof.
  unfold integrate_once. pose proof (constrainment_length m (mpos m)) as L.
  destruct (constrainment m (mpos m)) as [pos1 more1]. simpl in L. intros E. inv_ok.
  destruct a as [[[p2 v2] h2] more2]. inv_ok. apply spring_step_shape in Ha.
  exists p2, v2, h2. intuition congruence.
Qed.

Lemma integrate_n_shape n m b0 m' b :
  integrate_n n m b0 = Ok (m', b) ->
  exists p v h, m' = set_sim m p v h /\ length p = length (mpos m) /\ length v = length (mvel m) /\
    heap_pos h = heap_pos (mheap m).
Proof.
  revert m b0; induction n; intros m b0 E; simpl in E; inv_ok.
  - exists (mpos m'), (mvel m'), (mheap m'). repeat split; auto. destruct m'; reflexivity.
  - destruct a as [m1 b1]. apply integrate_once_shape in Ha. destruct Ha as (p & v & h & -> & L1 & L2 & L3).
    apply IHn in E. destruct E as (p' & v' & h' & -> & L1' & L2' & L3').
    exists p', v', h'. simpl in *. repeat split; try congruence.
Qed.

Lemma model_step_shape t m m' b :
  model_step t m = Ok (m', b) ->
  exists p v h, m' = set_unequal (set_sim m p v h) b /\
    (length (mpos m) = 16%nat -> length (mtargets m) = 16%nat -> length p = 16%nat) /\
    length v = length (mvel m) /\ heap_pos h = heap_pos (mheap m).
Proof.
  unfold model_step. intros E. inv_ok. destruct a as [m1 b1]. inv_ok.
  apply integrate_n_shape in Ha. destruct Ha as (p & v & h & -> & L1 & L2 & L3).
  set (bb := (if t =? 0 then munequal m else false) || b1).
  destruct (negb bb && active (set_unequal (set_sim m p v h) bb)) eqn:Eb.
  - exists (mtargets m), v, h. split; [destruct m; reflexivity|]. auto.
  - exists p, v, h. split; [reflexivity|]. split; auto. congruence.
Qed.

Lemma update_inserted_shape f l h h' :
  update_inserted (T:=T) f l h = Ok h' -> heap_live h' = heap_live h.
Proof.
  revert h; induction l as [|[a b] l IH]; intros h E; simpl in E; inv_ok; auto.
  apply IH in E. rewrite E. unfold heap_live. rewrite list_set_map. apply list_set_same.
  apply rd_blk_ok in Ha. rewrite (map_nth_error _ _ _ Ha). reflexivity.
Qed.

Lemma move_model_by_shape d m m' :
  move_model_by d m = Ok m' ->
  exists h, m' = set_heap (set_targets (set_pos m (map (fun p => vadd p d) (mpos m)))
                                       (map (fun p => vadd p d) (mtargets m))) h /\
    heap_live h = heap_live (mheap m).
Proof.
  unfold move_model_by. intros E; inv_ok. apply update_inserted_shape in Ha. simpl in Ha. eauto.
Qed.

Lemma resize_model_shape fuel w h m m' :
  resize_model fuel w h m = Ok m' ->
  m' = m \/
  exists porigin torigin id hp,
    let f := mkV (ndiv w (mw m)) (ndiv h (mh m)) in
    m' = set_size (set_heap (set_springs (set_targets (set_pos (set_next_id m id)
             (map (rescale porigin f) (mpos m))) (map (rescale torigin f) (mtargets m)))
             (map (scale_length f) (msprings m)) (mpending m)) hp) w h /\
    heap_live hp = heap_live (mheap m) /\ mnext_id m <= id.
Proof.
  unfold resize_model. destruct (negb _); [discriminate|].
  destruct (vequals _ _); intros E; inv_ok; auto. right.
  destruct a as [po m1]. apply target_position_shape in Ha. destruct Ha as (id & -> & Hid). inv_ok.
  apply update_inserted_shape in Ha0. simpl in *.
  exists po, a, id, a0. repeat split; auto.
Qed.

(** ** Handles *)

Lemma lookup_handle_in l n (h : handle T) : lookup_handle l n = Some h -> In (n, h) l.
Proof.
  induction l as [|[i x] l IH]; simpl; try discriminate.
  destruct (Nat.eqb_spec i n); intros E; [inversion E; subst; auto | auto].
Qed.

Lemma lookup_handle_none l n : lookup_handle (T:=T) l n = None <-> ~ In n (map fst l).
Proof.
  induction l as [|[i x] l IH]; simpl; [tauto|].
  destruct (Nat.eqb_spec i n); split; intros E; try discriminate; subst; try tauto.
Qed.

Lemma in_lookup_handle l n (h : handle T) :
  NoDup (map fst l) -> In (n, h) l -> lookup_handle l n = Some h.
Proof.
  induction l as [|[i x] l IH]; simpl; intros ND Hin; [tauto|].
  inversion ND; subst. destruct Hin as [E|Hin].
  - inversion E; subst. rewrite Nat.eqb_refl. auto.
  - destruct (Nat.eqb_spec i n); auto. subst. exfalso. apply H2.
    apply in_map_iff. exists (n, h); auto.
Qed.

Lemma remove_handle_perm l n (h : handle T) :
  NoDup (map fst l) -> lookup_handle l n = Some h ->
  exists l1 l2, l = l1 ++ (n, h) :: l2 /\ remove_handle l n = l1 ++ l2.
Proof.
  induction l as [|[i x] l IH]; simpl; intros ND E; [discriminate|]. inversion ND; subst.
  unfold remove_handle in *. simpl. destruct (Nat.eqb_spec i n).
  - inversion E; subst. exists [], l. split; auto. simpl.
    apply filter_all. intros [j y] Hin. simpl.
    destruct (Nat.eqb_spec j n); auto. subst. exfalso. apply H2. apply in_map_iff. exists (n, y); auto.
  - destruct (IH H3 E) as (l1 & l2 & -> & E2). exists ((i, x) :: l1), l2. simpl. rewrite E2. auto.
Qed.

(** Number of live grabs of mesh point [i]. *)
Definition is_grab_of (i : nat) (ih : nat * handle T) : bool :=
  match snd ih with HGrab j => Nat.eqb j i | _ => false end.
Definition grabs (i : nat) (l : list (nat * handle T)) : Z :=
  Z.of_nat (length (filter (is_grab_of i) l)).

Lemma grabs_app i l l' : grabs i (l ++ l') = grabs i l + grabs i l'.
Proof. unfold grabs. rewrite filter_app, app_length. lia. Qed.

Record Inv m : Prop := {
  inv_pos : length (mpos m) = 16%nat;
  inv_vel : length (mvel m) = 16%nat;
  inv_tgt : length (mtargets m) = 16%nat;
  inv_cnt : length (t_counts (mtracked m)) = 16%nat;
  inv_count : mcount m = Z.of_nat (length (mhandles m));
  inv_locks : forall i, (i < 16)%nat ->
    nth_error (t_counts (mtracked m)) i = Some (u32 (grabs i (mhandles m)));
  inv_keys : NoDup (map fst (mhandles m));
  inv_next : forall n, In n (map fst (mhandles m)) -> (n < mnext_handle m)%nat;
  inv_grab : forall n i, In (n, HGrab i) (mhandles m) -> (i < 16)%nat }.

Lemma inv_init p w h st next : Inv (model_init p w h st next).
Proof.
  constructor; simpl; auto; try (apply position_array_length); try constructor; try tauto.
  intros i Hi. do 16 (destruct i as [|i]; [reflexivity|]). lia.
Qed.

Lemma u32_add a b : u32 (u32 a + b) = u32 (a + b).
Proof. unfold u32. rewrite Zplus_mod_idemp_l. auto. Qed.
Lemma u32_sub a b : u32 (u32 a - b) = u32 (a - b).
Proof. unfold u32. rewrite Zminus_mod_idemp_l. auto. Qed.

Lemma closest_from_range pts pos i best d j :
  closest_from (T:=T) pts pos i best d = Some j ->
  best = Some j \/ (i <= j < i + length pts)%nat.
Proof.
  revert i best d; induction pts; intros i best d E; simpl in E; auto.
  destruct (nltb (vdist pos a) d); apply IHpts in E; destruct E as [E|E]; simpl; auto; try lia.
  right. inversion E; lia.
Qed.

Lemma inv_retarget m m' : Inv m -> retarget m (mcount m) m' -> Inv m'.
Proof.
  intros I (tg & id & -> & _ & L). destruct I. constructor; simpl; auto.
Qed.

Lemma tracked_lock_shape i t t' :
  tracked_lock i t = Ok t' ->
  exists c, nth_error (t_counts t) i = Some c /\ t_counts t' = list_set i (u32 (c + 1)) (t_counts t).
Proof. unfold tracked_lock. intros E. inv_ok. simpl. eauto. Qed.

Lemma tracked_unlock_shape i t t' :
  tracked_unlock i t = Ok t' ->
  exists c, nth_error (t_counts t) i = Some c /\ t_counts t' = list_set i (u32 (c - 1)) (t_counts t).
Proof. unfold tracked_unlock. intros E. inv_ok. simpl. eauto. Qed.

Lemma inv_grab_anchor fuel p m m' n :
  Inv m -> grab_anchor fuel p m = Ok (m', n) -> Inv m'.
Proof.
  unfold grab_anchor. intros I E. inv_ok.
  apply activate_shape in Ha0. destruct Ha0 as (tg & id & -> & _ & L). simpl in *.
  apply tracked_lock_shape in Ha1. destruct Ha1 as (c & Hc & Ht).
  assert (Hi : (a < 16)%nat).
  { destruct I as [? ? ? HC ? ? ? ? ?]. rewrite <- HC. apply nth_error_Some. rewrite Hc. discriminate. }
  destruct I as [? ? Htg HC HN HL HK HX HG]. constructor; simpl; auto.
  - rewrite Ht, list_set_length. auto.
  - rewrite app_length; simpl. lia.
  - intros i Hi'. rewrite Ht, nth_error_list_set, HC.
    rewrite grabs_app. unfold grabs at 2. simpl. unfold is_grab_of; simpl.
    destruct (Nat.eqb_spec a i); simpl.
    + subst. rewrite (proj2 (Nat.ltb_lt i 16)) by auto. rewrite HL in Hc by auto. inversion Hc.
      rewrite u32_add. reflexivity.
    + rewrite HL by auto. f_equal. f_equal. lia.
  - rewrite map_app. simpl. apply NoDup_snoc; auto. intros Hin. apply HX in Hin. lia.
  - intros k. rewrite map_app, in_app_iff. simpl. intros [Hk|[Hk|[]]]; [apply HX in Hk|]; lia.
  - intros k i. rewrite in_app_iff. simpl. intros [Hk|[Hk|[]]]; [eauto|]. inversion Hk; subst; auto.
Qed.

Lemma install_anchor_shape p m m' hd :
  install_anchor p m = Ok (m', hd) ->
  exists idx found da db,
    let b := length (mheap m) in
    let id1 := mnext_id m + 1 in
    let id2 := id1 + 1 in
    find_spring (mem_of m) p (msprings m) = Ok idx /\
    nth_error (msprings m) idx = Some found /\
    hd = HIns found id1 id2 b (mnext_anchor m) /\
    let m1 := set_heap m (mheap m ++ [Some (p, vzero)]) in
    (exists pa, rd_pos (mem_of m1) (s_pa found) = Ok pa /\ desired_position m1 pa = Ok da) /\
    (exists pb, rd_pos (mem_of m1) (s_pb found) = Ok pb /\ desired_position m1 pb = Ok db) /\
    m' = set_inserted (set_next_id (set_springs m1
           (list_del idx (msprings m) ++
            [mkSpring (LBlk b) (s_fa found) (LBlk b) (s_pa found) (vsub da p) id1;
             mkSpring (LBlk b) (s_fb found) (LBlk b) (s_pb found) (vsub db p) id2]) (mpending m)) id2)
           (minserted m ++ [(mnext_anchor m, b)]) (mnext_anchor m + 1).
Proof.
  unfold install_anchor. intros E. inv_ok.
  exists a, a0, a3, a4. simpl. repeat split; eauto.
Qed.

Lemma inv_add_ins m x y z b w m' :
  Inv m -> m' = add_handle m (HIns x y z b w) ->
  forall k, Inv (set_count m' k) <-> k = mcount m + 1.
Proof.
  intros I -> k. destruct I as [? ? Htg HC HN HL HK HX HG]. split.
  - intros [_ _ _ _ E _ _ _ _]. simpl in E. rewrite app_length in E; simpl in E. lia.
  - intros ->. constructor; simpl; auto.
    + rewrite app_length; simpl. lia.
    + intros i Hi. rewrite grabs_app, HL by auto. f_equal. f_equal. unfold grabs; simpl. lia.
    + rewrite map_app. simpl. apply NoDup_snoc; auto. intros Hin. apply HX in Hin. lia.
    + intros j. rewrite map_app, in_app_iff. simpl. intros [Hk|[Hk|[]]]; [apply HX in Hk|]; lia.
    + intros j i. rewrite in_app_iff. simpl. intros [Hk|[Hk|[]]]; [eauto|]. inversion Hk.
Qed.

Lemma inv_insert_anchor fuel p m m' n :
  Inv m -> insert_anchor fuel p m = Ok (m', n) -> Inv m'.
Proof.
  unfold insert_anchor. intros I E. inv_ok.
  apply activate_shape in Ha. destruct Ha as (tg & id & -> & _ & L).
  destruct a0 as [m1 hd]. apply install_anchor_shape in Ha0.
  destruct Ha0 as (idx & found & da & db & _ & _ & -> & _ & _ & ->).
  destruct I as [? ? Htg HC HN HL HK HX HG]. simpl in *. constructor; simpl; auto.
  - rewrite app_length; simpl. lia.
  - intros i Hi. rewrite grabs_app, HL by auto. f_equal. f_equal. unfold grabs; simpl. lia.
  - rewrite map_app. simpl. apply NoDup_snoc; auto. intros Hin. apply HX in Hin. lia.
  - intros j. rewrite map_app, in_app_iff. simpl. intros [Hk|[Hk|[]]]; [apply HX in Hk|]; lia.
  - intros j i. rewrite in_app_iff. simpl. intros [Hk|[Hk|[]]]; [eauto|]. inversion Hk.
Qed.

Lemma release_strategy_ins_shape stolen id1 id2 b aid m m' :
  release_strategy (HIns stolen id1 id2 b aid) m = Ok m' ->
  exists hp r2 r1 r0,
    free_blk (mheap m) b = Ok hp /\
    spring_remover id2 (msprings m) (mpending m) = Ok r2 /\
    spring_remover id1 (fst r2) (snd r2) = Ok r1 /\
    spring_replacer stolen (fst r1) (snd r1) = Ok r0 /\
    m' = set_springs (set_heap (set_inserted m
            (filter (fun ab => negb (fst ab =? aid)) (minserted m)) (mnext_anchor m)) hp)
            (fst r0) (snd r0).
Proof.
  unfold release_strategy. intros E. inv_ok. simpl in *.
  do 4 eexists. repeat split; eauto.
Qed.

Lemma inv_release_anchor fuel n m m' :
  Inv m -> release_anchor fuel n m = Ok m' -> Inv m'.
Proof.
  unfold release_anchor. intros I E.
  destruct (lookup_handle (mhandles m) n) as [hd|] eqn:EL; [|inv_ok; auto].
  destruct (malive m); [|discriminate]. inv_ok.
  destruct (remove_handle_perm _ _ _ (inv_keys _ I) EL) as (l1 & l2 & El & Er).
  rewrite Er in Ha.
  assert (HC := inv_cnt _ I).
  assert (HGr := inv_grab _ I).
  destruct I as [? ? Htg _ HN HL HK HX HG]. rewrite El in *.
  assert (K1 : NoDup (map fst (l1 ++ l2))).
  { rewrite map_app in *. simpl in HK. apply NoDup_remove in HK. tauto. }
  assert (K2 : forall k, In k (map fst (l1 ++ l2)) -> (k < mnext_handle m)%nat).
  { intros k Hk. apply HX. rewrite map_app in *. simpl. rewrite in_app_iff in *. simpl. tauto. }
  assert (K3 : forall k i, In (k, HGrab i) (l1 ++ l2) -> (i < 16)%nat).
  { intros k i Hk. apply (HG k i). rewrite in_app_iff in *. simpl. tauto. }
  assert (KN : mcount m - 1 = Z.of_nat (length (l1 ++ l2))).
  { rewrite HN, !app_length. simpl. lia. }
  apply deactivate_shape in E. destruct E as (tg & id & -> & _ & L).
  destruct hd as [i | stolen id1 id2 b aid].
  - simpl in Ha. inv_ok. apply tracked_unlock_shape in Ha0. destruct Ha0 as (c & Hc & Ht).
    assert (Hi : (i < 16)%nat).
    { rewrite <- HC. apply nth_error_Some. rewrite Hc. discriminate. }
    constructor; simpl; auto.
    + rewrite Ht, list_set_length. auto.
    + intros j Hj. rewrite Ht, nth_error_list_set, HC.
      specialize (HL j Hj). rewrite !grabs_app in *. unfold grabs at 2 in HL. simpl in HL.
      unfold is_grab_of at 1 in HL; simpl in HL.
      destruct (Nat.eqb_spec i j); simpl.
      * subst. rewrite (proj2 (Nat.ltb_lt j 16)) by auto.
        rewrite Hc in HL. inversion HL.
        rewrite u32_sub. f_equal. f_equal. unfold grabs. simpl length. lia.
      * rewrite HL. reflexivity.
  - apply release_strategy_ins_shape in Ha.
    destruct Ha as (hp & r2 & r1 & r0 & _ & _ & _ & _ & ->). simpl in *.
    constructor; simpl; auto.
    intros j Hj. rewrite (HL j Hj). rewrite !grabs_app. f_equal.
Qed.

Lemma inv_move_anchor n d m m' : Inv m -> move_anchor n d m = Ok m' -> Inv m'.
Proof.
  unfold move_anchor. intros I E.
  destruct (lookup_handle (mhandles m) n) as [hd|]; [|discriminate].
  destruct (malive m); [|discriminate]. destruct I.
  destruct (active m); destruct hd; inv_ok; constructor; simpl; auto;
    rewrite ?list_set_length, ?map_length; auto.
Qed.

Lemma inv_step_op fuel m o m' u : Inv m -> step_op fuel m o = Ok (m', u) -> Inv m'.
Proof.
  intros I. unfold step_op. destruct (needs_model o && negb (malive m)); [discriminate|].
  destruct o; intros E; inv_ok.
  - destruct a as [m1 k]. eapply inv_grab_anchor; eauto.
  - destruct a as [m1 k]. eapply inv_insert_anchor; eauto.
  - eapply inv_move_anchor; eauto.
  - eapply inv_release_anchor; eauto.
  - destruct a as [m1 k]. apply model_step_shape in Ha. destruct Ha as (pp & v & h & -> & L1 & L2 & L3).
    destruct I. constructor; simpl; auto; congruence.
  - apply move_model_by_shape in Ha. destruct Ha as (h & -> & Hh).
    destruct I. constructor; simpl; auto; rewrite map_length; auto.
  - unfold move_model_to in Ha. inv_ok. destruct a as [q m1].
    apply target_position_shape in Ha0. destruct Ha0 as (id & -> & _).
    apply move_model_by_shape in Ha. destruct Ha as (h & -> & Hh).
    destruct I. constructor; simpl; auto; rewrite map_length; auto.
  - apply resize_model_shape in Ha. destruct Ha as [->|(po & to & id & hp & -> & _)]; auto.
    destruct I. constructor; simpl; auto; rewrite map_length; auto.
  - destruct I. constructor; simpl; auto.
  - destruct I. constructor; simpl; auto.
Qed.

Lemma run_inv (P : model T -> Prop) fuel :
  (forall m o m' u, P m -> step_op fuel m o = Ok (m', u) -> P m') ->
  forall ops m m' us, P m -> run fuel m ops = Ok (m', us) -> P m'.
Proof.
  intros Hs. induction ops; intros m m' us Hm E; simpl in E; inv_ok; auto.
  destruct a0 as [m1 u1]. destruct a1 as [m2 us2]. simpl in *. inv_ok. eauto.
Qed.

Lemma inv_run fuel ops m m' us : Inv m -> run fuel m ops = Ok (m', us) -> Inv m'.
Proof. apply run_inv. intros. eapply inv_step_op; eauto. Qed.

End Inv.
