(** Models of one process do not disturb each other: what a model does does not
    depend on the numbers that name its springs. *)

From Coq Require Import ZArith Reals Bool List Lia Lra Permutation.
From Flocq Require Import Core IEEE754.BinarySingleNaN Relative.
From Verif Require Import Num Geometry Outcome Wobbly Process Spec SpecProcess LemBasic LemInv LemSprings LemHistory LemNetwork LemMoves LemAnchorFacts.
Import ListNotations.
Local Open Scope Z_scope.

Section Rename.
Context {T : Type} `{Num T}.
Implicit Types (m : model T) (s : spring T).

Definition rs (g : Z -> Z) s : spring T := mkSpring (s_fa s) (s_fb s) (s_pa s) (s_pb s) (s_len s) (g (s_id s)).
Definition rh (g : Z -> Z) (h : handle T) : handle T :=
  match h with HGrab i => HGrab i | HIns s a b k aid => HIns (rs g s) (g a) (g b) k aid end.
Definition rnh (g : Z -> Z) (nh : nat * handle T) : nat * handle T := (fst nh, rh g (snd nh)).

(** [m] with its springs named by [g] and its counter [d] further. *)
Definition rn (g : Z -> Z) (d : Z) m : model T :=
  mkModel (mw m) (mh m) (mtracked m) (mtargets m) (mcount m) (mpos m) (mvel m) (map (rs g) (msprings m))
          (map g (mpending m)) (minserted m) (mnext_anchor m) (mheap m) (mnext_id m + d)
          (mset m) (munequal m) (map (rnh g) (mhandles m)) (mnext_handle m) (malive m).

Definition on_res {A B} (f : A -> B) (r : res A) : res B := match r with Ok a => Ok (f a) | Err e => Err e end.
Definition lift {X} g d (r : model T * X) : model T * X := (rn g d (fst r), snd r).

Lemma bind_on_res {A B C} (f : A -> B) (r : res A) (k : B -> res C) :
  bind (on_res f r) k = bind r (fun a => k (f a)).
Proof. destruct r; auto. Qed.
Lemma on_res_bind {A B C} (f : B -> C) (r : res A) (k : A -> res B) :
  on_res f (bind r k) = bind r (fun a => on_res f (k a)).
Proof. destruct r; auto. Qed.
Lemma bind_ext {A B} (r : res A) (k k' : A -> res B) : (forall a, k a = k' a) -> bind r k = bind r k'.
Proof. intros E. destruct r; simpl; auto. Qed.

Lemma apply_all_rs g k ss : forall (mm : mem T) b, apply_all k (map (rs g) ss) mm b = apply_all k ss mm b.
Proof.
  induction ss as [|s ss IH]; intros mm b; simpl; auto.
  change (apply_forces k (rs g s) mm) with (apply_forces k s mm). apply bind_ext. intros a. apply IH.
Qed.
Lemma spring_step_rs g k fr cs ss pos vel heap :
  spring_step (T:=T) k fr cs (map (rs g) ss) pos vel heap = spring_step k fr cs ss pos vel heap.
Proof. unfold spring_step, calculate_forces. rewrite apply_all_rs. auto. Qed.

Lemma number_springs_rs (l : list (nat * nat * vec T)) : forall d n,
  number_springs l (n + d) = map (rs (fun x => x + d)) (number_springs l n).
Proof.
  induction l as [|[[a b] len] l IH]; intros d n; simpl; auto.
  replace (n + d + 1) with (n + 1 + d) by lia. rewrite IH. auto.
Qed.
Lemma predict_loop_rs g k fr cs ss extra fuel : forall pos vel,
  predict_loop (T:=T) fuel k fr cs (map (rs g) ss) extra pos vel = predict_loop fuel k fr cs ss extra pos vel.
Proof.
  induction fuel; intros pos vel; simpl; auto. rewrite spring_step_rs. apply bind_ext.
  intros [[[p v] h] b]. destruct (extra p). destruct (b || _); auto.
Qed.

Lemma predict_rn g d fuel m extra : predict fuel (rn g d m) extra = predict fuel m extra.
Proof.
  unfold predict. cbn [rn mset mtracked mw mh mnext_id mpos mvel].
  unfold base_springs. rewrite number_springs_rs, predict_loop_rs. auto.
Qed.

Lemma rn_next g d m : set_next_id (rn g d m) (mnext_id (rn g d m) + base_spring_count) =
  rn g d (set_next_id m (mnext_id m + base_spring_count)).
Proof. unfold rn, set_next_id. simpl. f_equal. lia. Qed.

Lemma target_position_rn g d fuel m :
  target_position fuel (rn g d m) = on_res (fun r => (fst r, rn g d (snd r))) (target_position fuel m).
Proof.
  unfold target_position. change (active (rn g d m)) with (active m). destruct (active m).
  - change (mtargets (rn g d m)) with (mtargets m). destruct (nth_error (mtargets m) 0); auto.
  - rewrite predict_rn. change (constrainment (rn g d m)) with (constrainment m).
    rewrite on_res_bind. apply bind_ext. intros p. simpl. rewrite <- rn_next. auto.
Qed.

Lemma recalc_targets_rn g d fuel m :
  recalc_targets fuel (rn g d m) = on_res (rn g d) (recalc_targets fuel m).
Proof.
  unfold recalc_targets. rewrite predict_rn, on_res_bind. apply bind_ext. intros p. rewrite rn_next. auto.
Qed.
Lemma activate_rn g d fuel m : activate fuel (rn g d m) = on_res (rn g d) (activate fuel m).
Proof.
  unfold activate. change (set_count (rn g d m) (mcount (rn g d m) + 1)) with (rn g d (set_count m (mcount m + 1))).
  change (mcount (rn g d (set_count m (mcount m + 1)))) with (mcount (set_count m (mcount m + 1))).
  destruct (_ =? 1); [apply recalc_targets_rn|auto].
Qed.
Lemma deactivate_rn g d fuel m : deactivate fuel (rn g d m) = on_res (rn g d) (deactivate fuel m).
Proof.
  unfold deactivate. change (set_count (rn g d m) (mcount (rn g d m) - 1)) with (rn g d (set_count m (mcount m - 1))).
  change (mcount (rn g d (set_count m (mcount m - 1)))) with (mcount (set_count m (mcount m - 1))).
  destruct (_ =? 1); [apply recalc_targets_rn|auto].
Qed.

Lemma integrate_once_rn g d m : integrate_once (rn g d m) = on_res (lift g d) (integrate_once m).
Proof.
  unfold integrate_once. change (constrainment (rn g d m) (mpos (rn g d m))) with (constrainment m (mpos m)).
  destruct (constrainment m (mpos m)) as [pos1 more1]. cbn [rn mset mtracked msprings mvel mheap].
  rewrite spring_step_rs, on_res_bind. apply bind_ext. intros [[[p2 v2] h2] b2]. auto.
Qed.
Lemma integrate_n_rn g d n : forall m b, integrate_n n (rn g d m) b = on_res (lift g d) (integrate_n n m b).
Proof.
  induction n; intros m b; simpl; auto. rewrite integrate_once_rn, bind_on_res, on_res_bind. apply bind_ext.
  intros [m1 b1]. apply IHn.
Qed.
Lemma model_step_rn g d t m : model_step t (rn g d m) = on_res (lift g d) (model_step t m).
Proof.
  unfold model_step. rewrite integrate_n_rn, bind_on_res, on_res_bind. apply bind_ext. intros [m1 b1].
  cbn [lift fst snd]. cbv zeta. change (munequal (rn g d m)) with (munequal m).
  set (more := (if t =? 0 then munequal m else false) || b1).
  change (active (set_unequal (rn g d m1) more)) with (active (set_unequal m1 more)).
  destruct (negb more && active (set_unequal m1 more)); auto.
Qed.

Lemma move_model_by_rn g d v m : move_model_by v (rn g d m) = on_res (rn g d) (move_model_by v m).
Proof. unfold move_model_by. rewrite on_res_bind. apply bind_ext. auto. Qed.
Lemma move_model_to_rn g d fuel p m : move_model_to fuel p (rn g d m) = on_res (rn g d) (move_model_to fuel p m).
Proof.
  unfold move_model_to. rewrite target_position_rn, bind_on_res, on_res_bind. apply bind_ext. intros [q m1].
  apply move_model_by_rn.
Qed.
Lemma scale_length_rs g f (l : list (spring T)) : map (scale_length f) (map (rs g) l) = map (rs g) (map (scale_length f) l).
Proof. rewrite !map_map. apply map_ext. auto. Qed.
Lemma resize_model_rn g d fuel w h m : resize_model fuel w h (rn g d m) = on_res (rn g d) (resize_model fuel w h m).
Proof.
  unfold resize_model. destruct (negb _); auto. cbn [rn mw mh]. fold (rn g d m).
  destruct (vequals _ _); auto.
  rewrite target_position_rn, bind_on_res, on_res_bind. apply bind_ext. intros [q m1]. cbn [fst snd].
  change (mtargets (rn g d m1)) with (mtargets m1). rewrite on_res_bind. apply bind_ext. intros to.
  cbn [set_targets set_pos set_springs rn minserted mheap msprings mpos mtargets].
  rewrite on_res_bind. apply bind_ext. intros hp. cbn [on_res]. rewrite scale_length_rs. auto.
Qed.

Lemma lookup_rn g (l : list (nat * handle T)) n :
  lookup_handle (map (rnh g) l) n = option_map (rh g) (lookup_handle l n).
Proof. induction l as [|[i h] l IH]; simpl; auto. destruct (Nat.eqb i n); auto. Qed.
Lemma remove_rn g (l : list (nat * handle T)) n :
  remove_handle (map (rnh g) l) n = map (rnh g) (remove_handle l n).
Proof. unfold remove_handle. induction l as [|[i h] l IH]; simpl; auto. destruct (Nat.eqb i n); simpl; congruence. Qed.

Lemma move_anchor_rn g d n v m : move_anchor n v (rn g d m) = on_res (rn g d) (move_anchor n v m).
Proof.
  unfold move_anchor. cbn [rn mhandles]. fold (rn g d m). rewrite lookup_rn.
  destruct (lookup_handle (mhandles m) n) as [h|]; simpl option_map; auto.
  change (malive (rn g d m)) with (malive m). destruct (malive m); auto.
  change (active (rn g d m)) with (active m).
  destruct h; simpl rh; cbv beta iota; destruct (active m); cbv zeta; rewrite on_res_bind; apply bind_ext; auto.
Qed.

Lemma grab_anchor_rn g d fuel p m :
  grab_anchor fuel p (rn g d m) = on_res (lift g d) (grab_anchor fuel p m).
Proof.
  unfold grab_anchor. change (mpos (rn g d m)) with (mpos m). rewrite on_res_bind. apply bind_ext. intros i.
  change (set_unequal (rn g d m) true) with (rn g d (set_unequal m true)).
  rewrite activate_rn, bind_on_res, on_res_bind. apply bind_ext. intros m1.
  change (mtracked (rn g d m1)) with (mtracked m1). rewrite on_res_bind. apply bind_ext. intros t.
  unfold lift, add_handle. cbn [on_res fst snd]. f_equal. f_equal.
  unfold rn, set_handles, set_tracked. simpl. rewrite map_app. auto.
Qed.

Lemma find_from_rs g (mm : mem T) p ss : forall i acc, find_from mm p i (map (rs g) ss) acc = find_from mm p i ss acc.
Proof.
  induction ss as [|s ss IH]; intros i acc; simpl; auto.
  change (find_one mm p i (rs g s) acc) with (find_one mm p i s acc). apply bind_ext. intros a. apply IH.
Qed.
Lemma list_del_map {A B} (f : A -> B) (l : list A) : forall i, list_del i (map f l) = map f (list_del i l).
Proof. induction l; intros [|i]; simpl; auto. f_equal. auto. Qed.

Lemma install_anchor_rn g d p m :
  (forall x, mnext_id m < x -> g x = x + d) ->
  install_anchor p (rn g d m) = on_res (fun r => (rn g d (fst r), rh g (snd r))) (install_anchor p m).
Proof.
  intros Sh. unfold install_anchor, find_spring. change (mem_of (rn g d m)) with (mem_of m).
  cbn [rn msprings]. fold (rn g d m). rewrite find_from_rs, on_res_bind. apply bind_ext. intros idx.
  rewrite nth_error_map. destruct (nth_error (msprings m) idx) as [found|]; [|auto].
  cbn [option_map of_option bind].
  set (hp := mheap m ++ [Some (p, vzero)]).
  change (mheap (rn g d m)) with (mheap m).
  change (set_heap (rn g d m) hp) with (rn g d (set_heap m hp)).
  change (mem_of (rn g d (set_heap m hp))) with (mem_of (set_heap m hp)).
  change (s_pa (rs g found)) with (s_pa found). change (s_pb (rs g found)) with (s_pb found).
  rewrite on_res_bind. apply bind_ext. intros pa. rewrite on_res_bind. apply bind_ext. intros pb.
  change (desired_position (rn g d (set_heap m hp)) pa) with (desired_position (set_heap m hp) pa).
  change (desired_position (rn g d (set_heap m hp)) pb) with (desired_position (set_heap m hp) pb).
  rewrite on_res_bind. apply bind_ext. intros da. rewrite on_res_bind. apply bind_ext. intros db.
  cbn [on_res fst snd]. 
  assert (G1 : g (mnext_id m + 1) = mnext_id m + d + 1) by (rewrite Sh; lia).
  assert (G2 : g (mnext_id m + 1 + 1) = mnext_id m + d + 1 + 1) by (rewrite Sh; lia).
  unfold rh, rn, set_inserted, set_next_id, set_springs, set_heap. simpl.
  rewrite list_del_map, map_app. simpl.
  unfold rs. simpl. rewrite G1, G2.
  replace (mnext_id m + 1 + 1 + d) with (mnext_id m + d + 1 + 1) by lia. reflexivity.
Qed.

Lemma insert_anchor_rn g d fuel p m :
  (forall x, mnext_id m < x -> g x = x + d) ->
  insert_anchor fuel p (rn g d m) = on_res (lift g d) (insert_anchor fuel p m).
Proof.
  intros Sh. unfold insert_anchor. change (set_unequal (rn g d m) true) with (rn g d (set_unequal m true)).
  rewrite activate_rn, bind_on_res, on_res_bind.
  destruct (activate fuel (set_unequal m true)) as [m1|e] eqn:E; [|auto]. cbn [bind].
  rewrite install_anchor_rn, bind_on_res, on_res_bind.
  - apply bind_ext. intros [m2 h]. unfold lift, add_handle. cbn [on_res fst snd]. f_equal. f_equal.
    unfold rn, set_handles. simpl. rewrite map_app. auto.
  - intros x Hx. apply Sh. apply activate_shape in E. destruct E as (tg & id & -> & Hid & _). simpl in *. lia.
Qed.

Lemma filter_rs g id (l : list (spring T)) :
  (forall x y, g x = g y -> x = y) ->
  filter (fun s => negb (s_id s =? g id)) (map (rs g) l) = map (rs g) (filter (fun s => negb (s_id s =? id)) l).
Proof.
  intros Inj. induction l as [|s l IH]; simpl; auto. destruct (Z.eqb_spec (s_id s) id) as [->|Ne].
  - rewrite Z.eqb_refl. simpl. auto.
  - destruct (Z.eqb_spec (g (s_id s)) (g id)) as [E|_]; [apply Inj in E; tauto|]. simpl. congruence.
Qed.
Lemma filter_g g id (l : list Z) :
  (forall x y, g x = g y -> x = y) ->
  filter (fun i => negb (g id =? i)) (map g l) = map g (filter (fun i => negb (id =? i)) l).
Proof.
  intros Inj. induction l as [|s l IH]; simpl; auto. destruct (Z.eqb_spec id s) as [->|Ne].
  - rewrite Z.eqb_refl. simpl. auto.
  - destruct (Z.eqb_spec (g id) (g s)) as [E|_]; [apply Inj in E; tauto|]. simpl. congruence.
Qed.

Definition both g (r : list (spring T) * list Z) := (map (rs g) (fst r), map g (snd r)).

Lemma spring_remover_rn g id (ss : list (spring T)) pd :
  (forall x y, g x = g y -> x = y) ->
  spring_remover (g id) (map (rs g) ss) (map g pd) = on_res (both g) (spring_remover id ss pd).
Proof.
  intros Inj. unfold spring_remover. rewrite filter_rs by auto. rewrite !map_length.
  destruct (_ - _)%nat as [|[|]]; auto. unfold both. simpl. rewrite map_app. auto.
Qed.
Lemma spring_replacer_rn g s (ss : list (spring T)) pd :
  (forall x y, g x = g y -> x = y) ->
  spring_replacer (rs g s) (map (rs g) ss) (map g pd) = on_res (both g) (spring_replacer s ss pd).
Proof.
  intros Inj. unfold spring_replacer. simpl s_id. rewrite filter_g by auto. rewrite !map_length.
  destruct (_ - _)%nat as [|[|]]; auto. unfold both. simpl. rewrite map_app. auto.
Qed.

Lemma release_strategy_rn g d h m :
  (forall x y, g x = g y -> x = y) ->
  release_strategy (rh g h) (rn g d m) = on_res (rn g d) (release_strategy h m).
Proof.
  intros Inj. destruct h as [i|st a b k aid]; simpl rh; unfold release_strategy.
  - change (mtracked (rn g d m)) with (mtracked m). rewrite on_res_bind. apply bind_ext. auto.
  - cbv zeta. cbn [rn set_inserted mheap]. fold (rn g d m). rewrite on_res_bind. apply bind_ext. intros hp.
    cbn [set_heap set_inserted msprings mpending rn].
    rewrite spring_remover_rn, bind_on_res, on_res_bind by auto. apply bind_ext. intros r2.
    cbn [both fst snd]. rewrite spring_remover_rn, bind_on_res, on_res_bind by auto. apply bind_ext. intros r1.
    cbn [both fst snd]. rewrite spring_replacer_rn, bind_on_res, on_res_bind by auto. apply bind_ext. intros r0.
    reflexivity.
Qed.

Lemma release_anchor_rn g d fuel n m :
  (forall x y, g x = g y -> x = y) ->
  release_anchor fuel n (rn g d m) = on_res (rn g d) (release_anchor fuel n m).
Proof.
  intros Inj. unfold release_anchor. cbn [rn mhandles]. fold (rn g d m). rewrite lookup_rn.
  destruct (lookup_handle (mhandles m) n) as [h|]; simpl option_map; auto.
  change (malive (rn g d m)) with (malive m). destruct (malive m); auto.
  rewrite remove_rn.
  change (set_handles (rn g d m) (map (rnh g) (remove_handle (mhandles m) n)) (mnext_handle (rn g d m)))
    with (rn g d (set_handles m (remove_handle (mhandles m) n) (mnext_handle m))).
  rewrite release_strategy_rn, bind_on_res, on_res_bind by auto. apply bind_ext. intros m1. apply deactivate_rn.
Qed.

Lemma step_op_rn g d fuel m o :
  (forall x y, g x = g y -> x = y) -> (forall x, mnext_id m < x -> g x = x + d) ->
  step_op fuel (rn g d m) o = on_res (lift g d) (step_op fuel m o).
Proof.
  intros Inj Sh. unfold step_op. change (malive (rn g d m)) with (malive m).
  destruct (needs_model o && negb (malive m)); auto.
  destruct o; try (rewrite on_res_bind).
  - rewrite grab_anchor_rn, bind_on_res. auto.
  - rewrite insert_anchor_rn, bind_on_res by auto. auto.
  - rewrite move_anchor_rn, bind_on_res. auto.
  - rewrite release_anchor_rn, bind_on_res by auto. auto.
  - rewrite model_step_rn, bind_on_res. auto.
  - rewrite move_model_by_rn, bind_on_res. auto.
  - rewrite move_model_to_rn, bind_on_res. auto.
  - rewrite resize_model_rn, bind_on_res. auto.
  - reflexivity.
  - reflexivity.
Qed.

End Rename.

Section Independence.
Context {T : Type} `{Num T}.
Implicit Types (m : model T) (pr : process T) (t : tale T) (l : life T).

Lemma step_op_next fuel m o m' u : step_op fuel m o = Ok (m', u) -> mnext_id m <= mnext_id m'.
Proof.
  intros E. pose proof (frame_step _ _ _ _ _ E) as F.
  unfold step_op in E. destruct (needs_model o && negb (malive m)); [discriminate|].
  destruct o; try (destruct F as (f & F & _); apply (fr_id _ _ _ F)); inv_ok.
  - destruct a as [m1 k]. unfold grab_anchor in Ha. inv_ok.
    apply activate_shape in Ha1. destruct Ha1 as (tg & id & -> & Hid & _). simpl in *. lia.
  - destruct a as [m1 k]. unfold insert_anchor in Ha. inv_ok.
    apply activate_shape in Ha0. destruct Ha0 as (tg & id & -> & Hid & _).
    destruct a0 as [m1 hd]. apply install_anchor_shape in Ha1.
    destruct Ha1 as (idx & found & da & db & _ & Hn & -> & _ & _ & ->). simpl in *. lia.
  - destruct (lookup_handle (mhandles m) n) as [hd|] eqn:L.
    + destruct (release_anchor_shape _ _ _ _ _ L Ha) as (_ & m1 & R & D).
      apply deactivate_shape in D. destruct D as (tg & id & -> & Hid & _). simpl.
      assert (mnext_id m1 = mnext_id m); [|lia].
      destruct hd; unfold release_strategy in R; inv_ok; reflexivity.
    + unfold release_anchor in Ha. rewrite L in Ha. inv_ok. lia.
Qed.

(** All the names in a model are at most its counter. *)
Lemma names_le base m : Net base m ->
  (forall s, In s (msprings m) -> s_id s <= mnext_id m) /\
  (forall i, In i (mpending m) -> i <= mnext_id m) /\
  (forall n st a b k i, In (n, HIns st a b k i) (mhandles m) ->
     s_id st <= mnext_id m /\ a <= mnext_id m /\ b <= mnext_id m).
Proof.
  intros N. pose proof (net_s _ _ N) as S. repeat split.
  - intros s Hs. apply (si_le _ _ S). eapply Permutation_in; [apply (si_perm _ _ S)|].
    unfold ids. apply in_map, in_or_app. auto.
  - intros i Hi. apply (si_le _ _ S), in_or_app. right. apply in_or_app. auto.
  - pose proof (si_hid _ _ S _ _ H0) as X. simpl in X. pose proof (live_id_le _ _ _ _ _ _ _ _ S H0). lia.
  - apply (live_id_le _ _ _ _ _ _ _ _ S H0).
  - apply (live_id_le _ _ _ _ _ _ _ _ S H0).
Qed.

Lemma rn_ext base g g' d d' m :
  Net base m -> (forall x, x <= mnext_id m -> g x = g' x) -> 
  rn g' d' m = set_next_id (rn g d m) (mnext_id m + d').
Proof.
  intros N E. destruct (names_le _ _ N) as (A & B & C).
  unfold rn, set_next_id. simpl. f_equal.
  - apply map_ext_in. intros s Hs. unfold rs. rewrite E; auto.
  - apply map_ext_in. intros i Hi. rewrite E; auto.
  - apply map_ext_in. intros [n h] Hh. unfold rnh. simpl. destruct h as [i|st a b k i]; auto.
    destruct (C _ _ _ _ _ _ Hh) as (C1 & C2 & C3). simpl. unfold rs. rewrite !E by auto. auto.
Qed.

(** [pm], in a process whose counter is [n], is [m] under other names. *)
Definition renamed m pm (n : Z) : Prop :=
  exists base g, Net base m /\ (forall x y, g x = g y -> x = y) /\
    (forall x, x <= mnext_id m -> g x <= n) /\ (forall x, mnext_id m < x -> g x = x + (n - mnext_id m)) /\
    pm = rn g (n - mnext_id m) m.

Lemma renamed_init p w h st next n :
  renamed (model_init (T:=T) p w h st next) (model_init p w h st n) (mnext_id (model_init (T:=T) p w h st n)).
Proof.
  exists (base_ids next), (fun x => x + (n - next)). split; [apply net_init|].
  split; [intros; lia|]. cbn [model_init mnext_id].
  split; [intros; lia|]. split; [intros; lia|].
  replace (n + base_spring_count - (next + base_spring_count)) with (n - next) by lia.
  unfold rn, model_init. cbn [mw mh mtracked mtargets mcount mpos mvel msprings mpending minserted mnext_anchor
    mheap mnext_id mset munequal mhandles mnext_handle malive map]. unfold base_springs.
  replace (number_springs (base_spring_specs (tile_size w h)) n)
    with (number_springs (base_spring_specs (tile_size w h)) (next + (n - next))) by (f_equal; lia).
  rewrite number_springs_rs.
  replace (next + base_spring_count + (n - next)) with (n + base_spring_count) by lia. reflexivity.
Qed.

Lemma renamed_later m pm n n' : renamed m pm n -> n <= n' -> renamed m (set_next_id pm n') n'.
Proof.
  intros (base & g & N & Inj & Lo & Hi & ->) Le.
  exists base, (fun x => if x <=? mnext_id m then g x else x + (n' - mnext_id m)).
  split; auto. split; [|split; [|split]].
  - intros x y. destruct (Z.leb_spec x (mnext_id m)), (Z.leb_spec y (mnext_id m)); intros E; auto; try lia.
    + apply Lo in H0. lia.
    + apply Lo in H1. lia.
  - intros x Hx. destruct (Z.leb_spec x (mnext_id m)); [|lia]. apply Lo in Hx. lia.
  - intros x Hx. destruct (Z.leb_spec x (mnext_id m)); [lia|auto].
  - symmetry. erewrite rn_ext with (g := g); eauto.
    + f_equal. lia.
    + intros x Hx. destruct (Z.leb_spec x (mnext_id m)); [auto|lia].
Qed.

Lemma renamed_step fuel m pm n o : renamed m pm n ->
  match step_op fuel pm o with
  | Ok (pm', u) => exists m', step_op fuel m o = Ok (m', u) /\ renamed m' pm' (mnext_id pm') /\ n <= mnext_id pm'
  | Err e => step_op fuel m o = Err e
  end.
Proof.
  intros (base & g & N & Inj & Lo & Hi & ->).
  rewrite step_op_rn by auto. destruct (step_op fuel m o) as [[m' u]|e] eqn:E; [|reflexivity].
  cbn [on_res lift fst snd]. exists m'. split; auto. pose proof (step_op_next _ _ _ _ _ E) as Le.
  cbn [rn mnext_id]. split; [|lia].
  exists base, g. split; [eapply net_step; eauto|]. split; auto. split; [|split].
  - intros x Hx. destruct (Z.le_gt_cases x (mnext_id m)) as [L|L].
    + apply Lo in L. lia.
    + rewrite Hi by lia. lia.
  - intros x Hx. rewrite Hi by lia. lia.
  - f_equal. lia.
Qed.

Lemma renamed_same m pm n : renamed m pm n -> same_but_names pm m.
Proof.
  intros (base & g & _ & _ & _ & _ & ->). unfold same_but_names. cbn [rn mw mh mtracked mtargets mcount mpos mvel msprings mpending minserted mnext_anchor
    mheap mnext_id mset munequal mhandles mnext_handle malive].
  rewrite !map_map, map_length. repeat split; auto.
  apply map_ext. intros [i h]. destruct h; reflexivity.
Qed.

Lemma renamed_settings m pm n st : renamed m pm n -> renamed (set_settings m st) (set_settings pm st) n.
Proof.
  intros (base & g & N & Inj & Lo & Hi & ->). exists base, g. split; [|split; [|split; [|split]]]; auto.
  apply (net_step base O m (OpSettings st) _ ONone); auto.
Qed.

(** ** Processes *)

(** Model number [i] and its life. *)
Definition tells (fuel : nat) pr l (sm : nat * model T) : Prop :=
  l_object l = fst sm /\
  exists st, nth_error (pr_settings pr) (fst sm) = Some st /\
  forall next, exists m,
    run fuel (model_init (l_position l) (l_width l) (l_height l) (l_settings l) next) (l_calls l) = Ok (m, l_returned l) /\
    mset m = st /\ renamed m (set_next_id (set_settings (snd sm) st) (pr_next pr)) (pr_next pr).

Definition PInv (fuel : nat) pr t : Prop :=
  fst t = pr_settings pr /\ pr_settings pr <> [] /\ Forall2 (tells fuel pr) (snd t) (pr_models pr).

Lemma pinv_start fuel : PInv fuel proc_start tale_start.
Proof. split; auto. split; [discriminate|]. constructor. Qed.

(** Other models only see the counter move. *)
Lemma tells_later fuel ss ms n ms' n' l sm :
  tells fuel (mkProc ss ms n) l sm -> n <= n' -> tells fuel (mkProc ss ms' n') l sm.
Proof.
  intros (O & st & Hst & R) Le. split; auto. exists st. split; auto. intros next.
  destruct (R next) as (m & Hr & Hs & Rn). exists m. split; auto. split; auto. cbn [pr_next] in *.
  apply (renamed_later _ _ _ n') in Rn; auto.
Qed.

Lemma run_snoc fuel m ops m1 us o m2 u :
  run fuel m ops = Ok (m1, us) -> step_op fuel m1 o = Ok (m2, u) -> run fuel m (ops ++ [o]) = Ok (m2, us ++ [u]).
Proof. intros E1 E2. rewrite (run_app _ _ _ _ _ _ E1). cbn [run]. rewrite E2. reflexivity. Qed.

Lemma Forall2_nth {A B} (P : A -> B -> Prop) la lb i b :
  Forall2 P la lb -> nth_error lb i = Some b -> exists a, nth_error la i = Some a /\ P a b.
Proof. intros F. revert i. induction F; intros [|i] E; simpl in *; try discriminate; eauto. injection E as ->. eauto. Qed.
Lemma Forall2_nth_l {A B} (P : A -> B -> Prop) la lb i a :
  Forall2 P la lb -> nth_error la i = Some a -> exists b, nth_error lb i = Some b /\ P a b.
Proof. intros F. revert i. induction F; intros [|i] E; simpl in *; try discriminate; eauto. injection E as ->. eauto. Qed.
Lemma Forall2_set {A B} (P Q : A -> B -> Prop) la lb i a b :
  Forall2 P la lb -> (forall x y, P x y -> Q x y) -> Q a b -> Forall2 Q (list_set i a la) (list_set i b lb).
Proof.
  intros F PQ. revert i. induction F as [|x y la lb Pxy F IH]; intros [|i] Qab; simpl; constructor; auto.
  clear - F PQ. induction F; constructor; auto.
Qed.
Lemma Forall2_imp {A B} (P Q : A -> B -> Prop) la lb :
  Forall2 P la lb -> (forall x y, P x y -> Q x y) -> Forall2 Q la lb.
Proof. induction 1; constructor; auto. Qed.
Lemma Forall2_map_l {A B} (P Q : A -> B -> Prop) f la lb :
  Forall2 P la lb -> (forall x y, P x y -> Q (f x) y) -> Forall2 Q (map f la) lb.
Proof. induction 1; constructor; auto. Qed.

Lemma pinv_write fuel pr t s f pr' :
  PInv fuel pr t -> write_settings pr s f = Ok pr' -> PInv fuel pr' (tell_write t s f).
Proof.
  intros (E1 & E0 & F) W. unfold write_settings in W. inv_ok. unfold tell_write. rewrite E1, Ha. 
  split; [reflexivity|]. cbn [pr_settings pr_models]. split.
  { destruct (pr_settings pr); [tauto|]. destruct s; discriminate. }
  cbn [snd]. eapply Forall2_map_l; [exact F|]. intros l sm (O & st & Hst & R).
  destruct (Nat.eqb_spec (l_object l) s) as [Es|Ne].
  - subst s. split; auto. exists (f a). rewrite O in *. rewrite Ha in Hst. injection Hst as ->. split.
    + cbn [pr_settings]. apply nth_error_list_set_eq. apply nth_error_Some. congruence.
    + intros next. destruct (R next) as (m & Hr & Hs & Rn). exists (set_settings m (f st)).
      split; [|split]; auto.
      * eapply run_snoc; [exact Hr|reflexivity].
      * cbn [pr_next]. apply (renamed_settings _ _ _ (f st)) in Rn. exact Rn.
  - split; auto. exists st. split.
    + cbn [pr_settings]. rewrite nth_error_list_set_neq; auto. congruence.
    + exact R.
Qed.

Lemma pinv_new fuel pr t p w h s pr' u :
  PInv fuel pr t -> make_model pr p w h s = Ok (pr', u) -> PInv fuel pr' (tell_new t p w h s).
Proof.
  intros (E1 & E0 & F) W. unfold make_model in W. inv_ok. unfold tell_new. rewrite E1, Ha.
  split; [reflexivity|]. split; [exact E0|]. cbn [snd pr_models]. apply Forall2_app.
  - eapply Forall2_imp; [exact F|]. intros l sm X. destruct pr as [ss ms n]. eapply tells_later; [exact X|].
    simpl. unfold base_spring_count. lia.
  - constructor; [|constructor]. split; [reflexivity|]. exists a. split; [exact Ha|]. intros next.
    exists (model_init p w h a next). split; [reflexivity|]. split; [reflexivity|].
    cbn [pr_next snd]. exact (renamed_init p w h a next (pr_next pr)).
Qed.

Lemma set_same m st : mset m = st -> set_next_id (set_settings m st) (mnext_id m) = m.
Proof. intros <-. destruct m; reflexivity. Qed.

Lemma pinv_call fuel pr t i o pr' u :
  PInv fuel pr t -> no_direct_settings (PCall i o) -> proc_do fuel pr (PCall i o) = Ok (pr', u) ->
  PInv fuel pr' (tell t (PCall i o, u)).
Proof.
  intros (E1 & E0 & F) ND W. cbn [proc_do] in W. inv_ok. destruct a0 as [pm' u']. cbn [fst snd tell] in *.
  unfold proc_model in Ha. destruct (nth_error (pr_models pr) i) as [[s sm]|] eqn:Hm; [|discriminate].
  destruct (nth_error (pr_settings pr) s) as [st|] eqn:Hst; [|discriminate]. injection Ha as <-.
  destruct (Forall2_nth _ _ _ _ _ F Hm) as (l & Hl & O & st' & Hst' & R). cbn [fst snd] in *.
  rewrite Hst in Hst'. injection Hst' as <-. rewrite Hl.
  assert (Le : pr_next pr <= mnext_id pm').
  { destruct (R 0) as (m & Hr & Hs & Rn). pose proof (renamed_step fuel _ _ _ o Rn) as X. rewrite Ha0 in X.
    destruct X as (_ & _ & _ & X). exact X. }
  split; [exact E1|]. split; [exact E0|]. cbn [snd pr_models].
  eapply Forall2_set; [exact F| |].
  - intros l' sm' X. destruct pr as [ss ms n]. eapply tells_later; [exact X|exact Le].
  - split; [exact O|]. exists st. split; [exact Hst|]. intros next.
    destruct (R next) as (m & Hr & Hs & Rn). pose proof (renamed_step fuel _ _ _ o Rn) as X. rewrite Ha0 in X.
    destruct X as (m' & E' & Rn' & _). exists m'. split; [|split].
    + cbn [live_on l_position l_width l_height l_settings l_calls l_returned]. eapply run_snoc; eauto.
    + apply settings_step in E'. destruct o; try congruence. destruct ND.
    + cbn [pr_next snd]. 
      assert (Eq : set_next_id (set_settings pm' st) (mnext_id pm') = pm'); [|rewrite Eq; exact Rn'].
      apply settings_step in Ha0. assert (mset pm' = st).
      { destruct o; try (rewrite Ha0; reflexivity). destruct ND. }
      apply set_same. auto.
Qed.

Lemma pinv_do fuel pr t o pr' u :
  PInv fuel pr t -> no_direct_settings o -> proc_do fuel pr o = Ok (pr', u) -> PInv fuel pr' (tell t (o, u)).
Proof.
  intros I ND W. destruct o; cbn [proc_do tell] in *.
  - inv_ok. destruct I as (E1 & E0 & F). split; [simpl; congruence|]. split.
    + simpl. destruct (pr_settings pr); discriminate.
    + eapply Forall2_imp; [exact F|]. intros l sm (O & st' & Hst & R). split; auto. exists st'. split; [|exact R].
      simpl. rewrite nth_error_app1; auto. apply nth_error_Some. congruence.
  - inv_ok. eapply pinv_write; eauto.
  - inv_ok. eapply pinv_write; eauto.
  - inv_ok. eapply pinv_write; eauto.
  - inv_ok. eapply pinv_write; eauto.
  - eapply pinv_new; eauto.
  - eapply pinv_new; eauto.
  - eapply pinv_call; eauto.
Qed.

Lemma pinv_run fuel os : forall pr t pr' us,
  PInv fuel pr t -> Forall no_direct_settings os -> proc_run fuel pr os = Ok (pr', us) ->
  PInv fuel pr' (fold_left tell (combine os us) t).
Proof.
  induction os as [|o os IH]; intros pr t pr' us I ND E; cbn [proc_run] in E; inv_ok; auto.
  destruct a as [pr1 u1]. destruct a0 as [pr2 us2]. cbn [fst snd] in *. inversion ND; subst.
  cbn [combine fold_left]. eapply IH; eauto. eapply pinv_do; eauto.
Qed.

Lemma pinv_reached fuel os pr us :
  Forall no_direct_settings os -> proc_run fuel proc_start os = Ok (pr, us) -> PInv fuel pr (tale_of os us).
Proof. intros ND E. eapply pinv_run; eauto. apply pinv_start. Qed.

(** ** Facts *)

Lemma models_alone fuel os pr us i l next :
  Forall no_direct_settings os -> proc_run fuel proc_start os = Ok (pr, us) ->
  nth_error (snd (tale_of os us)) i = Some l ->
  exists m alone,
    proc_model pr i = Some m /\
    run fuel (model_init (l_position l) (l_width l) (l_height l) (l_settings l) next) (l_calls l)
      = Ok (alone, l_returned l) /\
    same_but_names m alone /\
    (forall o, match proc_do fuel pr (PCall i o) with
               | Ok (_, u) => exists m' u', step_op fuel alone o = Ok (m', u') /\ u = POut u'
               | Err e => step_op fuel alone o = Err e
               end) /\
    mset m = mset alone /\ nth_error (fst (tale_of os us)) (l_object l) = Some (mset m).
Proof.
  intros ND E Hl. destruct (pinv_reached _ _ _ _ ND E) as (E1 & E0 & F).
  destruct (Forall2_nth_l _ _ _ _ _ F Hl) as ([s sm] & Hm & O & st & Hst & R). cbn [fst snd] in *.
  destruct (R next) as (m & Hr & Hs & Rn).
  assert (Hp : proc_model pr i = Some (set_next_id (set_settings sm st) (pr_next pr))).
  { unfold proc_model. rewrite Hm, Hst. reflexivity. }
  eexists. exists m. split; [exact Hp|]. split; [exact Hr|]. split; [eapply renamed_same; eauto|].
  split; [|split].
  - intros o. cbn [proc_do]. rewrite Hp. cbn [of_option bind].
    pose proof (renamed_step fuel _ _ _ o Rn) as X.
    destruct (step_op fuel (set_next_id (set_settings sm st) (pr_next pr)) o) as [[pm' u]|e]; cbn [bind]; auto.
    destruct X as (m' & X & _). eauto.
  - rewrite Hs. reflexivity.
  - rewrite E1, O, Hst. reflexivity.
Qed.

Lemma models_count fuel os pr us :
  Forall no_direct_settings os -> proc_run fuel proc_start os = Ok (pr, us) ->
  length (snd (tale_of os us)) = length (pr_models pr).
Proof. intros ND E. destruct (pinv_reached _ _ _ _ ND E) as (_ & _ & F). clear - F. induction F; simpl; auto. Qed.

Lemma settings_count fuel os pr us :
  Forall no_direct_settings os -> proc_run fuel proc_start os = Ok (pr, us) ->
  length (fst (tale_of os us)) = length (pr_settings pr).
Proof. intros ND E. destruct (pinv_reached _ _ _ _ ND E) as (-> & _). reflexivity. Qed.

Lemma made_do fuel pr o pr' u : proc_do fuel pr o = Ok (pr', u) ->
  (length (pr_models pr') = length (pr_models pr) + length (models_made [u]))%nat /\
  models_made [u] = seq (length (pr_models pr)) (length (models_made [u])) /\
  (length (pr_settings pr') = length (pr_settings pr) + length (settings_made [u]))%nat /\
  settings_made [u] = seq (length (pr_settings pr)) (length (settings_made [u])).
Proof.
  intros E. destruct o; cbn [proc_do] in E; unfold make_model, write_settings in E; repeat (match type of E with context [of_option _ ?x] => destruct x; [|discriminate E] | bind ?x _ = _ => destruct x; [|discriminate E] end; cbn [of_option bind fst snd] in E);
  injection E as <- <-; cbn [pr_models pr_settings models_made settings_made flat_map app length seq]; repeat split; rewrite ?app_length, ?list_set_length; cbn; first [lia|reflexivity|destruct (pr_settings pr); cbn; lia].
Qed.

Lemma made_run fuel os : forall pr pr' us, proc_run fuel pr os = Ok (pr', us) ->
  seq 0 (length (pr_models pr')) = seq 0 (length (pr_models pr)) ++ models_made us /\
  seq 0 (length (pr_settings pr')) = seq 0 (length (pr_settings pr)) ++ settings_made us.
Proof.
  induction os as [|o os IH]; intros pr pr' us E; cbn [proc_run] in E.
  - injection E as <- <-. cbn. rewrite !app_nil_r. auto.
  - destruct (proc_do fuel pr o) as [[pr1 u]|] eqn:E1; [|discriminate E]. cbn [bind fst snd] in E.
    destruct (proc_run fuel pr1 os) as [[pr2 us2]|] eqn:E2; [|discriminate E]. cbn [bind fst snd] in E. injection E as <- <-.
    destruct (IH _ _ _ E2) as (A & B). destruct (made_do _ _ _ _ _ E1) as (C1 & C2 & C3 & C4).
    rewrite A, B, C1, C3, !seq_app, <- !app_assoc, !Nat.add_0_l, <- C2, <- C4. destruct u; split; reflexivity.
Qed.

Lemma default_object fuel os pr us :
  Forall no_direct_settings os -> proc_run fuel proc_start os = Ok (pr, us) ->
  exists st, nth_error (pr_settings pr) 0 = Some st.
Proof.
  intros ND E. destruct (pinv_reached _ _ _ _ ND E) as (_ & N & _). destruct (pr_settings pr); [tauto|].
  eexists. reflexivity.
Qed.

Lemma setter_do fuel pr st o st' :
  nth_error (pr_settings pr) 0 = Some st -> setter o st = Some st' ->
  proc_do fuel pr o = Ok (mkProc (list_set 0 st' (pr_settings pr)) (pr_models pr) (pr_next pr), PNothing).
Proof.
  intros E S. destruct o; try discriminate; cbn [setter] in S; injection S as <-;
    cbn [proc_do]; unfold write_settings; rewrite E; reflexivity.
Qed.

Lemma setter_models fuel os pr us o st st' :
  Forall no_direct_settings os -> proc_run fuel proc_start os = Ok (pr, us) ->
  nth_error (fst (tale_of os us)) 0 = Some st -> setter o st = Some st' ->
  exists pr', proc_do fuel pr o = Ok (pr', PNothing) /\
  forall i l m, nth_error (snd (tale_of os us)) i = Some l -> proc_model pr i = Some m ->
    proc_model pr' i = Some (if Nat.eqb (l_object l) 0 then set_settings m st' else m).
Proof.
  intros ND E H0 S. destruct (pinv_reached _ _ _ _ ND E) as (E1 & E0 & F). rewrite E1 in H0.
  eexists. split; [eapply setter_do; eauto|]. intros i l m Hl Hm.
  destruct (Forall2_nth_l _ _ _ _ _ F Hl) as ([s sm] & Hs & O & stt & Hst & R). cbn [fst snd] in *.
  unfold proc_model in *. cbn [pr_models pr_settings pr_next]. rewrite Hs in *. rewrite Hst in Hm.
  injection Hm as <-. rewrite O, nth_error_list_set.
  destruct (Nat.eqb_spec s 0) as [->|Ne].
  - cbn. destruct (pr_settings pr); [tauto|]. reflexivity.
  - destruct (Nat.eqb_spec 0 s); [lia|]. rewrite Hst. reflexivity.
Qed.

End Independence.

(** ** Sizes that pass through [float] *)

Local Open Scope R_scope.

Lemma bconv_finite {p1 e1} p2 e2 (Hp : Prec_gt_0 p2) (He : Prec_lt_emax p2 e2) (x : binary_float p1 e1) :
  is_finite x = true -> Rabs (round radix2 (SpecFloat.fexp p2 e2) (round_mode mode_NE) (B2R x)) < bpow radix2 e2 ->
  is_finite (bconv p2 e2 Hp He x) = true /\ Bsign (bconv p2 e2 Hp He x) = Bsign x /\
  B2R (bconv p2 e2 Hp He x) = round radix2 (SpecFloat.fexp p2 e2) (round_mode mode_NE) (B2R x).
Proof.
  intros F B. destruct x as [s|s| |s m e Hb]; try discriminate F.
  - cbn [bconv B2R is_finite Bsign]. rewrite round_0 by apply valid_rnd_round_mode. auto.
  - cbn [bconv B2R] in *.
    pose proof (binary_normalize_correct p2 e2 Hp He mode_NE (cond_Zopp s (Zpos m)) e s) as C. cbv zeta in C.
    rewrite Rlt_bool_true in C by exact B. destruct C as (C1 & C2 & C3). split; [exact C2|]. split; [|exact C1].
    rewrite C3. cbn [Bsign]. destruct s; cbn [cond_Zopp].
    + rewrite Rcompare_Lt; auto. apply F2R_lt_0. reflexivity.
    + rewrite Rcompare_Gt; auto. apply F2R_gt_0. reflexivity.
Qed.

Lemma format_32_64 x :
  generic_format radix2 (SpecFloat.fexp 24 128) x -> generic_format radix2 (SpecFloat.fexp 53 1024) x.
Proof. apply generic_inclusion_mag. intros _. unfold SpecFloat.fexp, SpecFloat.emin. lia. Qed.

Lemma widen_32 (x : f32) : is_finite x = true ->
  is_finite (widen x : f64) = true /\ Bsign (widen x : f64) = Bsign x /\ B2R (widen x : f64) = B2R x.
Proof.
  intros F. pose proof (format_32_64 _ (generic_format_B2R 24 128 x)) as G.
  destruct (bconv_finite 53 1024 Hprec64 Hemax64 x F) as (A & B & C).
  - rewrite round_generic; [|apply valid_rnd_round_mode|exact G].
    apply Rlt_trans with (bpow radix2 128); [apply abs_B2R_lt_emax|apply bpow_lt; lia].
  - split; [exact A|]. split; [exact B|]. rewrite <- (round_generic radix2 (SpecFloat.fexp 53 1024) (round_mode mode_NE) (B2R x) G). exact C.
Qed.

Lemma narrow_widen (x : f32) : narrow (widen x : f64) = x.
Proof.
  destruct (is_finite x) eqn:F.
  - destruct (widen_32 x F) as (A & B & C).
    assert (G : round radix2 (SpecFloat.fexp 24 128) (round_mode mode_NE) (B2R (widen x : f64)) = B2R x).
    { rewrite C. apply round_generic; [apply valid_rnd_round_mode|apply generic_format_B2R]. }
    destruct (bconv_finite 24 128 Hprec32 Hemax32 (widen x : f64) A) as (A' & B' & C').
    + rewrite G. apply abs_B2R_lt_emax.
    + apply B2R_Bsign_inj; auto.
      * etransitivity; [exact C'|exact G].
      * etransitivity; [exact B'|exact B].
  - destruct x; try discriminate F; reflexivity.
Qed.

(** The error of a trip through [float]. *)
Lemma through_float (w : f64) :
  is_finite w = true -> bpow radix2 (-126) <= Rabs (B2R w) <= bpow radix2 127 ->
  is_finite (widen (narrow w : f32) : f64) = true /\
  Rabs (B2R (widen (narrow w : f32) : f64) - B2R w) <= bpow radix2 (-24) * Rabs (B2R w).
Proof.
  intros F (L & U).
  assert (E : Rabs (round radix2 (SpecFloat.fexp 24 128) (round_mode mode_NE) (B2R w) - B2R w) <= bpow radix2 (-24) * Rabs (B2R w)).
  { pose proof (relative_error_N_FLT radix2 (-149) 24 eq_refl (fun x => negb (Z.even x)) (B2R w)) as X.
    replace (bpow radix2 (-24)) with (/ 2 * bpow radix2 (- (24) + 1)) by (cbn; lra). apply X. exact L. }
  destruct (bconv_finite 24 128 Hprec32 Hemax32 w F) as (A & B & C).
  - apply Rle_lt_trans with (bpow radix2 127); [|apply bpow_lt; lia].
    apply abs_round_le_generic; [apply fexp_correct; reflexivity|apply valid_rnd_round_mode| |exact U].
    apply generic_format_bpow. cbn. lia.
  - destruct (widen_32 _ A) as (A' & _ & C'). split; [exact A'|].
    assert (Q : B2R (widen (narrow w : f32) : f64) = round radix2 (SpecFloat.fexp 24 128) (round_mode mode_NE) (B2R w)).
    { etransitivity; [exact C'|exact C]. }
    rewrite Q. exact E.
Qed.
