(** * Lemmas: displacing the model displaces everything *)

From Coq Require Import ZArith Reals Bool List Lra Lia.
From Verif Require Import Num Geometry Outcome Wobbly Spec LemBasic LemInv LemReal LemHistory LemMoves LemSettle.
Import ListNotations.
Local Open Scope R_scope.

Definition sh (d p : vec R) : vec R := vadd p d.
Definition sh_blk (d : vec R) (b : block R) : block R := option_map (fun pf => (sh d (fst pf), snd pf)) b.
Definition sh_mem (d : vec R) (m : mem R) : mem R :=
  mkMem (map (sh d) (m_pos m)) (m_force m) (map (sh_blk d) (m_heap m)).
(** The same state, [d] further. *)
Definition sh_model (d : vec R) (m : model R) : model R :=
  set_heap (set_targets (set_pos m (map (sh d) (mpos m))) (map (sh d) (mtargets m))) (map (sh_blk d) (mheap m)).

Ltac nums := unfold sh, vadd, vsub, vscale, vmap in *; cbn [vx vy] in *; rnum.

Lemma on_ok_ok {A B} (f : A -> B) a : on_ok f (Ok a) = Ok (f a).
Proof. reflexivity. Qed.
Lemma on_ok_bind {A B C D} (g : A -> B) (f : B -> res C) (h : A -> res D) (k : D -> C) (r : res A) :
  (forall a, f (g a) = on_ok k (h a)) -> bind (on_ok g r) f = on_ok k (bind r h).
Proof. intros X. destruct r; simpl; auto. Qed.
Lemma on_ok_bind' {A C D} (f : A -> res C) (h : A -> res D) (k : D -> C) (r : res A) :
  (forall a, f a = on_ok k (h a)) -> bind r f = on_ok k (bind r h).
Proof. intros X. destruct r; simpl; auto. Qed.

Lemma nth_error_of_option {A B} (f : A -> B) e (l : list A) i :
  of_option e (nth_error (map f l) i) = on_ok f (of_option e (nth_error l i)).
Proof. rewrite nth_error_map. destruct (nth_error l i); reflexivity. Qed.

Lemma rd_blk_sh d h b : rd_blk (map (sh_blk d) h) b = on_ok (fun pf => (sh d (fst pf), snd pf)) (rd_blk h b).
Proof. unfold rd_blk. rewrite nth_error_map. unfold block in *. destruct (nth_error h b) as [[pf|]|]; reflexivity. Qed.

Lemma rd_pos_sh d mm l : rd_pos (sh_mem d mm) l = on_ok (sh d) (rd_pos mm l).
Proof.
  destruct l as [i|b]; cbn [rd_pos sh_mem m_pos m_heap].
  - apply nth_error_of_option.
  - rewrite rd_blk_sh. destruct (rd_blk (m_heap mm) b); reflexivity.
Qed.

Lemma add_force_sh d mm l f : add_force (sh_mem d mm) l f = on_ok (sh_mem d) (add_force mm l f).
Proof.
  destruct l as [i|b]; cbn [add_force sh_mem m_pos m_heap m_force].
  - destruct (nth_error (m_force mm) i); reflexivity.
  - rewrite rd_blk_sh. destruct (rd_blk (m_heap mm) b) as [pf|]; [|reflexivity].
    cbn [on_ok bind fst snd]. unfold sh_mem. cbn [m_pos m_force m_heap]. rewrite list_set_map. reflexivity.
Qed.

Lemma spring_deltas_sh d pa pb len : spring_deltas (sh d pa) (sh d pb) len = spring_deltas pa pb len.
Proof.
  unfold spring_deltas, delta_from_desired, sh, vadd. cbn [vx vy]. rnum.
  replace (vx pb + vx d - (vx pa + vx d)) with (vx pb - vx pa) by ring.
  replace (vy pb + vy d - (vy pa + vy d)) with (vy pb - vy pa) by ring.
  replace (vx pa + vx d - (vx pb + vx d)) with (vx pa - vx pb) by ring.
  replace (vy pa + vy d - (vy pb + vy d)) with (vy pa - vy pb) by ring. reflexivity.
Qed.

Definition on1 {A B C} (f : A -> B) (r : A * C) : B * C := (f (fst r), snd r).

Lemma apply_forces_sh d k s mm : apply_forces k s (sh_mem d mm) = on_ok (on1 (sh_mem d)) (apply_forces k s mm).
Proof.
  unfold apply_forces. rewrite rd_pos_sh. apply on_ok_bind. intros pa. rewrite rd_pos_sh. apply on_ok_bind. intros pb.
  rewrite spring_deltas_sh. destruct (spring_deltas pa pb (s_len s)) as [da db].
  rewrite add_force_sh. apply on_ok_bind. intros m1. rewrite add_force_sh. apply on_ok_bind. intros m2. reflexivity.
Qed.

Lemma apply_all_sh d k ss : forall mm b, apply_all k ss (sh_mem d mm) b = on_ok (on1 (sh_mem d)) (apply_all k ss mm b).
Proof.
  induction ss as [|s ss IH]; intros mm b; [reflexivity|]. cbn [apply_all]. rewrite apply_forces_sh.
  apply on_ok_bind. intros [m1 b1]. cbn [on1 fst snd]. apply IH.
Qed.

Lemma euler_sh d fr p v f :
  euler fr (sh d p) v f = (sh d (fst (fst (euler fr p v f))), snd (fst (euler fr p v f)), snd (euler fr p v f)).
Proof.
  unfold euler. cbn [fst snd]. f_equal. f_equal. unfold sh. rewrite !vadd_assoc. f_equal. apply vadd_comm.
Qed.

Definition on1of3 {A B C E} (f : A -> B) (r : A * C * E) : B * C * E := (f (fst (fst r)), snd (fst r), snd r).

Lemma integrate_points_sh d fr : forall cs ps vs fs,
  integrate_points fr cs (map (sh d) ps) vs fs = on1of3 (map (sh d)) (integrate_points fr cs ps vs fs).
Proof.
  induction cs as [|c cs IH]; intros [|p ps] [|v vs] [|f fs]; try reflexivity.
  cbn [map integrate_points]. rewrite IH. destruct (integrate_points fr cs ps vs fs) as [[ps' vs'] more].
  cbn [on1of3 fst snd]. destruct (0 <? c)%Z; [reflexivity|]. rewrite euler_sh.
  destruct (euler fr p v f) as [[p' v'] b]. reflexivity.
Qed.

Definition sh_state (d : vec R) (r : list (vec R) * list (vec R) * list (block R) * bool) :=
  let '(p, v, h, b) := r in (map (sh d) p, v, map (sh_blk d) h, b).

Lemma spring_step_sh d k fr cs ss pos vel heap :
  spring_step k fr cs ss (map (sh d) pos) vel (map (sh_blk d) heap) =
  on_ok (sh_state d) (spring_step k fr cs ss pos vel heap).
Proof.
  unfold spring_step, calculate_forces.
  change (mkMem (map (sh d) pos) (repeat vzero mesh_n) (map (sh_blk d) heap)) with
    (sh_mem d (mkMem pos (repeat vzero mesh_n) heap)).
  rewrite apply_all_sh. apply on_ok_bind. intros [mm b]. cbn [on1 fst snd sh_mem m_force m_heap].
  rewrite integrate_points_sh. destruct (integrate_points fr cs pos vel (m_force mm)) as [[p v] c]. reflexivity.
Qed.

Lemma constrain_point_sh d r t p : constrain_point r (sh d t) (sh d p) = on1 (sh d) (constrain_point r t p).
Proof.
  unfold constrain_point, sh. rewrite vdist_translate. destruct (nltb (vdist t p) r); [reflexivity|].
  unfold on1. cbn [fst snd]. f_equal. unfold vadd, vsub. cbn [vx vy]. rnum.
  replace (vy t + vy d - (vy p + vy d)) with (vy t - vy p) by ring.
  replace (vx t + vx d - (vx p + vx d)) with (vx t - vx p) by ring.
  apply vec_eq; cbn [vx vy]; ring.
Qed.

Lemma constrain_points_sh d r : forall ts ps,
  constrain_points r (map (sh d) ts) (map (sh d) ps) = on1 (map (sh d)) (constrain_points r ts ps).
Proof.
  induction ts as [|t ts IH]; intros [|p ps]; try reflexivity. cbn [map constrain_points].
  rewrite IH, constrain_point_sh. destruct (constrain_point r t p), (constrain_points r ts ps). reflexivity.
Qed.

Lemma constrainment_sh d m pos :
  constrainment (sh_model d m) (map (sh d) pos) = on1 (map (sh d)) (constrainment m pos).
Proof.
  unfold constrainment. change (active (sh_model d m)) with (active m). destruct (active m); [|reflexivity].
  apply constrain_points_sh.
Qed.

Lemma predict_loop_sh d k fr cs ss extra extra' :
  (forall pos, extra' (map (sh d) pos) = on1 (map (sh d)) (extra pos)) ->
  forall fuel pos vel,
  predict_loop fuel k fr cs ss extra' (map (sh d) pos) vel =
  on_ok (map (sh d)) (predict_loop fuel k fr cs ss extra pos vel).
Proof.
  intros X. induction fuel as [|fuel IH]; intros pos vel; [reflexivity|]. cbn [predict_loop].
  change (@nil (block R)) with (map (sh_blk d) []) at 1. rewrite spring_step_sh. apply on_ok_bind.
  intros [[[p v] h] b]. cbn [sh_state]. rewrite X. destruct (extra p) as [p2 b2]. cbn [on1 fst snd].
  destruct (b || b2)%bool; [apply IH|reflexivity].
Qed.

Lemma predict_sh d fuel m extra extra' :
  (forall pos, extra' (map (sh d) pos) = on1 (map (sh d)) (extra pos)) ->
  predict fuel (sh_model d m) extra' = on_ok (sh d) (predict fuel m extra).
Proof.
  intros X. unfold predict. cbn [sh_model set_heap set_targets set_pos mset mtracked mw mh mnext_id mpos mvel].
  rewrite (predict_loop_sh d _ _ _ _ _ _ X). apply on_ok_bind. intros pos. apply nth_error_of_option.
Qed.

Lemma target_position_sh d fuel m :
  target_position fuel (sh_model d m) = on_ok (fun r => (sh d (fst r), sh_model d (snd r))) (target_position fuel m).
Proof.
  unfold target_position. change (active (sh_model d m)) with (active m). destruct (active m).
  - cbn [sh_model set_heap set_targets set_pos mtargets]. rewrite nth_error_of_option. apply on_ok_bind. reflexivity.
  - rewrite (predict_sh d fuel m (constrainment m)) by (apply constrainment_sh). apply on_ok_bind. reflexivity.
Qed.

Lemma position_array_sh d p tile : position_array (sh d p) tile = map (sh d) (position_array p tile).
Proof. symmetry. apply grid_translate. Qed.

Lemma recalc_targets_sh d fuel m : recalc_targets fuel (sh_model d m) = on_ok (sh_model d) (recalc_targets fuel m).
Proof.
  unfold recalc_targets. rewrite (predict_sh d fuel m (fun pos => (pos, false))) by reflexivity.
  apply on_ok_bind. intros p. rewrite on_ok_ok. f_equal. unfold sh_model.
  cbn [set_heap set_targets set_pos set_next_id mtargets mw mh mpos mvel mheap mtracked mcount msprings mpending minserted mnext_anchor mnext_id mset munequal mhandles mnext_handle malive].
  rewrite position_array_sh. reflexivity.
Qed.

Lemma activate_sh d fuel m : activate fuel (sh_model d m) = on_ok (sh_model d) (activate fuel m).
Proof.
  unfold activate. change (set_count (sh_model d m) (mcount (sh_model d m) + 1)) with (sh_model d (set_count m (mcount m + 1))).
  cbv zeta. change (mcount (sh_model d (set_count m (mcount m + 1)))) with (mcount m + 1)%Z.
  cbn [set_count mcount]. destruct (mcount m + 1 =? 1)%Z; [apply recalc_targets_sh|reflexivity].
Qed.
Lemma deactivate_sh d fuel m : deactivate fuel (sh_model d m) = on_ok (sh_model d) (deactivate fuel m).
Proof.
  unfold deactivate. change (set_count (sh_model d m) (mcount (sh_model d m) - 1)) with (sh_model d (set_count m (mcount m - 1))).
  cbv zeta. change (mcount (sh_model d (set_count m (mcount m - 1)))) with (mcount m - 1)%Z.
  cbn [set_count mcount]. destruct (mcount m - 1 =? 1)%Z; [apply recalc_targets_sh|reflexivity].
Qed.

Lemma vdist_sh d p q : vdist (sh d p) (sh d q) = vdist p q.
Proof. apply vdist_translate. Qed.

Lemma closest_from_sh d p : forall pts i best dist,
  closest_from (map (sh d) pts) (sh d p) i best dist = closest_from pts p i best dist.
Proof.
  induction pts as [|q pts IH]; intros; [reflexivity|]. cbn [map closest_from].
  rewrite vdist_sh. destruct (nltb (vdist p q) dist); apply IH.
Qed.
Lemma closest_index_sh d pts p : closest_index (map (sh d) pts) (sh d p) = closest_index pts p.
Proof. apply closest_from_sh. Qed.

Lemma grab_sh d fuel p m :
  grab_anchor fuel (sh d p) (sh_model d m) = on_ok (on1 (sh_model d)) (grab_anchor fuel p m).
Proof.
  unfold grab_anchor. cbn [sh_model set_heap set_targets set_pos mpos]. rewrite closest_index_sh.
  apply on_ok_bind'. intros i.
  change (set_unequal _ true) with (sh_model d (set_unequal m true)) at 1.
  rewrite activate_sh. apply on_ok_bind. intros m1. apply on_ok_bind'. reflexivity.
Qed.

Lemma mem_of_sh d m : mem_of (sh_model d m) = sh_mem d (mem_of m).
Proof. reflexivity. Qed.

Lemma find_one_sh d mm p i s acc : find_one (sh_mem d mm) (sh d p) i s acc = find_one mm p i s acc.
Proof.
  destruct acc as [[found prim] sec]. unfold find_one. rewrite rd_pos_sh.
  destruct (rd_pos mm (s_pa s)) as [pa|]; [|reflexivity]. cbn [on_ok bind]. rewrite vdist_sh.
  destruct (nltb (vdist pa p) prim).
  - destruct (neqb (vdist pa p) (vdist pa p)); [|reflexivity]. rewrite rd_pos_sh.
    destruct (rd_pos mm (s_pb s)) as [pb|]; [|reflexivity]. cbn [on_ok bind]. rewrite vdist_sh. reflexivity.
  - destruct (neqb (vdist pa p) prim); [|reflexivity]. rewrite rd_pos_sh.
    destruct (rd_pos mm (s_pb s)) as [pb|]; [|reflexivity]. cbn [on_ok bind]. rewrite vdist_sh. reflexivity.
Qed.
Lemma find_from_sh d mm p : forall ss i acc, find_from (sh_mem d mm) (sh d p) i ss acc = find_from mm p i ss acc.
Proof.
  induction ss as [|s ss IH]; intros; [reflexivity|]. cbn [find_from]. rewrite find_one_sh.
  destruct (find_one mm p i s acc); [apply IH|reflexivity].
Qed.
Lemma find_spring_sh d mm p ss : find_spring (sh_mem d mm) (sh d p) ss = find_spring mm p ss.
Proof. unfold find_spring. rewrite find_from_sh. reflexivity. Qed.

Lemma sh_inj d p q : sh d p = sh d q -> p = q.
Proof. intros X. unfold sh in X. rewrite <- (vsub_add p d), X, vsub_add. reflexivity. Qed.
Lemma vequals_sh d p q : vequals (sh d p) (sh d q) = vequals p q.
Proof.
  apply eq_true_iff_eq. rewrite !vequals_R. split; [apply sh_inj|congruence].
Qed.
Lemma index_of_position_sh d p : forall pts i, index_of_position (map (sh d) pts) (sh d p) i = index_of_position pts p i.
Proof.
  induction pts as [|q pts IH]; intros; [reflexivity|]. cbn [map index_of_position]. rewrite vequals_sh, IH. reflexivity.
Qed.
Lemma desired_position_sh d m p : desired_position (sh_model d m) (sh d p) = on_ok (sh d) (desired_position m p).
Proof.
  unfold desired_position. change (active (sh_model d m)) with (active m). destruct (active m); [|reflexivity].
  cbn [sh_model set_heap set_targets set_pos mpos mtargets]. rewrite index_of_position_sh.
  apply on_ok_bind'. intros i. apply nth_error_of_option.
Qed.
Lemma vsub_sh d p q : vsub (sh d p) (sh d q) = vsub p q.
Proof. unfold vsub, sh, vadd. cbn [vx vy]. rnum. f_equal; ring. Qed.

Lemma install_sh d p m : install_anchor (sh d p) (sh_model d m) = on_ok (on1 (sh_model d)) (install_anchor p m).
Proof.
  unfold install_anchor. rewrite mem_of_sh, find_spring_sh.
  change (msprings (sh_model d m)) with (msprings m). apply on_ok_bind'. intros idx. apply on_ok_bind'. intros found.
  cbv zeta.
  assert (E : set_heap (sh_model d m) (mheap (sh_model d m) ++ [Some (sh d p, vzero)]) =
              sh_model d (set_heap m (mheap m ++ [Some (p, vzero)]))).
  { unfold sh_model.
    cbn [set_heap set_targets set_pos mtargets mw mh mpos mvel mheap mtracked mcount msprings mpending minserted mnext_anchor mnext_id mset munequal mhandles mnext_handle malive].
    rewrite map_app. reflexivity. }
  assert (L : length (mheap (sh_model d m)) = length (mheap m)) by apply map_length.
  rewrite L, E. set (m1 := set_heap m (mheap m ++ [Some (p, vzero)])). rewrite mem_of_sh, rd_pos_sh.
  apply on_ok_bind. intros pa. rewrite rd_pos_sh. apply on_ok_bind. intros pb. rewrite desired_position_sh.
  apply on_ok_bind. intros da. rewrite desired_position_sh. apply on_ok_bind. intros db. rewrite !vsub_sh. reflexivity.
Qed.

Lemma insert_sh d fuel p m :
  insert_anchor fuel (sh d p) (sh_model d m) = on_ok (on1 (sh_model d)) (insert_anchor fuel p m).
Proof.
  unfold insert_anchor. change (set_unequal (sh_model d m) true) with (sh_model d (set_unequal m true)).
  rewrite activate_sh. apply on_ok_bind. intros m1. rewrite install_sh. apply on_ok_bind. intros [m2 h]. reflexivity.
Qed.

Lemma free_blk_sh d h b : free_blk (map (sh_blk d) h) b = on_ok (map (sh_blk d)) (free_blk h b).
Proof.
  unfold free_blk. rewrite nth_error_map. unfold block in *. destruct (nth_error h b) as [[pf|]|]; try reflexivity.
  cbn [option_map sh_blk on_ok bind]. rewrite list_set_map. reflexivity.
Qed.

Lemma release_strategy_sh d hd m : release_strategy hd (sh_model d m) = on_ok (sh_model d) (release_strategy hd m).
Proof.
  destruct hd as [i|st a b blk aid]; cbn [release_strategy].
  - change (mtracked (sh_model d m)) with (mtracked m). apply on_ok_bind'. reflexivity.
  - set (m1 := set_inserted m _ _).
    change (set_inserted (sh_model d m) _ _) with (sh_model d m1).
    change (mheap (sh_model d m1)) with (map (sh_blk d) (mheap m1)). rewrite free_blk_sh. apply on_ok_bind.
    intros hp. change (set_heap (sh_model d m1) (map (sh_blk d) hp)) with (sh_model d (set_heap m1 hp)).
    apply on_ok_bind'. intros r2. apply on_ok_bind'. intros r1. apply on_ok_bind'. intros r0. reflexivity.
Qed.

Lemma release_sh d fuel n m : release_anchor fuel n (sh_model d m) = on_ok (sh_model d) (release_anchor fuel n m).
Proof.
  unfold release_anchor. change (mhandles (sh_model d m)) with (mhandles m). change (malive (sh_model d m)) with (malive m).
  destruct (lookup_handle (mhandles m) n) as [hd|]; [|reflexivity]. destruct (malive m); [|reflexivity].
  change (set_handles (sh_model d m) _ _) with (sh_model d (set_handles m (remove_handle (mhandles m) n) (mnext_handle m))).
  rewrite release_strategy_sh. apply on_ok_bind. intros m1. apply deactivate_sh.
Qed.

Lemma sh_add d e p : vadd (sh d p) e = sh d (vadd p e).
Proof. unfold sh. rewrite !vadd_assoc. f_equal. apply vadd_comm. Qed.
Lemma sh_add_map d e l : map (fun p => vadd p e) (map (sh d) l) = map (sh d) (map (fun p => vadd p e) l).
Proof. rewrite !map_map. apply map_ext. intros; apply sh_add. Qed.

Lemma move_anchor_sh d n e m : move_anchor n e (sh_model d m) = on_ok (sh_model d) (move_anchor n e m).
Proof.
  unfold move_anchor. change (mhandles (sh_model d m)) with (mhandles m). change (malive (sh_model d m)) with (malive m).
  destruct (lookup_handle (mhandles m) n) as [hd|]; [|reflexivity]. destruct (malive m); [|reflexivity].
  change (active (sh_model d m)) with (active m).
  cbv zeta. set (m1 := if active m then set_targets m (map (fun p => vadd p e) (mtargets m)) else m).
  assert (E : (if active m then set_targets (sh_model d m) (map (fun p => vadd p e) (mtargets (sh_model d m))) else sh_model d m) =
              sh_model d m1).
  { subst m1. destruct (active m); [|reflexivity]. unfold sh_model.
    cbn [set_heap set_targets set_pos mtargets mw mh mpos mvel mheap mtracked mcount msprings mpending minserted mnext_anchor mnext_id mset munequal mhandles mnext_handle malive].
    rewrite sh_add_map. reflexivity. }
  rewrite E. destruct hd as [i|st a b blk aid].
  - change (mpos (sh_model d m1)) with (map (sh d) (mpos m1)). rewrite nth_error_of_option. apply on_ok_bind.
    intros p. rewrite sh_add, <- list_set_map. reflexivity.
  - change (mheap (sh_model d m1)) with (map (sh_blk d) (mheap m1)). rewrite rd_blk_sh. apply on_ok_bind.
    intros pf. cbn [fst snd]. rewrite sh_add.
    change (Some (sh d (vadd (fst pf) e), snd pf)) with (sh_blk d (Some (vadd (fst pf) e, snd pf))).
    rewrite <- list_set_map. reflexivity.
Qed.

Lemma update_inserted_sh d f g l : (forall p, g (sh d p) = sh d (f p)) ->
  forall h, update_inserted g l (map (sh_blk d) h) = on_ok (map (sh_blk d)) (update_inserted f l h).
Proof.
  intros X. induction l as [|[a b] l IH]; intros h; [reflexivity|]. cbn [update_inserted]. rewrite rd_blk_sh.
  apply on_ok_bind. intros pf. cbn [fst snd]. rewrite X.
  change (Some (sh d (f (fst pf)), snd pf)) with (sh_blk d (Some (f (fst pf), snd pf))).
  rewrite <- list_set_map. apply IH.
Qed.

Lemma move_model_by_sh d e m : move_model_by e (sh_model d m) = on_ok (sh_model d) (move_model_by e m).
Proof.
  unfold move_model_by. cbv zeta.
  cbn [sh_model set_heap set_targets set_pos mtargets mw mh mpos mvel mheap mtracked mcount msprings mpending minserted mnext_anchor mnext_id mset munequal mhandles mnext_handle malive].
  rewrite (update_inserted_sh d (fun p => vadd p e)) by (intros; apply sh_add).
  apply on_ok_bind. intros hp. rewrite on_ok_ok. f_equal. unfold sh_model.
  cbn [set_heap set_targets set_pos mtargets mw mh mpos mvel mheap mtracked mcount msprings mpending minserted mnext_anchor mnext_id mset munequal mhandles mnext_handle malive].
  rewrite !sh_add_map. reflexivity.
Qed.

Lemma move_model_to_sh d fuel p m :
  move_model_to fuel (sh d p) (sh_model d m) = on_ok (sh_model d) (move_model_to fuel p m).
Proof.
  unfold move_model_to. rewrite target_position_sh. apply on_ok_bind. intros [q m1]. cbn [fst snd].
  rewrite vsub_sh. apply move_model_by_sh.
Qed.

Lemma rescale_sh d o f p : rescale (sh d o) f (sh d p) = sh d (rescale o f p).
Proof. unfold rescale. rewrite vsub_sh. unfold sh. rewrite vadd_assoc. reflexivity. Qed.

Lemma resize_sh d fuel w h m : resize_model fuel w h (sh_model d m) = on_ok (sh_model d) (resize_model fuel w h m).
Proof.
  unfold resize_model. destruct (negb _); [reflexivity|]. cbv zeta. change (mw (sh_model d m)) with (mw m).
  change (mh (sh_model d m)) with (mh m). destruct (vequals _ _); [reflexivity|]. rewrite target_position_sh.
  apply on_ok_bind. intros [q m1]. cbn [fst snd].
  change (mtargets (sh_model d m1)) with (map (sh d) (mtargets m1)). rewrite nth_error_of_option. apply on_ok_bind.
  intros t.
  cbn [sh_model set_heap set_targets set_pos set_springs mtargets mw mh mpos mvel mheap mtracked mcount msprings mpending minserted mnext_anchor mnext_id mset munequal mhandles mnext_handle malive].
  rewrite (update_inserted_sh d (rescale q (mkV (ndiv w (mw m)) (ndiv h (mh m))))) by (intros; apply rescale_sh).
  apply on_ok_bind. intros hp. rewrite on_ok_ok. f_equal. unfold sh_model.
  cbn [set_heap set_targets set_pos set_springs set_size mtargets mw mh mpos mvel mheap mtracked mcount msprings mpending minserted mnext_anchor mnext_id mset munequal mhandles mnext_handle malive].
  rewrite !map_map.
  rewrite (map_ext _ _ (fun p => rescale_sh d q (mkV (ndiv w (mw m)) (ndiv h (mh m))) p)).
  rewrite (map_ext _ _ (fun p => rescale_sh d t (mkV (ndiv w (mw m)) (ndiv h (mh m))) p)). reflexivity.
Qed.

Lemma integrate_once_sh d m : integrate_once (sh_model d m) = on_ok (on1 (sh_model d)) (integrate_once m).
Proof.
  unfold integrate_once. change (mpos (sh_model d m)) with (map (sh d) (mpos m)). rewrite constrainment_sh.
  destruct (constrainment m (mpos m)) as [p1 b1]. cbn [on1 fst snd].
  cbn [sh_model set_heap set_targets set_pos mset mtracked msprings mvel mheap]. rewrite spring_step_sh.
  apply on_ok_bind. intros [[[p v] h] b]. reflexivity.
Qed.
Lemma integrate_n_sh d n : forall m b, integrate_n n (sh_model d m) b = on_ok (on1 (sh_model d)) (integrate_n n m b).
Proof.
  induction n as [|n IH]; intros m b; [reflexivity|]. cbn [integrate_n]. rewrite integrate_once_sh.
  apply on_ok_bind. intros [m1 b1]. cbn [on1 fst snd]. apply IH.
Qed.
Lemma model_step_sh d t m : model_step t (sh_model d m) = on_ok (on1 (sh_model d)) (model_step t m).
Proof.
  unfold model_step. change (munequal (sh_model d m)) with (munequal m). rewrite integrate_n_sh.
  apply on_ok_bind. intros [m1 b]. cbn [on1 fst snd].
  change (active (set_unequal (sh_model d m1) ((if (t =? 0)%Z then munequal m else false) || b)%bool)) with (active m1).
  change (active (set_unequal m1 ((if (t =? 0)%Z then munequal m else false) || b)%bool)) with (active m1).
  destruct (negb _ && active m1)%bool; reflexivity.
Qed.

(** The call with its position argument displaced. *)
Definition sh_op (d : vec R) (o : op R) : op R :=
  match o with
  | OpGrab p => OpGrab (sh d p)
  | OpInsert p => OpInsert (sh d p)
  | OpMoveTo p => OpMoveTo (sh d p)
  | _ => o
  end.

Theorem step_op_sh d fuel m o : step_op fuel (sh_model d m) (sh_op d o) = on_ok (on1 (sh_model d)) (step_op fuel m o).
Proof.
  unfold step_op. change (malive (sh_model d m)) with (malive m).
  assert (E : needs_model (sh_op d o) = needs_model o) by (destruct o; reflexivity). rewrite E.
  destruct (needs_model o && negb (malive m))%bool; [reflexivity|].
  destruct o; cbn [sh_op].
  - rewrite grab_sh. apply on_ok_bind. intros [m1 n]. reflexivity.
  - rewrite insert_sh. apply on_ok_bind. intros [m1 n]. reflexivity.
  - rewrite move_anchor_sh. apply on_ok_bind. reflexivity.
  - rewrite release_sh. apply on_ok_bind. reflexivity.
  - rewrite model_step_sh. apply on_ok_bind. intros [m1 n]. reflexivity.
  - rewrite move_model_by_sh. apply on_ok_bind. reflexivity.
  - rewrite move_model_to_sh. apply on_ok_bind. reflexivity.
  - rewrite resize_sh. apply on_ok_bind. reflexivity.
  - reflexivity.
  - reflexivity.
Qed.

Theorem run_sh d fuel : forall ops m,
  run fuel (sh_model d m) (map (sh_op d) ops) = on_ok (on1 (sh_model d)) (run fuel m ops).
Proof.
  induction ops as [|o ops IH]; intros m; [reflexivity|]. cbn [map run]. rewrite step_op_sh. apply on_ok_bind.
  intros [m1 u]. cbn [on1 fst snd]. rewrite IH. apply on_ok_bind. intros [m2 us]. reflexivity.
Qed.

Lemma init_sh d p w h st next : model_init (sh d p) w h st next = sh_model d (model_init p w h st next).
Proof.
  unfold model_init, sh_model. cbn [set_heap set_targets set_pos mtargets mw mh mpos mvel mheap mtracked mcount msprings mpending minserted mnext_anchor mnext_id mset munequal mhandles mnext_handle malive map].
  rewrite position_array_sh. reflexivity.
Qed.
