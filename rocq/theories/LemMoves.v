(** Anchors through the API: attachment, movement, insertion, settings. *)

From Coq Require Import ZArith Reals Bool List Lia Lra Permutation.
From Verif Require Import Num Geometry Outcome Wobbly Spec LemBasic LemReal LemInv LemSprings LemHistory LemNetwork LemLifo LemAnchors.
Import ListNotations.
Local Open Scope Z_scope.

Section Moves.
Context {T : Type} `{Num T}.
Implicit Types (m : model T).

Lemma lookup_app l l' n :
  lookup_handle (T:=T) (l ++ l') n =
  match lookup_handle l n with Some h => Some h | None => lookup_handle l' n end.
Proof. induction l as [|[i h] l IH]; simpl; auto. destruct (Nat.eqb i n); auto. Qed.

Lemma lookup_remove_neq l n k :
  n <> k -> lookup_handle (T:=T) (remove_handle l k) n = lookup_handle l n.
Proof.
  intros N. unfold remove_handle. induction l as [|[i h] l IH]; simpl; auto.
  destruct (Nat.eqb_spec i k); simpl; destruct (Nat.eqb_spec i n); auto; congruence.
Qed.

Lemma lookup_remove_eq l n : lookup_handle (T:=T) (remove_handle l n) n = None.
Proof.
  apply lookup_handle_none. unfold remove_handle. intros Hin. apply in_map_iff in Hin.
  destruct Hin as ([i h] & E & Hi). apply filter_In in Hi. simpl in *. subst.
  rewrite Nat.eqb_refl in Hi. destruct Hi; discriminate.
Qed.

(** Every operation keeps every anchor but the one it releases. *)
Lemma handles_step fuel m o m' u :
  step_op fuel m o = Ok (m', u) ->
  match o with
  | OpGrab _ | OpInsert _ => exists h, mhandles m' = mhandles m ++ [(mnext_handle m, h)] /\ u = OHandle (mnext_handle m)
  | OpRelease n => mhandles m' = remove_handle (mhandles m) n
  | _ => mhandles m' = mhandles m
  end.
Proof.
  intros E. pose proof (frame_step _ _ _ _ _ E) as F.
  unfold step_op in E. destruct (needs_model o && negb (malive m)); [discriminate|].
  destruct o; try (destruct F as (f & F & _); apply (fr_handles _ _ _ F)); inv_ok.
  - destruct a as [m3 k]. unfold grab_anchor in *. inv_ok.
    match goal with X : activate _ _ = Ok _ |- _ => apply activate_shape in X; destruct X as (tg & id & -> & _) end.
    simpl. eauto.
  - destruct a as [m3 k]. unfold insert_anchor in *. inv_ok.
    match goal with X : install_anchor _ _ = Ok ?r |- _ => destruct r as [m4 hd]; apply install_anchor_shape in X;
      destruct X as (idx & found & da & db & _ & _ & -> & _ & _ & ->) end.
    match goal with X : activate _ _ = Ok _ |- _ => apply activate_shape in X; destruct X as (tg & id & -> & _) end.
    simpl. eauto.
  - unfold release_anchor in *. destruct (lookup_handle (mhandles m) n) as [hd|] eqn:EL.
    + destruct (malive m); [|discriminate]. inv_ok.
      match goal with X : release_strategy _ _ = Ok _ |- _ => apply release_strategy_handles in X; rename X into HR end.
      match goal with X : deactivate _ _ = Ok _ |- _ => apply deactivate_shape in X; destruct X as (tg & id & -> & _) end.
      simpl in *. apply HR.
    + inv_ok. unfold remove_handle. symmetry. apply filter_all. intros [i h] Hin. simpl.
      destruct (Nat.eqb_spec i n); auto. subst. apply lookup_handle_none in EL.
      exfalso. apply EL. apply in_map_iff. exists (n, h); auto.
Qed.

Lemma attach_step fuel m o m' u n h :
  step_op fuel m o = Ok (m', u) -> lookup_handle (mhandles m) n = Some h ->
  (forall k, o = OpRelease k -> k <> n) -> lookup_handle (mhandles m') n = Some h.
Proof.
  intros E L R. apply handles_step in E. destruct o;
    try (destruct E as (h' & -> & _); rewrite lookup_app, L; auto; fail);
    try (rewrite E; auto; fail).
  rewrite E, lookup_remove_neq; auto. intros ->. eapply R; eauto.
Qed.

(** An anchor that is still held was never released since, so it controls the
    same thing. *)
Lemma attach_run fuel ops : forall m m' us n h c,
  run fuel m ops = Ok (m', us) -> agrees c m -> Inv m -> lookup_handle (mhandles m) n = Some h ->
  In n (map fst (c_live (fold_left client_step ops c))) ->
  lookup_handle (mhandles m') n = Some h.
Proof.
  induction ops as [|o ops IH]; intros m m' us n h c E A I L Hn; simpl in E; inv_ok; auto.
  destruct a as [m1 u1]. destruct a0 as [m2 us2]. simpl in *. inv_ok.
  pose proof (agrees_step _ _ _ _ _ _ Ha A) as A1.
  pose proof (inv_step_op _ _ _ _ _ I Ha) as I1.
  destruct (lookup_handle (mhandles m1) n) as [h'|] eqn:E1.
  - assert (h' = h).
    { destruct o; try (assert (X : lookup_handle (mhandles m1) n = Some h) by
        (eapply attach_step; eauto; discriminate); congruence).
      destruct (Nat.eq_dec n0 n).
      - subst. apply handles_step in Ha. rewrite Ha, lookup_remove_eq in E1. discriminate.
      - assert (X : lookup_handle (mhandles m1) n = Some h); [|congruence].
        eapply attach_step; eauto. intros k Ek. inversion Ek; subst; auto. }
    subst. eapply IH; eauto.
  - exfalso. apply lookup_handle_none in E1.
    assert (B : (n < mnext_handle m1)%nat).
    { apply lookup_handle_in in L. assert (n < mnext_handle m)%nat.
      { apply (inv_next _ I). apply in_map_iff. exists (n, h); auto. }
      pose proof (handles_step _ _ _ _ _ Ha) as HS.
      destruct A as (_ & A2 & _). destruct A1 as (_ & A1 & _).
      destruct o; simpl in A1; lia. }
    clear - E1 A1 Hn B. revert E1 A1 Hn B. generalize (client_step c o). intros c1 E1 (A1 & A2 & _).
    assert (G : ~ In n (map fst (c_live c1)) /\ (n < c_acquired c1)%nat -> ~ In n (map fst (c_live (fold_left client_step ops c1)))).
    { clear. revert c1. induction ops as [|o ops IH]; intros c1 [N L]; simpl; auto.
      apply IH. destruct o; simpl; rewrite ?map_app, ?in_app_iff; simpl; auto; split; try lia; try (intuition lia).
      intros X. apply N. apply in_map_iff in X. destruct X as (x & Ex & Hx). apply filter_In in Hx.
      apply in_map_iff. exists x; tauto. }
    intros Hn B. apply G in Hn; auto. split; [|lia]. rewrite A1, map_map. simpl. exact E1.
Qed.

(** ** Targets do not matter unless exactly one anchor is live *)

Definition with_targets (tg : list (vec T)) (r : model T * bool) : model T * bool :=
  (set_targets (fst r) tg, snd r).
Definition on_ok {A B} (f : A -> B) (r : res A) : res B := bind r (fun a => Ok (f a)).

Lemma integrate_once_targets m tg :
  active m = false ->
  integrate_once (set_targets m tg) = on_ok (with_targets tg) (integrate_once m).
Proof.
  intros A. unfold integrate_once, constrainment.
  change (active (set_targets m tg)) with (active m). rewrite A. simpl.
  destruct (spring_step _ _ _ _ _ _ _) as [[[[p v] h] b]|]; reflexivity.
Qed.

Lemma integrate_n_targets n tg : forall m b,
  active m = false ->
  integrate_n n (set_targets m tg) b = on_ok (with_targets tg) (integrate_n n m b).
Proof.
  induction n; intros m b A; simpl; auto.
  rewrite integrate_once_targets by auto.
  destruct (integrate_once m) as [[m1 b1]|] eqn:E; simpl; auto.
  apply IHn. apply integrate_once_shape in E. destruct E as (p & v & h & -> & _). auto.
Qed.

Lemma model_step_targets t m tg :
  active m = false ->
  model_step t (set_targets m tg) = on_ok (with_targets tg) (model_step t m).
Proof.
  intros A. unfold model_step. rewrite integrate_n_targets by auto.
  destruct (integrate_n (step_count t) m false) as [[m1 b1]|] eqn:E; simpl; auto.
  apply integrate_n_shape in E. destruct E as (p & v & h & -> & _).
  unfold active in *. simpl in *. rewrite A, andb_false_r. simpl. reflexivity.
Qed.

Lemma model_step_snap t m m' :
  active m = true -> model_step t m = Ok (m', false) -> mpos m' = mtargets m' /\ mtargets m' = mtargets m.
Proof.
  unfold model_step. intros A E. inv_ok. destruct a as [m1 b1]. inv_ok.
  apply integrate_n_shape in Ha. destruct Ha as (p & v & h & -> & _).
  unfold active in *. simpl in *. rewrite A in *.
  match goal with X : _ || _ = false |- _ => rewrite X end. simpl. auto.
Qed.

(** Distinct anchors have distinct storage. *)
Lemma same_blk (l : list (nat * handle T)) n st a b k aid n' st' a' b' aid' :
  NoDup (map snd (live_blks l)) ->
  In (n, HIns st a b k aid) l -> In (n', HIns st' a' b' k aid') l ->
  (n, HIns st a b k aid) = (n', HIns st' a' b' k aid').
Proof.
  induction l as [|[i h] l IH]; intros ND EL Ek; [destruct EL|]. unfold live_blks in *. simpl in *.
  destruct EL as [EL|EL], Ek as [Ek|Ek].
  - congruence.
  - inversion EL; subst. simpl in ND. inversion ND as [|? ? X _]; subst. exfalso. apply X.
    apply in_map_iff. exists (aid', k). split; auto. apply in_flat_map. eexists; split; eauto. simpl; auto.
  - inversion Ek; subst. simpl in ND. inversion ND as [|? ? X _]; subst. exfalso. apply X.
    apply in_map_iff. exists (aid, k). split; auto. apply in_flat_map. eexists; split; eauto. simpl; auto.
  - rewrite map_app in ND. apply NoDup_app_remove_l in ND. auto.
Qed.

(** ** Moving an anchor *)

Lemma move_anchor_targets n d m m' :
  move_anchor n d m = Ok m' ->
  mtargets m' = if active m then map (fun p => vadd p d) (mtargets m) else mtargets m.
Proof.
  unfold move_anchor. intros E. destruct (lookup_handle (mhandles m) n) as [hd|]; [|discriminate].
  destruct (malive m); [|discriminate]. destruct (active m); destruct hd; inv_ok; reflexivity.
Qed.

Lemma move_anchor_rest n d m m' :
  move_anchor n d m = Ok m' ->
  mvel m' = mvel m /\ msprings m' = msprings m /\ mtracked m' = mtracked m /\ mw m' = mw m /\ mh m' = mh m /\
  mhandles m' = mhandles m /\ mset m' = mset m.
Proof.
  unfold move_anchor. intros E. destruct (lookup_handle (mhandles m) n) as [hd|]; [|discriminate].
  destruct (malive m); [|discriminate]. destruct (active m); destruct hd; inv_ok; simpl; repeat split; auto.
Qed.

Lemma move_anchor_points base n d m m' :
  Net base m -> move_anchor n d m = Ok m' ->
  (exists p, anchor_point m n = Some p /\ anchor_point m' n = Some (vadd p d)) /\
  match lookup_handle (mhandles m) n with
  | Some (HGrab i) =>
      (forall j, j <> i -> nth_error (mpos m') j = nth_error (mpos m) j) /\
      (forall k st a b blk aid, lookup_handle (mhandles m) k = Some (HIns st a b blk aid) ->
         anchor_point m' k = anchor_point m k)
  | Some (HIns _ _ _ _ _) =>
      mpos m' = mpos m /\
      (forall k, k <> n -> anchor_point m' k = anchor_point m k)
  | None => False
  end.
Proof.
  intros N E. unfold move_anchor in E. destruct (lookup_handle (mhandles m) n) as [hd|] eqn:EL; [|discriminate].
  destruct (malive m); [|discriminate].
  set (m1 := if active m then set_targets m (map (fun p => vadd p d) (mtargets m)) else m) in *.
  assert (M1 : mpos m1 = mpos m /\ mheap m1 = mheap m /\ mhandles m1 = mhandles m) by (unfold m1; destruct (active m); auto).
  destruct M1 as (P1 & P2 & P3). unfold anchor_point. destruct hd as [i|st a b blk aid]; inv_ok; simpl;
    rewrite ?P3, ?EL, ?P1, ?P2 in *.
  - split.
    + exists a. split; auto. rewrite nth_error_list_set_eq; auto. apply nth_error_Some. congruence.
    + split.
      * intros j Hj. apply nth_error_list_set_neq; auto.
      * intros k st a0 b blk aid Hk. rewrite Hk. auto.
  - apply rd_blk_ok in Ha. split.
    + destruct a0 as [p f]. simpl. exists p. rewrite Ha. split; auto. rewrite nth_error_list_set_eq; auto.
      apply nth_error_Some. congruence.
    + split; auto. intros k Hk. destruct (lookup_handle (mhandles m) k) as [[j|st' a' b' blk' aid']|] eqn:Ek; auto.
      rewrite nth_error_list_set_neq; auto. intros <-. apply Hk.
      apply lookup_handle_in in EL. apply lookup_handle_in in Ek.
      assert (X : (n, HIns st a b blk aid) = (k, HIns st' a' b' blk aid')); [|congruence].
      eapply same_blk; eauto. apply (hi_blks _ (net_h _ _ N)).
Qed.

(** ** Inserted points *)

Definition ins_point (h : list (block T)) (b : nat) : option (vec T) :=
  match nth_error h b with Some (Some (p, _)) => Some p | _ => None end.

Lemma ins_point_pos h h' b : heap_pos h = heap_pos h' -> ins_point h b = ins_point h' b.
Proof.
  intros E. unfold ins_point. apply (f_equal (fun l => nth_error l b)) in E. unfold heap_pos in E.
  rewrite !nth_error_map in E. unfold block in *.
  destruct (nth_error h b) as [[[p f]|]|], (nth_error h' b) as [[[p' f']|]|]; simpl in *; congruence.
Qed.

Lemma inserted_still base fuel m o m' u n st a b blk aid :
  Net base m -> step_op fuel m o = Ok (m', u) ->
  lookup_handle (mhandles m) n = Some (HIns st a b blk aid) -> ~ moves_points o n ->
  anchor_point m' n = anchor_point m n.
Proof.
  intros N E L M.
  assert (L' : lookup_handle (mhandles m') n = Some (HIns st a b blk aid)).
  { eapply attach_step; eauto. intros k ->. simpl in M. congruence. }
  assert (Lb : nth_error (heap_live (mheap m)) blk = Some true).
  { apply (hi_heap _ (net_h _ _ N)). apply in_map_iff. exists (aid, blk). split; auto.
    unfold live_blks. apply in_flat_map. apply lookup_handle_in in L. eexists; split; eauto. simpl; auto. }
  destruct o; try (simpl in M; tauto).
  - unfold step_op in E. destruct (needs_model _ && _); [discriminate|]. inv_ok. destruct a0 as [m1 k].
    unfold grab_anchor in *. inv_ok.
    match goal with X : activate _ _ = Ok _ |- _ => apply activate_shape in X; destruct X as (tg & id & -> & _) end.
    unfold anchor_point. simpl in *. rewrite L, L'. reflexivity.
  - unfold step_op in E. destruct (needs_model _ && _); [discriminate|]. inv_ok. destruct a0 as [m1 k].
    unfold insert_anchor in *. inv_ok.
    match goal with X : install_anchor _ _ = Ok ?r |- _ => destruct r as [m4 hd]; apply install_anchor_shape in X;
      destruct X as (idx & found & da & db & _ & _ & -> & _ & _ & ->) end.
    match goal with X : activate _ _ = Ok _ |- _ => apply activate_shape in X; destruct X as (tg & id & -> & _) end.
    unfold anchor_point. simpl in *. rewrite L, L'. rewrite nth_error_app1; auto.
    rewrite <- heap_live_len. apply nth_error_Some. rewrite Lb. discriminate.
  - unfold step_op in E. destruct (needs_model _ && _); [discriminate|]. inv_ok. 
    pose proof (move_anchor_points _ _ _ _ _ N Ha) as [_ X].
    destruct (lookup_handle (mhandles m) n0) as [[i|? ? ? ? ?]|]; [| |tauto].
    + destruct X as [_ X]. eapply X; eauto.
    + destruct X as [_ X]. apply X. simpl in M. congruence.
  - unfold step_op in E. destruct (needs_model _ && _); [discriminate|]. inv_ok.
    unfold release_anchor in Ha. destruct (lookup_handle (mhandles m) n0) as [hd|] eqn:EL; [|inv_ok; auto].
    destruct (malive m); [|discriminate]. inv_ok.
    apply deactivate_shape in Ha. destruct Ha as (tg & id & -> & _).
    unfold anchor_point. simpl in L'. simpl. rewrite L, L'.
    destruct hd as [i|st' a' b' blk' aid'].
    + simpl in Ha0. inv_ok. reflexivity.
    + apply release_strategy_ins_shape in Ha0. destruct Ha0 as (hp & r2 & r1 & r0 & Hf & _ & _ & _ & ->).
      simpl in *. unfold free_blk in Hf. destruct (nth_error (mheap m) blk') as [[?|]|]; try discriminate.
      inv_ok. rewrite nth_error_list_set_neq; auto. intros <-. apply M.
      apply lookup_handle_in in EL. apply lookup_handle_in in L.
      assert (X : (n, HIns st a b blk' aid) = (n0, HIns st' a' b' blk' aid')); [|congruence].
      eapply same_blk; eauto. apply (hi_blks _ (net_h _ _ N)).
  - unfold step_op in E. destruct (needs_model _ && _); [discriminate|]. inv_ok. destruct a0 as [m1 k].
    apply model_step_shape in Ha. destruct Ha as (p & v & h & -> & _ & _ & Hh).
    unfold anchor_point. simpl in *. rewrite L. apply (ins_point_pos _ _ blk Hh).
  - unfold step_op in E. simpl in E. inv_ok. reflexivity.
  - unfold step_op in E. destruct (needs_model _ && _); [discriminate|]. inv_ok. reflexivity.
Qed.

(** ** Settings *)

Lemma settings_step fuel m o m' u :
  step_op fuel m o = Ok (m', u) ->
  mset m' = match o with OpSettings st => st | _ => mset m end.
Proof.
  unfold step_op. destruct (needs_model o && negb (malive m)); [discriminate|].
  intros E. destruct o; inv_ok; auto.
  - destruct a as [m1 k]. unfold grab_anchor in *. inv_ok.
    match goal with X : activate _ _ = Ok _ |- _ => apply activate_shape in X; destruct X as (tg & id & -> & _) end. auto.
  - destruct a as [m1 k]. unfold insert_anchor in *. inv_ok.
    match goal with X : install_anchor _ _ = Ok ?r |- _ => destruct r as [m4 hd]; apply install_anchor_shape in X;
      destruct X as (idx & found & da & db & _ & _ & -> & _ & _ & ->) end.
    match goal with X : activate _ _ = Ok _ |- _ => apply activate_shape in X; destruct X as (tg & id & -> & _) end. auto.
  - apply move_anchor_rest in Ha. tauto.
  - unfold release_anchor in Ha. destruct (lookup_handle (mhandles m) n) as [hd|]; [|inv_ok; auto].
    destruct (malive m); [|discriminate]. inv_ok.
    apply deactivate_shape in Ha. destruct Ha as (tg & id & -> & _). simpl.
    destruct hd as [i|st' a' b' blk' aid'].
    + simpl in Ha0. inv_ok. reflexivity.
    + apply release_strategy_ins_shape in Ha0. destruct Ha0 as (hp & r2 & r1 & r0 & Hf & _ & _ & _ & ->). auto.
  - destruct a as [m1 k]. apply model_step_shape in Ha. destruct Ha as (p & v & h & -> & _). auto.
  - apply move_model_by_shape in Ha. destruct Ha as (h & -> & _). auto.
  - unfold move_model_to in Ha. inv_ok. destruct a as [q m1].
    apply target_position_shape in Ha0. destruct Ha0 as (id & -> & _).
    apply move_model_by_shape in Ha. destruct Ha as (h & -> & Hh). auto.
  - apply resize_model_shape in Ha. destruct Ha as [->|(po & to & id & hp & -> & _)]; auto.
Qed.

End Moves.

(** ** Nearest spring *)

Local Open Scope R_scope.
Local Arguments vdist : simpl never.

(** [i] is the first of the springs with the least key (distance of the first
    end, then distance of the second end). *)
Definition spring_key (mm : mem R) (p : vec R) (s : spring R) (k : R * R) : Prop :=
  exists pa pb, rd_pos mm (s_pa s) = Ok pa /\ rd_pos mm (s_pb s) = Ok pb /\
    k = (vdist pa p, vdist pb p).

Definition scan_ok (mm : mem R) (p : vec R) (ss : list (spring R)) (acc : option nat * R * R) : Prop :=
  let '(found, prim, sec) := acc in
  match found with
  | None => prim = Rmaxv /\ ss = []
  | Some i => exists s, nth_error ss i = Some s /\ spring_key mm p s (prim, sec) /\
        forall j r k, nth_error ss j = Some r -> spring_key mm p r k ->
          key_less (prim, sec) k \/ ((prim, sec) = k /\ (i <= j)%nat)
  end.

Lemma nth_error_snoc {A} (l : list A) a j x :
  nth_error (l ++ [a]) j = Some x -> nth_error l j = Some x \/ (j = length l /\ x = a).
Proof.
  intros E. destruct (Nat.lt_ge_cases j (length l)).
  - rewrite nth_error_app1 in E by auto. auto.
  - rewrite nth_error_app2 in E by auto. destruct (j - length l)%nat as [|q] eqn:Eq; simpl in E.
    + inversion E. right. split; auto. lia.
    + destruct q; discriminate.
Qed.

Lemma find_one_spec mm p ss s acc acc' k :
  spring_key mm p s k -> fst k < Rmaxv -> snd k < Rmaxv ->
  scan_ok mm p ss acc -> find_one mm p (length ss) s acc = Ok acc' -> scan_ok mm p (ss ++ [s]) acc'.
Proof.
  intros (pa & pb & Ea & Eb & ->) Ka Kb S E. destruct acc as [[found prim] sec]. simpl in Ka, Kb.
  assert (KS : spring_key mm p s (vdist pa p, vdist pb p)) by (exists pa, pb; auto).
  assert (KU : forall k, spring_key mm p s k -> k = (vdist pa p, vdist pb p)).
  { intros k (qa & qb & X & Y & ->). congruence. }
  assert (NS : nth_error (ss ++ [s]) (length ss) = Some s) by
    (rewrite nth_error_app2, Nat.sub_diag; auto).
  assert (NL : forall i r, nth_error ss i = Some r -> (i < length ss)%nat).
  { intros i r X. apply nth_error_Some. congruence. }
  unfold find_one in E. rewrite Ea in E. cbn [bind] in E. rnum.
  destruct (Rltb_spec (vdist pa p) prim) as [L|L].
  - (* a nearer first end *)
    unfold neqb in E. cbn in E. unfold Reqb in E. destruct (Req_EM_T (vdist pa p) (vdist pa p)); [|congruence].
    rewrite Eb in E. cbn [bind] in E.
    destruct (Rltb_spec (vdist pb p) Rmaxv) as [L2|L2]; [|lra]. inv_ok.
    exists s. split; auto. split; auto. intros j r k Hj Hk. apply nth_error_snoc in Hj.
    destruct Hj as [Hj|[-> ->]].
    + left. left. simpl. destruct found as [i|].
      * destruct S as (s0 & S1 & S2 & S3). specialize (S3 _ _ _ Hj Hk).
        destruct S3 as [[X|[X _]]|[X _]]; simpl in *; [lra|lra|]. subst k. simpl. lra.
      * destruct S as [_ ->]. destruct j; discriminate.
    + right. rewrite (KU _ Hk). auto.
  - destruct found as [i|].
    2:{ destruct S as [-> ->]. exfalso. lra. }
    destruct S as (s0 & S1 & S2 & S3). pose proof (NL _ _ S1) as Hi.
    unfold Reqb in E. destruct (Req_EM_T (vdist pa p) prim) as [Q|Q].
    + subst prim. rewrite Eb in E. cbn [bind] in E. destruct (Rltb_spec (vdist pb p) sec) as [L2|L2]; inv_ok.
      * exists s. split; auto. split; [auto|]. intros j r k Hj Hk. apply nth_error_snoc in Hj.
        destruct Hj as [Hj|[-> ->]].
        -- left. specialize (S3 _ _ _ Hj Hk). destruct S3 as [[X|[X Y]]|[X _]].
           ++ left; auto.
           ++ right. simpl in *. split; auto; lra.
           ++ subst k. right. simpl. auto.
        -- right. rewrite (KU _ Hk). auto.
      * exists s0. split; [rewrite nth_error_app1; auto|]. split; auto.
        intros j r k Hj Hk. apply nth_error_snoc in Hj. destruct Hj as [Hj|[-> ->]]; eauto.
        rewrite (KU _ Hk). destruct (Rle_lt_or_eq_dec sec (vdist pb p)); [lra| |].
        -- left. right. simpl. auto.
        -- right. split; [congruence|lia].
    + inv_ok. exists s0. split; [rewrite nth_error_app1; auto|]. split; auto.
      intros j r k Hj Hk. apply nth_error_snoc in Hj. destruct Hj as [Hj|[-> ->]]; eauto.
      rewrite (KU _ Hk). left. left. simpl. lra.
Qed.

Lemma find_from_spec mm p : forall ss pre acc acc',
  (forall s, In s ss -> exists k, spring_key mm p s k /\ fst k < Rmaxv /\ snd k < Rmaxv) ->
  scan_ok mm p pre acc -> find_from mm p (length pre) ss acc = Ok acc' -> scan_ok mm p (pre ++ ss) acc'.
Proof.
  induction ss as [|s ss IH]; intros pre acc acc' K S E; simpl in E; inv_ok.
  - rewrite app_nil_r. auto.
  - destruct (K s (or_introl eq_refl)) as (k & K1 & K2 & K3).
    pose proof (find_one_spec _ _ _ _ _ _ _ K1 K2 K3 S Ha) as S'.
    replace (pre ++ s :: ss) with ((pre ++ [s]) ++ ss) by (rewrite <- app_assoc; auto).
    eapply IH; eauto.
    + intros s' Hs'. apply K. right; auto.
    + rewrite app_length. simpl. replace (length pre + 1)%nat with (Datatypes.S (length pre)) by lia. auto.
Qed.

Lemma find_spring_spec mm p ss i :
  (forall s, In s ss -> exists k, spring_key mm p s k /\ fst k < Rmaxv /\ snd k < Rmaxv) ->
  find_spring mm p ss = Ok i ->
  exists s k, nth_error ss i = Some s /\ spring_key mm p s k /\
    forall j r k', nth_error ss j = Some r -> spring_key mm p r k' ->
      key_less k k' \/ (k = k' /\ (i <= j)%nat).
Proof.
  intros K E. unfold find_spring in E. inv_ok. destruct a as [[found prim] sec]. simpl in E. subst.
  eapply (find_from_spec mm p ss []) in Ha; auto.
  - simpl in Ha. destruct Ha as (s & S1 & S2 & S3). exists s, (prim, sec). auto.
  - split; auto.
Qed.

Lemma find_spring_found mm p ss e :
  (forall s, In s ss -> exists k, spring_key mm p s k /\ fst k < Rmaxv /\ snd k < Rmaxv) ->
  ss <> [] -> find_spring mm p ss <> Err e.
Proof.
  intros K NE E. unfold find_spring in E. apply bind_err in E. destruct E as [E|(acc & E1 & E)].
  - clear NE. revert E. change (@nmax R _) with Rmaxv. generalize 0%nat, (@None nat, Rmaxv, Rmaxv).
    induction ss as [|s ss IH]; intros i acc E; simpl in E; [discriminate|].
    destruct (K s (or_introl eq_refl)) as (k & (pa & pb & Ea & Eb & _) & _).
    apply bind_err in E. destruct E as [E|(acc1 & _ & E)].
    + unfold find_one in E. destruct acc as [[f pr] se]. rewrite Ea, Eb in E. cbn [bind] in E.
      repeat match type of E with context [if ?b then _ else _] => destruct b end; discriminate.
    + refine (IH _ _ _ E). intros s' Hs'. apply K. right; auto.
  - eapply (find_from_spec mm p ss []) in E1; auto; [|split; auto].
    destruct acc as [[[i|] prim] sec]; simpl in *; [discriminate|]. destruct E1. auto.
Qed.
