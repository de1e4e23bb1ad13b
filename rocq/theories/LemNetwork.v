(** The spring network, the storage of inserted anchors and their references,
    through every operation, for any arithmetic. *)

From Coq Require Import ZArith Bool List Lia Permutation.
From Verif Require Import Num Geometry Outcome Wobbly Spec LemBasic LemInv LemSprings LemHistory.
Import ListNotations.
Local Open Scope Z_scope.

Section Network.
Context {T : Type} `{Num T}.
Implicit Types (m : model T) (s : spring T) (hs : list (nat * handle T)).

(** A spring without its rest length. *)
Definition topo s : loc * loc * loc * loc * Z := (s_fa s, s_fb s, s_pa s, s_pb s, s_id s).

Record HInv m : Prop := {
  hi_ins : minserted m = live_blks (mhandles m);
  hi_aids : NoDup (map fst (live_blks (mhandles m)));
  hi_aid_lt : forall a, In a (map fst (live_blks (mhandles m))) -> a < mnext_anchor m;
  hi_blks : NoDup (map snd (live_blks (mhandles m)));
  hi_heap : forall b, nth_error (heap_live (mheap m)) b = Some true <->
                      In b (map snd (live_blks (mhandles m))) }.

Definition OInv m : Prop :=
  forall n1 s1 a1 b1 k1 i1 n2 s2 a2 b2 k2 i2,
    In (n1, HIns s1 a1 b1 k1 i1) (mhandles m) -> In (n2, HIns s2 a2 b2 k2 i2) (mhandles m) ->
    (n1 < n2)%nat -> a1 < a2.

Record Net (base : list Z) m : Prop := {
  net_inv : Inv m; net_s : SInv base m; net_h : HInv m; net_o : OInv m }.

(** Operations that leave the network alone, up to rest lengths. *)
Record frame (f : spring T -> spring T) m m' : Prop := {
  fr_topo : forall s, topo (f s) = topo s;
  fr_springs : msprings m' = map f (msprings m);
  fr_pending : mpending m' = mpending m;
  fr_handles : mhandles m' = mhandles m;
  fr_next : mnext_handle m' = mnext_handle m;
  fr_ins : minserted m' = minserted m;
  fr_anchor : mnext_anchor m' = mnext_anchor m;
  fr_heap : heap_live (mheap m') = heap_live (mheap m);
  fr_id : mnext_id m <= mnext_id m' }.

Definition idf (s : spring T) := s.
Lemma map_idf (l : list (spring T)) : l = map idf l.
Proof. symmetry. apply map_id. Qed.

Lemma ids_topo f (l : list (spring T)) : (forall s, topo (f s) = topo s) -> ids (map f l) = ids l.
Proof.
  intros E. unfold ids. rewrite map_map. apply map_ext. intros s. specialize (E s).
  unfold topo in E. congruence.
Qed.

Lemma hinv_ext m m' :
  HInv m -> mhandles m' = mhandles m -> minserted m' = minserted m ->
  mnext_anchor m' = mnext_anchor m -> heap_live (mheap m') = heap_live (mheap m) -> HInv m'.
Proof. intros [A B C D E] E1 E2 E3 E4. constructor; rewrite ?E1, ?E2, ?E3, ?E4; auto. Qed.

Lemma frame_step fuel m o m' u :
  step_op fuel m o = Ok (m', u) ->
  match o with
  | OpGrab _ | OpInsert _ | OpRelease _ => True
  | _ => exists f, frame f m m' /\ (is_resize o = false -> f = idf)
  end.
Proof.
  unfold step_op. destruct (needs_model o && negb (malive m)); [discriminate|].
  intros E; destruct o; auto; inv_ok.
  - exists idf. split; auto. unfold move_anchor in Ha.
    destruct (lookup_handle (mhandles m) n) as [hd|]; [|discriminate].
    destruct (malive m) eqn:EA; [|discriminate].
    destruct (active m); destruct hd; inv_ok; constructor; simpl; auto using map_idf; try lia.
    + apply rd_blk_ok in Ha0. unfold heap_live. rewrite list_set_map. apply list_set_same.
      simpl in Ha0. rewrite (map_nth_error _ _ _ Ha0). auto.
    + apply rd_blk_ok in Ha0. unfold heap_live. rewrite list_set_map. apply list_set_same.
      simpl in Ha0. rewrite (map_nth_error _ _ _ Ha0). auto.
  - exists idf. split; auto. destruct a as [m1 k]. apply model_step_shape in Ha.
    destruct Ha as (pp & v & h & -> & _ & _ & Hh). apply heap_live_pos in Hh.
    constructor; simpl; auto using map_idf; lia.
  - exists idf. split; auto. apply move_model_by_shape in Ha. destruct Ha as (h & -> & Hh).
    constructor; simpl; auto using map_idf; lia.
  - exists idf. split; auto. unfold move_model_to in Ha. inv_ok. destruct a as [q m1].
    apply target_position_shape in Ha0. destruct Ha0 as (id & -> & Hid).
    apply move_model_by_shape in Ha. destruct Ha as (hh & -> & Hh).
    constructor; simpl; auto using map_idf.
  - apply resize_model_shape in Ha. destruct Ha as [->|(po & to & id & hp & -> & Hh & Hid)].
    + exists idf. split; auto. constructor; auto using map_idf; lia.
    + eexists (scale_length _). split; [|discriminate].
      constructor; simpl; try reflexivity; auto.
  - exists idf. split; auto. constructor; simpl; auto using map_idf; lia.
  - exists idf. split; auto. constructor; simpl; auto using map_idf; lia.
Qed.

Lemma net_frame base f m m' : Net base m -> Inv m' -> frame f m m' -> Net base m'.
Proof.
  intros [I S HH O] I' F. destruct F. constructor; auto.
  - eapply sinv_ext; eauto. rewrite fr_springs0. apply ids_topo; auto.
  - eapply hinv_ext; eauto.
  - unfold OInv. rewrite fr_handles0. auto.
Qed.

Lemma hinv_grab m m' n i :
  HInv m -> mhandles m' = mhandles m ++ [(n, HGrab i)] -> minserted m' = minserted m ->
  mnext_anchor m' = mnext_anchor m -> mheap m' = mheap m -> HInv m'.
Proof.
  intros [A B C D E] E1 E2 E3 E4.
  assert (X : live_blks (mhandles m') = live_blks (mhandles m)).
  { rewrite E1, live_blks_app. simpl. apply app_nil_r. }
  constructor; rewrite ?X, ?E2, ?E3, ?E4; auto.
Qed.

Lemma oinv_grab m m' n i : OInv m -> mhandles m' = mhandles m ++ [(n, HGrab i)] -> OInv m'.
Proof.
  unfold OInv. intros O -> n1 s1 a1 b1 k1 i1 n2 s2 a2 b2 k2 i2.
  rewrite !in_app_iff. simpl. intros [X|[X|[]]] [Y|[Y|[]]]; try discriminate. eauto.
Qed.

Lemma heap_live_app (h h' : list (block T)) : heap_live (h ++ h') = heap_live h ++ heap_live h'.
Proof. apply map_app. Qed.
Lemma heap_live_len (h : list (block T)) : length (heap_live h) = length h.
Proof. apply map_length. Qed.

Lemma hinv_install m m' n st i1 i2 p :
  HInv m ->
  mhandles m' = mhandles m ++ [(n, HIns st i1 i2 (length (mheap m)) (mnext_anchor m))] ->
  minserted m' = minserted m ++ [(mnext_anchor m, length (mheap m))] ->
  mnext_anchor m' = mnext_anchor m + 1 -> mheap m' = mheap m ++ [Some p] -> HInv m'.
Proof.
  intros [A B C D E] E1 E2 E3 E4.
  assert (X : live_blks (mhandles m') = live_blks (mhandles m) ++ [(mnext_anchor m, length (mheap m))]).
  { rewrite E1, live_blks_app. reflexivity. }
  constructor; rewrite ?X, ?E2, ?E3, ?E4, ?map_app; simpl.
  - congruence.
  - apply NoDup_snoc; auto. intros Hin. apply C in Hin. lia.
  - intros a. rewrite in_app_iff. simpl. intros [Ha|[Ha|[]]]; [apply C in Ha|]; lia.
  - apply NoDup_snoc; auto. intros Hin. apply E in Hin.
    assert (length (mheap m) < length (heap_live (mheap m)))%nat.
    { apply nth_error_Some. rewrite Hin. discriminate. }
    rewrite heap_live_len in H0. lia.
  - intros b. rewrite heap_live_app, in_app_iff. simpl.
    destruct (Nat.lt_trichotomy b (length (mheap m))) as [L|[L|L]].
    + rewrite nth_error_app1 by (rewrite heap_live_len; auto). rewrite E. intuition lia.
    + subst. rewrite nth_error_app2 by (rewrite heap_live_len; auto).
      rewrite heap_live_len, Nat.sub_diag. simpl. intuition.
    + rewrite nth_error_app2 by (rewrite heap_live_len; lia). rewrite heap_live_len.
      destruct (b - length (mheap m))%nat as [|k] eqn:Eb; [lia|]. simpl.
      split; [destruct k; discriminate|]. intros [X1|[X1|[]]]; [|lia].
      apply E in X1. assert (b < length (heap_live (mheap m)))%nat.
      { apply nth_error_Some. rewrite X1. discriminate. }
      rewrite heap_live_len in H0. lia.
Qed.

Lemma live_id_le base m n st a b k i :
  SInv base m -> In (n, HIns st a b k i) (mhandles m) -> a <= mnext_id m /\ b <= mnext_id m.
Proof.
  intros [_ _ _ L _] Hin.
  assert (forall x, In x [a; b] -> In x (base ++ live_ids (mhandles m) ++ mpending m)).
  { intros x Hx. apply in_or_app. right. apply in_or_app. left. unfold live_ids.
    apply in_flat_map. exists (n, HIns st a b k i). auto. }
  split; apply L, H0; simpl; auto.
Qed.

Lemma oinv_install base m m' n st a b k i :
  SInv base m -> Inv m -> OInv m -> n = mnext_handle m -> mnext_id m < a ->
  mhandles m' = mhandles m ++ [(n, HIns st a b k i)] -> OInv m'.
Proof.
  unfold OInv. intros S I O -> Ha -> n1 s1 a1 b1 k1 i1 n2 s2 a2 b2 k2 i2.
  rewrite !in_app_iff. simpl.
  assert (X : forall n1 s1 a1 b1 k1 i1, In (n1, HIns s1 a1 b1 k1 i1) (mhandles m) -> (n1 < mnext_handle m)%nat).
  { intros. apply (inv_next _ I). apply in_map_iff. eexists; split; [|eauto]. auto. }
  intros [X1|[X1|[]]] [Y|[Y|[]]] L.
  - eauto.
  - inversion Y; subst. eapply live_id_le in X1; eauto. lia.
  - inversion X1; subst. apply X in Y. lia.
  - inversion X1; inversion Y; subst. lia.
Qed.

Lemma heap_live_free h b hp :
  free_blk (T:=T) h b = Ok hp -> hp = list_set b None h /\ exists pf, nth_error h b = Some (Some pf).
Proof.
  unfold free_blk. destruct (nth_error h b) as [[pf|]|] eqn:E; intros X; inversion X; eauto.
Qed.

Lemma NoDup_map_In_eq {A B} (f : A -> B) l x y :
  NoDup (map f l) -> In x l -> In y l -> f x = f y -> x = y.
Proof.
  induction l; simpl; [tauto|]. intros N. apply NoDup_cons_iff in N. destruct N as [N1 N2].
  intros [<-|X] [<-|Y] E; auto.
  - exfalso. apply N1. rewrite E. apply in_map; auto.
  - exfalso. apply N1. rewrite <- E. apply in_map; auto.
Qed.

Lemma hinv_release m m' l1 l2 n st i1 i2 b aid hp :
  HInv m -> mhandles m = l1 ++ (n, HIns st i1 i2 b aid) :: l2 ->
  free_blk (mheap m) b = Ok hp ->
  mhandles m' = l1 ++ l2 ->
  minserted m' = filter (fun ab => negb (fst ab =? aid)) (minserted m) ->
  mnext_anchor m' = mnext_anchor m -> mheap m' = hp -> HInv m'.
Proof.
  intros [A B C D E] E0 Fr E1 E2 E3 E4. apply heap_live_free in Fr. destruct Fr as [-> (pf & Hpf)].
  rewrite E0 in *. rewrite live_blks_app in *. simpl in *.
  assert (X : filter (fun ab => negb (fst ab =? aid)) (live_blks l1 ++ (aid, b) :: live_blks l2)
              = live_blks (l1 ++ l2)).
  { rewrite map_app in B. simpl in B. apply NoDup_remove in B. destruct B as [_ B].
    rewrite filter_app. simpl. rewrite Z.eqb_refl. simpl. rewrite live_blks_app.
    rewrite in_app_iff in B.
    f_equal; apply filter_all; intros [a k] Hin; simpl; destruct (Z.eqb_spec a aid); auto; subst;
      exfalso; apply B; [left|right]; apply in_map_iff; exists (aid, k); auto. }
  constructor; rewrite ?E1, ?E2, ?E3, ?E4.
  - rewrite A. exact X.
  - rewrite live_blks_app, map_app in *. simpl in B. apply NoDup_remove in B. tauto.
  - intros a Ha. apply C. rewrite live_blks_app, map_app, in_app_iff in *. simpl. tauto.
  - rewrite live_blks_app, map_app in *. simpl in D. apply NoDup_remove in D. tauto.
  - intros k. unfold heap_live. rewrite list_set_map, nth_error_list_set. fold (heap_live (mheap m)).
    rewrite heap_live_len. rewrite live_blks_app. rewrite map_app in *. simpl in *.
    apply NoDup_remove in D. destruct D as [_ D].
    destruct (Nat.eqb_spec b k).
    + subst. assert (k < length (mheap m))%nat by (apply nth_error_Some; rewrite Hpf; discriminate).
      rewrite (proj2 (Nat.ltb_lt _ _) H0). simpl. split; [discriminate|tauto].
    + simpl. rewrite E. rewrite !in_app_iff. simpl. tauto.
Qed.

Lemma oinv_release m m' l1 l2 x :
  OInv m -> mhandles m = l1 ++ x :: l2 -> mhandles m' = l1 ++ l2 -> OInv m'.
Proof.
  unfold OInv. intros O E -> n1 s1 a1 b1 k1 i1 n2 s2 a2 b2 k2 i2 X Y. rewrite E in O.
  eapply O; rewrite in_app_iff in *; simpl; [destruct X|destruct Y]; eauto.
Qed.

(** What a release does to the fields of the network. *)
Lemma release_anchor_shape fuel n m m' hd :
  lookup_handle (mhandles m) n = Some hd -> release_anchor fuel n m = Ok m' ->
  malive m = true /\
  exists m1, release_strategy hd (set_handles m (remove_handle (mhandles m) n) (mnext_handle m)) = Ok m1 /\
    deactivate fuel m1 = Ok m'.
Proof.
  unfold release_anchor. intros -> E. destruct (malive m); [|discriminate]. inv_ok. eauto.
Qed.

Lemma net_step base fuel m o m' u :
  Net base m -> step_op fuel m o = Ok (m', u) -> Net base m'.
Proof.
  intros N E. pose proof (inv_step_op _ _ _ _ _ (net_inv _ _ N) E) as I'.
  destruct N as [I S HH O].
  pose proof (frame_step _ _ _ _ _ E) as F.
  unfold step_op in E. destruct (needs_model o && negb (malive m)); [discriminate|].
  destruct o; try (destruct F as (f & F & _); eapply net_frame; eauto; constructor; auto; fail); inv_ok.
  - destruct a as [m1 k]. simpl in *. unfold grab_anchor in Ha. inv_ok.
    apply activate_shape in Ha1. destruct Ha1 as (tg & id & -> & Hid & _). simpl in *.
    constructor; auto.
    + eapply sinv_grab with (n := mnext_handle m) (i := a); eauto.
      intros Hin. apply (inv_next _ I) in Hin. lia.
    + eapply hinv_grab; eauto; reflexivity.
    + eapply oinv_grab; eauto; reflexivity.
  - destruct a as [m1 k]. simpl in *. unfold insert_anchor in Ha. inv_ok.
    apply activate_shape in Ha0. destruct Ha0 as (tg & id & -> & Hid & _).
    destruct a0 as [m1 hd]. apply install_anchor_shape in Ha1.
    destruct Ha1 as (idx & found & da & db & _ & Hn & -> & _ & _ & ->). simpl in *.
    assert (S1 : SInv base (set_targets (set_next_id (set_count (set_unequal m true) (mcount m + 1)) id) tg)).
    { eapply sinv_ext; eauto; reflexivity. }
    constructor; auto.
    + eapply (sinv_install base _ idx found (mnext_handle m)); [exact S1|exact Hn| | | | | | | |]; try reflexivity; simpl; try reflexivity.
    + eapply hinv_install; eauto; reflexivity.
    + eapply oinv_install with (a := id + 1) (m := m); eauto; [|reflexivity]. lia.
  - destruct (lookup_handle (mhandles m) n) as [hd|] eqn:EL.
    2:{ unfold release_anchor in Ha. rewrite EL in Ha. inv_ok. constructor; auto. }
    destruct (release_anchor_shape _ _ _ _ _ EL Ha) as (_ & m1 & R & Dv).
    destruct (remove_handle_perm _ _ _ (inv_keys _ I) EL) as (l1 & l2 & El & Er).
    apply deactivate_shape in Dv. destruct Dv as (tg & id & -> & Hid & _).
    destruct hd as [i | stolen i1 i2 b aid].
    + simpl in R. inv_ok. simpl in *. constructor; auto.
      * destruct S as [P1 P2 P3 P4 P5]. rewrite El in *.
        rewrite stolens_app, live_ids_app in *. simpl in *.
        constructor; simpl; rewrite Er, ?stolens_app, ?live_ids_app; auto.
        -- intros j Hj. apply P4 in Hj. lia.
        -- intros k hh Hk. apply (P5 k hh). rewrite in_app_iff in *. simpl. tauto.
      * destruct HH as [A B C D Eh]. rewrite El in *. rewrite live_blks_app in *. simpl in *.
        constructor; simpl; rewrite Er, ?live_blks_app; auto.
      * eapply oinv_release; eauto.
    + apply release_strategy_ins_shape in R.
      destruct R as (hp & r2 & r1 & r0 & Fb & R2 & R1 & R0 & ->). simpl in *.
      destruct (sinv_release_ins base m l1 l2 n stolen i1 i2 b aid S El) as (x2 & x1 & x0 & X2 & X1 & X0 & _ & X).
      rewrite R2 in X2. inversion X2; subst x2. rewrite R1 in X1. inversion X1; subst x1.
      rewrite R0 in X0. inversion X0; subst x0.
      constructor.
      * exact I'.
      * apply X; auto.
      * eapply hinv_release; eauto.
      * eapply oinv_release; eauto.
Qed.

Lemma net_init p w h st next : Net (base_ids next) (model_init p w h st next).
Proof.
  constructor.
  - apply inv_init.
  - apply sinv_init.
  - constructor; simpl; try constructor; try tauto. destruct b; discriminate. 
  - intros n1 s1 a1 b1 k1 i1 n2 s2 a2 b2 k2 i2 [].
Qed.

Lemma net_run base fuel ops m m' us : Net base m -> run fuel m ops = Ok (m', us) -> Net base m'.
Proof. apply run_inv. intros. eapply net_step; eauto. Qed.

End Network.
