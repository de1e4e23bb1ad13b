(** Contents of the springs, references to storage, and which errors a call can
    end in. *)

From Coq Require Import ZArith Bool List Lia Permutation.
From Verif Require Import Num Geometry Outcome Wobbly Spec LemBasic LemInv LemSprings LemHistory LemNetwork.
Import ListNotations.
Local Open Scope Z_scope.

Section Lifo.
Context {T : Type} `{Num T}.
Implicit Types (m : model T) (s : spring T) (hs : list (nat * handle T)).

Definition all_springs m : list (spring T) := msprings m ++ stolens (mhandles m).

(** ** A property of all springs *)

Lemma stolens_remove l n hs' : hs' = remove_handle (T:=T) l n -> incl (stolens hs') (stolens l).
Proof.
  intros -> s. unfold stolens. rewrite !in_flat_map. intros (x & Hx & Hs).
  exists x. split; auto. unfold remove_handle in Hx. apply filter_In in Hx. tauto.
Qed.

Lemma all_springs_step (Q : spring T -> Prop) base fuel m o m' u :
  Net base m ->
  (forall s, mnext_id m < s_id s -> Q s) ->
  (is_resize o = true -> forall f s, Q s -> Q (scale_length f s)) ->
  step_op fuel m o = Ok (m', u) ->
  (is_resize o = true -> Forall Q (stolens (mhandles m))) ->
  Forall Q (all_springs m) -> Forall Q (all_springs m').
Proof.
  intros N Hfresh Hres E _ A. unfold all_springs in *. rewrite Forall_app in A. destruct A as [A1 A2].
  pose proof (frame_step _ _ _ _ _ E) as F. rewrite Forall_app.
  unfold step_op in E. destruct (needs_model o && negb (malive m)); [discriminate|].
  destruct o; try (destruct F as (f & F & Ff); rewrite (fr_springs _ _ _ F), (fr_handles _ _ _ F);
    rewrite Ff by reflexivity; rewrite <- map_idf; auto; fail); inv_ok.
  - destruct a as [m1 k]. simpl in *. unfold grab_anchor in Ha. inv_ok.
    apply activate_shape in Ha1. destruct Ha1 as (tg & id & -> & Hid & _). simpl in *.
    rewrite stolens_app. simpl. rewrite app_nil_r. auto.
  - destruct a as [m1 k]. simpl in *. unfold insert_anchor in Ha. inv_ok.
    apply activate_shape in Ha0. destruct Ha0 as (tg & id & -> & Hid & _).
    destruct a0 as [m1 hd]. apply install_anchor_shape in Ha1.
    destruct Ha1 as (idx & found & da & db & _ & Hn & -> & _ & _ & ->). simpl in *.
    rewrite stolens_app. simpl. rewrite !Forall_app.
    assert (Qf : Q found) by (eapply Forall_forall; [exact A1|]; eapply nth_error_In; eauto).
    repeat split; auto.
    + apply Forall_forall. intros s Hs. eapply Forall_forall in A1; [exact A1|].
      eapply list_del_incl; eauto.
    + repeat constructor; apply Hfresh; simpl; lia.
  - destruct (lookup_handle (mhandles m) n) as [hd|] eqn:EL.
    2:{ unfold release_anchor in Ha. rewrite EL in Ha. inv_ok. auto. }
    destruct (release_anchor_shape _ _ _ _ _ EL Ha) as (_ & m1 & R & Dv).
    destruct (remove_handle_perm _ _ _ (inv_keys _ (net_inv _ _ N)) EL) as (l1 & l2 & El & Er).
    apply deactivate_shape in Dv. destruct Dv as (tg & id & -> & Hid & _).
    assert (X : Forall Q (stolens (remove_handle (mhandles m) n))).
    { apply Forall_forall. intros s Hs. eapply Forall_forall in A2; [exact A2|].
      eapply stolens_remove; eauto. }
    destruct hd as [i | stolen i1 i2 b aid].
    + simpl in R. inv_ok. simpl in *. auto.
    + apply release_strategy_ins_shape in R.
      destruct R as (hp & r2 & r1 & r0 & Fb & R2 & R1 & R0 & ->). simpl in *. split; auto.
      destruct (sinv_release_ins base m l1 l2 n stolen i1 i2 b aid (net_s _ _ N) El)
        as (x2 & x1 & x0 & X2 & X1 & X0 & Y & _).
      rewrite R2 in X2. inversion X2; subst x2. rewrite R1 in X1. inversion X1; subst x1.
      rewrite R0 in X0. inversion X0; subst x0.
      apply Forall_forall. intros s Hs. apply Y in Hs. destruct Hs as ([Hs| ->] & _).
      * eapply Forall_forall in A1; eauto.
      * eapply Forall_forall in A2; [exact A2|]. rewrite El, stolens_app. simpl.
        apply in_or_app. right; left; auto.
  - apply resize_model_shape in Ha. destruct Ha as [->|(po & to & id & hp & -> & Hh & Hid)]; auto.
    simpl. split; auto. apply Forall_map. eapply Forall_impl; [|exact A1].
    intros s Hs. apply Hres; auto.
Qed.

(** Base springs keep their ends for ever, and their lengths when the model is
    not resized. *)
Definition keeps_topo (B : list (spring T)) s : Prop := In (s_id s) (ids B) -> In (topo s) (map topo B).
Definition keeps (B : list (spring T)) s : Prop := In (s_id s) (ids B) -> In s B.

Lemma keeps_run (resizing : bool) (B : list (spring T)) fuel ops m m' us :
  Net (ids B) m -> (resizing = false -> existsb is_resize ops = false) ->
  run fuel m ops = Ok (m', us) ->
  let Q := if resizing then keeps_topo B else keeps B in
  Forall Q (all_springs m) -> Forall Q (all_springs m').
Proof.
  intros N HR E Q. revert m us N HR E; induction ops; intros m us N HR E A; simpl in E; inv_ok; auto.
  destruct a0 as [m1 u1]. destruct a1 as [m2 us2]. simpl in *. inv_ok.
  eapply IHops; [| |exact Ha0|].
  - eapply net_step; eauto.
  - intros X. specialize (HR X). apply orb_false_iff in HR. tauto.
  - eapply all_springs_step; eauto.
    + intros s Hs. assert (X : ~ In (s_id s) (ids B)).
      { intros Hin. assert (s_id s <= mnext_id m); [|lia].
        apply (si_le _ _ (net_s _ _ N)). apply in_or_app; auto. }
      unfold Q, keeps_topo, keeps. destruct resizing; tauto.
    + intros X f s. unfold Q, keeps_topo, keeps. destruct resizing; auto.
      specialize (HR eq_refl). rewrite X in HR. discriminate.
    + intros _. unfold all_springs in A. rewrite Forall_app in A. tauto.
Qed.

Lemma keeps_base B : NoDup (ids B) -> Forall (keeps B) B.
Proof. intros _. apply Forall_forall. intros s Hs _. auto. Qed.
Lemma keeps_topo_base B : Forall (keeps_topo B) B.
Proof. apply Forall_forall. intros s Hs _. apply in_map; auto. Qed.

Lemma NoDup_map_inj {A B} (f : A -> B) l : NoDup (map f l) -> NoDup l.
Proof. apply NoDup_map_inv. Qed.

Lemma perm_of_keeps {A} (f : A -> Z) (l B : list A) :
  Permutation (map f l) (map f B) -> NoDup (map f B) -> (forall x, In x l -> In x B) -> Permutation l B.
Proof.
  intros P ND K. assert (NDl : NoDup (map f l)) by (eapply Permutation_NoDup; [symmetry; eauto|auto]).
  apply NoDup_Permutation; [eapply NoDup_map_inj; eauto|eapply NoDup_map_inj; eauto|].
  intros x; split; auto. intros Hs.
  assert (In (f x) (map f l)) by (eapply Permutation_in; [symmetry; exact P|]; apply in_map; auto).
  apply in_map_iff in H0. destruct H0 as (x' & Es & Hs').
  assert (x' = x) by (eapply NoDup_map_In_eq; [exact ND| | |]; eauto). subst; auto.
Qed.

(** No inserted anchor is live. *)
Definition no_inserted m : Prop := forall n h, In (n, h) (mhandles m) -> kind_of h = KGrab.

Lemma no_inserted_lists m :
  no_inserted m -> stolens (mhandles m) = [] /\ live_ids (mhandles m) = [] /\ live_blks (mhandles m) = [].
Proof.
  unfold no_inserted. induction (mhandles m) as [|[n h] l IH]; simpl; auto. intros X.
  destruct IH as (A & B & C); [intros; eapply X; eauto|]. rewrite A, B, C.
  specialize (X n h (or_introl eq_refl)). destruct h; [auto|discriminate].
Qed.

Lemma restored base m :
  Net base m -> no_inserted m ->
  Permutation (ids (msprings m)) base /\ mpending m = [] /\ minserted m = [] /\
  Forall (fun b => b = None) (mheap m).
Proof.
  intros N X. apply no_inserted_lists in X. destruct X as (A & B & C).
  destruct N as [I [P1 P2 P3 P4 P5] [H1 H2 H3 H4 H5] O]. rewrite A, B, C in *.
  assert (PN : mpending m = []).
  { destruct (mpending m) as [|x l]; auto. exfalso. apply (P2 x). left; auto. }
  rewrite PN in *. simpl in P1. rewrite !app_nil_r in P1. repeat split; auto.
  apply Forall_forall. intros b Hb. apply In_nth_error in Hb. destruct Hb as (k & Hk).
  destruct b as [pf|]; auto. exfalso. apply (H5 k). unfold heap_live.
  rewrite (map_nth_error _ _ _ Hk). auto.
Qed.

(** ** References *)

Definition own (nh : nat * handle T) : list (Z * Z * nat) :=
  match snd nh with HIns _ a b k _ => [(a, b, k)] | HGrab _ => [] end.
Definition owns hs : list (Z * Z * nat) := flat_map own hs.

Definition loc_ok hs (id : Z) (l : loc) : Prop :=
  match l with
  | LMesh i => (i < 16)%nat
  | LBlk b => exists a1 b1 a2 b2 k2, In (a1, b1, b) (owns hs) /\ In (a2, b2, k2) (owns hs) /\
                (id = a2 \/ id = b2) /\ a1 <= a2
  end.
Definition refs_ok hs s : Prop :=
  loc_ok hs (s_id s) (s_fa s) /\ loc_ok hs (s_id s) (s_fb s) /\
  loc_ok hs (s_id s) (s_pa s) /\ loc_ok hs (s_id s) (s_pb s).

Definition RInv m : Prop := Forall (refs_ok (mhandles m)) (all_springs m).

Lemma owns_app l l' : owns (l ++ l') = owns l ++ owns l'.
Proof. apply flat_map_app. Qed.

Lemma in_owns hs a b k : In (a, b, k) (owns hs) <-> exists n st aid, In (n, HIns st a b k aid) hs.
Proof.
  unfold owns. rewrite in_flat_map. split.
  - intros ([n h] & Hin & Ho). destruct h as [i|st a' b' k' aid]; simpl in Ho; [tauto|].
    destruct Ho as [E|[]]. inversion E; subst. eauto.
  - intros (n & st & aid & Hin). exists (n, HIns st a b k aid). split; auto. simpl; auto.
Qed.

Lemma loc_ok_mono hs hs' id l : incl (owns hs) (owns hs') -> loc_ok hs id l -> loc_ok hs' id l.
Proof.
  intros I. destruct l; simpl; auto. intros (a1 & b1 & a2 & b2 & k2 & X & Y & Z).
  exists a1, b1, a2, b2, k2. auto.
Qed.
Lemma refs_ok_mono hs hs' s : incl (owns hs) (owns hs') -> refs_ok hs s -> refs_ok hs' s.
Proof. unfold refs_ok. intros I (A & B & C & D). eauto 8 using loc_ok_mono. Qed.

Lemma refs_topo hs s s' : topo s = topo s' -> refs_ok hs s -> refs_ok hs s'.
Proof. unfold topo, refs_ok. intros E. inversion E. congruence. Qed.

Lemma rinv_frame f m m' : frame f m m' -> RInv m -> RInv m'.
Proof.
  intros F. unfold RInv, all_springs. rewrite (fr_springs _ _ _ F), (fr_handles _ _ _ F).
  rewrite !Forall_app, Forall_map. intros [A B]. split; auto.
  eapply Forall_impl; [|exact A]. intros s. apply refs_topo. symmetry. apply (fr_topo _ _ _ F).
Qed.

Lemma loc_ok_fresh hs n st a b k aid id l :
  (id = a \/ id = b) -> (forall a1 b1 k1, In (a1, b1, k1) (owns hs) -> a1 < a) ->
  (exists id', loc_ok hs id' l) \/ l = LBlk k ->
  loc_ok (hs ++ [(n, HIns st a b k aid)]) id l.
Proof.
  intros Hid Hlt [(id' & Hl) | ->].
  - destruct l; simpl in *; auto. destruct Hl as (a1 & b1 & a2 & b2 & k2 & X & Y & Z).
    rewrite owns_app. simpl. exists a1, b1, a, b, k. rewrite !in_app_iff. simpl.
    split; auto. split; auto. split; auto. apply Hlt in X. lia.
  - simpl. rewrite owns_app. simpl. exists a, b, a, b, k. rewrite !in_app_iff. simpl. split; auto.
    split; auto. split; auto. lia.
Qed.

Lemma owns_le base m a b k : SInv base m -> In (a, b, k) (owns (mhandles m)) -> a <= mnext_id m /\ b = a + 1.
Proof.
  intros S Hin. apply in_owns in Hin. destruct Hin as (n & st & aid & Hin). split.
  - eapply proj1, live_id_le; eauto.
  - apply (si_hid _ _ S) in Hin. simpl in Hin. tauto.
Qed.

Lemma in_stolens hs s : In s (stolens hs) <-> exists n a b k aid, In (n, HIns s a b k aid) hs.
Proof.
  unfold stolens. rewrite in_flat_map. split.
  - intros ([n h] & Hin & Ho). destruct h as [i|st a' b' k' aid]; simpl in Ho; [tauto|].
    destruct Ho as [E|[]]. subst. eauto 10.
  - intros (n & a & b & k & aid & Hin). exists (n, HIns s a b k aid). split; auto. simpl; auto.
Qed.

(** [n] is not an inserted anchor, or the newest of them. *)
Definition newest m n : Prop :=
  forall st a b k aid, In (n, HIns st a b k aid) (mhandles m) ->
  forall n' st' a' b' k' aid', In (n', HIns st' a' b' k' aid') (mhandles m) -> (n' <= n)%nat.

Lemma newest_of c m n :
  agrees c m -> newest_first (T:=T) c (OpRelease n) -> newest m n.
Proof.
  intros (A & _ & _) Hn st a b k aid Hin n' st' a' b' k' aid' Hin'. simpl in Hn. rewrite A in Hn.
  apply Hn.
  - apply in_map_iff. exists (n, HIns st a b k aid). auto.
  - apply in_map_iff. exists (n', HIns st' a' b' k' aid'). auto.
Qed.

Lemma rinv_step base fuel m o m' u :
  Net base m -> RInv m -> (forall n, o = OpRelease n -> newest m n) ->
  step_op fuel m o = Ok (m', u) -> RInv m'.
Proof.
  intros N Rv L E. pose proof (frame_step _ _ _ _ _ E) as F.
  unfold step_op in E. destruct (needs_model o && negb (malive m)); [discriminate|].
  destruct o; try (destruct F as (f & F & Ff); eapply rinv_frame; eauto; fail); inv_ok.
  - destruct a as [m1 k]. simpl in *. unfold grab_anchor in Ha. inv_ok.
    apply activate_shape in Ha1. destruct Ha1 as (tg & id & -> & Hid & _).
    unfold RInv, all_springs in *. simpl. rewrite stolens_app. simpl. rewrite app_nil_r.
    eapply Forall_impl; [|exact Rv]. intros s. apply refs_ok_mono. rewrite owns_app. simpl.
    rewrite app_nil_r. apply incl_refl.
  - destruct a as [m1 k]. simpl in *. unfold insert_anchor in Ha. inv_ok.
    apply activate_shape in Ha0. destruct Ha0 as (tg & id & -> & Hid & _).
    destruct a0 as [m1 hd]. apply install_anchor_shape in Ha1.
    destruct Ha1 as (idx & found & da & db & _ & Hn & -> & _ & _ & ->).
    unfold RInv, all_springs in *. simpl in *.
    rewrite Forall_app in Rv. destruct Rv as [A1 A2].
    rewrite stolens_app. simpl. rewrite !Forall_app.
    set (hs' := mhandles m ++ _).
    assert (Mono : forall s, refs_ok (mhandles m) s -> refs_ok hs' s).
    { intros s. apply refs_ok_mono. unfold hs'. rewrite owns_app. apply incl_appl, incl_refl. }
    assert (Qf : refs_ok (mhandles m) found) by (eapply Forall_forall; [exact A1|]; eapply nth_error_In; eauto).
    assert (Lt : forall a1 b1 k1, In (a1, b1, k1) (owns (mhandles m)) -> a1 < id + 1).
    { intros a1 b1 k1 X. eapply owns_le in X; [|apply (net_s _ _ N)]. lia. }
    repeat split.
    + apply Forall_forall. intros s Hs. apply Mono. eapply Forall_forall in A1; [exact A1|].
      eapply list_del_incl; eauto.
    + destruct Qf as (Q1 & Q2 & Q3 & Q4).
      constructor; [|constructor; [|constructor]]; unfold refs_ok, hs';
        cbn [s_fa s_fb s_pa s_pb s_id]; (split; [|split; [|split]]); apply loc_ok_fresh; eauto.
    + eapply Forall_impl; [|exact A2]. auto.
    + constructor; auto.
  - destruct (lookup_handle (mhandles m) n) as [hd|] eqn:EL.
    2:{ unfold release_anchor in Ha. rewrite EL in Ha. inv_ok. auto. }
    destruct (release_anchor_shape _ _ _ _ _ EL Ha) as (_ & m1 & R & Dv).
    destruct (remove_handle_perm _ _ _ (inv_keys _ (net_inv _ _ N)) EL) as (l1 & l2 & El & Er).
    apply deactivate_shape in Dv. destruct Dv as (tg & id & -> & Hid & _).
    destruct hd as [i | stolen i1 i2 b aid].
    + simpl in R. inv_ok. unfold RInv, all_springs in *. simpl in *. rewrite Er. rewrite El in Rv.
      rewrite stolens_app in *. simpl in *.
      eapply Forall_impl; [|exact Rv]. intros s. apply refs_ok_mono. rewrite !owns_app. simpl.
      apply incl_refl.
    + apply release_strategy_ins_shape in R.
      destruct R as (hp & r2 & r1 & r0 & Fb & R2 & R1 & R0 & ->). unfold RInv, all_springs in *. simpl in *.
      destruct (sinv_release_ins base m l1 l2 n stolen i1 i2 b aid (net_s _ _ N) El)
        as (x2 & x1 & x0 & X2 & X1 & X0 & Y & _).
      rewrite R2 in X2. inversion X2; subst x2. rewrite R1 in X1. inversion X1; subst x1.
      rewrite R0 in X0. inversion X0; subst x0.
      pose proof (net_s _ _ N) as S.
      assert (Hin : In (n, HIns stolen i1 i2 b aid) (mhandles m)) by (rewrite El; apply in_elt).
      pose proof (si_hid _ _ S _ _ Hin) as Hii. simpl in Hii.
      (* every other owner is older *)
      assert (Old : forall a1 b1 k1, In (a1, b1, k1) (owns (mhandles m)) ->
                 (a1, b1, k1) = (i1, i2, b) \/ (In (a1, b1, k1) (owns (l1 ++ l2)) /\ a1 < i1)).
      { intros a1 b1 k1 X. apply in_owns in X. destruct X as (n' & st' & aid' & X).
        pose proof (L n eq_refl _ _ _ _ _ Hin _ _ _ _ _ _ X) as Le.
        destruct (Nat.eq_dec n' n) as [->|Ne].
        - left. apply (in_lookup_handle _ _ _ (inv_keys _ (net_inv _ _ N))) in X. rewrite EL in X.
          inversion X; subst; auto.
        - right. split.
          + rewrite El in X. apply in_owns. exists n', st', aid'. rewrite in_app_iff in *. simpl in X.
            destruct X as [?|[E|?]]; auto. inversion E; subst; lia.
          + eapply (net_o _ _ N); [exact X|exact Hin|lia]. }
      assert (Step : forall s, refs_ok (mhandles m) s -> s_id s <> i1 -> s_id s <> i2 ->
                       refs_ok (l1 ++ l2) s).
      { intros s Hs D1 D2.
        assert (LO : forall l, loc_ok (mhandles m) (s_id s) l -> loc_ok (l1 ++ l2) (s_id s) l).
        { intros [j|kb]; simpl; auto. intros (a1 & b1 & a2 & b2 & k2 & XX & YY & ZZ & WW).
          exists a1, b1, a2, b2, k2.
          destruct (Old _ _ _ YY) as [E2|[Y1 Y2]].
          - inversion E2; subst. tauto.
          - destruct (Old _ _ _ XX) as [E1|[X3 X4]]; auto.
            inversion E1; subst. lia. }
        destruct Hs as (A & B & C & D). repeat split; auto. }
      rewrite Er. rewrite Forall_app. split; apply Forall_forall; intros s Hs.
      * apply Y in Hs. destruct Hs as (Hs & D1 & D2). apply Step; auto.
        eapply Forall_forall in Rv; [exact Rv|]. apply in_or_app. destruct Hs as [?| ->]; auto.
        right. apply in_stolens. eauto 10.
      * assert (Hs' : In s (stolens (mhandles m))).
        { rewrite El. rewrite stolens_app in *. simpl. rewrite in_app_iff in *. simpl. tauto. }
        assert (s_id s < i1).
        { apply in_stolens in Hs. destruct Hs as (n' & a' & b' & k' & aid' & X).
          assert (X' : In (a', b', k') (owns (l1 ++ l2))) by (apply in_owns; eauto).
          assert (XX : In (n', HIns s a' b' k' aid') (mhandles m)).
          { rewrite El. rewrite in_app_iff in *. simpl. tauto. }
          pose proof (si_hid _ _ S _ _ XX) as Hi'. simpl in Hi'.
          destruct (Old a' b' k') as [E'|[_ E']]; [apply in_owns; eauto| |lia].
          inversion E'; subst. lia. }
        apply Step; try lia. eapply Forall_forall in Rv; [exact Rv|]. apply in_or_app; auto.
Qed.

Lemma number_springs_refs (l : list (nat * nat * vec T)) next :
  Forall (fun e => (fst (fst e) < 16 /\ snd (fst e) < 16)%nat) l ->
  Forall (refs_ok []) (number_springs l next).
Proof.
  revert next; induction l as [|[[a b] len] l IH]; intros next F; simpl; auto.
  inversion F; subst. simpl in *. constructor; auto. unfold refs_ok; simpl. tauto.
Qed.

Lemma rinv_init p w h st next : RInv (model_init p w h st next).
Proof.
  unfold RInv, all_springs. cbn [model_init msprings mhandles stolens flat_map]. rewrite app_nil_r.
  apply number_springs_refs. repeat constructor.
Qed.

Lemma lifo_run base fuel ops : forall m m' us c,
  Net base m -> RInv m -> agrees c m -> each_call newest_first c ops ->
  run fuel m ops = Ok (m', us) -> RInv m'.
Proof.
  induction ops; intros m m' us c N Rv A L E; simpl in E; inv_ok; auto.
  destruct a0 as [m1 u1]. destruct a1 as [m2 us2]. simpl in *. inv_ok. destruct L as [L1 L2].
  eapply IHops; [| | |exact L2|exact Ha0].
  - eapply net_step; eauto.
  - eapply rinv_step; eauto. intros n ->. eapply newest_of; eauto.
  - eapply agrees_step; eauto.
Qed.

(** ** Errors *)

Lemma rd_blk_live (h : list (block T)) b :
  nth_error (heap_live h) b = Some true -> exists pf, rd_blk h b = Ok pf.
Proof.
  unfold heap_live, rd_blk. rewrite nth_error_map. unfold block.
  destruct (@nth_error (option (vec T * vec T)) h b) as [[pf|]|]; simpl; try discriminate; eauto.
Qed.

Definition loc_valid (h : list (block T)) (l : loc) : Prop :=
  match l with LMesh i => (i < 16)%nat | LBlk b => nth_error (heap_live h) b = Some true end.
Definition spring_valid (h : list (block T)) s : Prop :=
  loc_valid h (s_fa s) /\ loc_valid h (s_fb s) /\ loc_valid h (s_pa s) /\ loc_valid h (s_pb s).

Lemma loc_valid_ext h h' l : heap_live h = heap_live h' -> loc_valid h l -> loc_valid h' l.
Proof. intros E. destruct l; simpl; auto. rewrite E; auto. Qed.
Lemma spring_valid_ext h h' s : heap_live h = heap_live h' -> spring_valid h s -> spring_valid h' s.
Proof. unfold spring_valid. intros E (A & B & C & D). repeat split; eapply loc_valid_ext; eauto. Qed.

Lemma valid_of_refs m s : HInv m -> refs_ok (mhandles m) s -> spring_valid (mheap m) s.
Proof.
  intros HH (A & B & C & D).
  assert (X : forall l, loc_ok (mhandles m) (s_id s) l -> loc_valid (mheap m) l).
  { intros [i|b]; simpl; auto. intros (a1 & b1 & a2 & b2 & k2 & X & _). apply (hi_heap _ HH).
    apply in_owns in X. destruct X as (n & st & aid & X). apply in_map_iff. exists (aid, b). split; auto.
    unfold live_blks. apply in_flat_map. eexists; split; eauto. simpl; auto. }
  repeat split; auto.
Qed.

Lemma rd_pos_valid (mm : mem T) l :
  length (m_pos mm) = 16%nat -> loc_valid (m_heap mm) l -> exists p, rd_pos mm l = Ok p.
Proof.
  intros L. destruct l; simpl; intros V.
  - destruct (nth_error (m_pos mm) i) eqn:E; [simpl; eauto|]. apply nth_error_None in E. lia.
  - destruct (rd_blk_live _ _ V) as (pf & ->). simpl; eauto.
Qed.

Lemma add_force_valid (mm : mem T) l f :
  length (m_force mm) = 16%nat -> loc_valid (m_heap mm) l -> exists mm', add_force mm l f = Ok mm'.
Proof.
  intros L. destruct l; simpl; intros V.
  - destruct (nth_error (m_force mm) i) eqn:E; [simpl; eauto|]. apply nth_error_None in E. lia.
  - destruct (rd_blk_live _ _ V) as (pf & ->). simpl; eauto.
Qed.

Lemma apply_forces_valid k s (mm : mem T) :
  length (m_pos mm) = 16%nat -> length (m_force mm) = 16%nat -> spring_valid (m_heap mm) s ->
  exists r, apply_forces k s mm = Ok r.
Proof.
  intros Lp Lf (A & B & C & D). unfold apply_forces.
  destruct (rd_pos_valid mm _ Lp C) as (pa & ->). destruct (rd_pos_valid mm _ Lp D) as (pb & ->). cbn [bind].
  destruct (spring_deltas pa pb (s_len s)) as [da db].
  destruct (add_force_valid mm _ (vscale da k) Lf A) as (m1 & E1). rewrite E1. cbn [bind].
  destruct (add_force_shape _ _ _ _ E1) as (X1 & X2 & X3).
  assert (B' : loc_valid (m_heap m1) (s_fb s)).
  { eapply loc_valid_ext; [|exact B]. apply heap_live_pos. auto. }
  destruct (add_force_valid m1 _ (vscale db k) (eq_trans X2 Lf) B') as (m2 & ->). cbn [bind]. eauto.
Qed.

Lemma apply_all_valid k ss : forall (mm : mem T) b,
  length (m_pos mm) = 16%nat -> length (m_force mm) = 16%nat ->
  Forall (spring_valid (m_heap mm)) ss -> exists r, apply_all k ss mm b = Ok r.
Proof.
  induction ss as [|s ss IH]; intros mm b Lp Lf F; simpl; eauto.
  inversion F; subst. destruct (apply_forces_valid k s mm Lp Lf H2) as ([m1 b1] & E1). rewrite E1. simpl.
  destruct (apply_forces_shape _ _ _ _ _ E1) as (X1 & X2 & X3).
  apply IH; try congruence. eapply Forall_impl; [|exact H3].
  intros s'. apply spring_valid_ext, heap_live_pos. auto.
Qed.

Lemma spring_step_valid k fr cs ss pos vel heap :
  length pos = 16%nat -> Forall (spring_valid heap) ss ->
  exists r, spring_step (T:=T) k fr cs ss pos vel heap = Ok r.
Proof.
  intros L F. unfold spring_step, calculate_forces.
  destruct (apply_all_valid k ss (mkMem pos (repeat vzero mesh_n) heap) false) as ([mm fe] & E); auto.
  rewrite E. simpl. destruct (integrate_points fr cs pos vel (m_force mm)) as [[? ?] ?]. eauto.
Qed.

Lemma base_springs_valid (tile : vec T) next h : Forall (spring_valid h) (base_springs tile next).
Proof.
  eapply Forall_impl; [|apply (number_springs_refs (base_spring_specs tile) next); repeat constructor].
  intros s (A & B & C & D).
  assert (X : forall l, loc_ok [] (s_id s) l -> loc_valid h l).
  { intros [i|b]; simpl; auto. intros (a1 & b1 & a2 & b2 & k2 & [] & _). }
  repeat split; auto.
Qed.

(** The errors a prediction can end in. *)
Lemma predict_loop_err k fr cs ss extra fuel : forall pos vel e,
  length pos = 16%nat -> (forall p, length (fst (extra p)) = length p) ->
  Forall (spring_valid []) ss ->
  predict_loop (T:=T) fuel k fr cs ss extra pos vel = Err e -> e = NoFuel.
Proof.
  induction fuel; intros pos vel e L X F E; simpl in E; [congruence|].
  destruct (spring_step_valid k fr cs ss pos vel [] L F) as ([[[p1 v1] h1] b1] & E1).
  rewrite E1 in E. simpl in E. apply spring_step_shape in E1. destruct E1 as (L1 & _ & _).
  pose proof (X p1) as X1. destruct (extra p1) as [p2 b2]. simpl in X1.
  destruct (b1 || b2); [|discriminate]. eapply IHfuel; [|exact X|exact F|exact E]. congruence.
Qed.

Lemma predict_loop_length k fr cs ss extra fuel : forall pos vel q,
  (forall p, length (fst (extra p)) = length p) ->
  predict_loop (T:=T) fuel k fr cs ss extra pos vel = Ok q -> length q = length pos.
Proof.
  induction fuel; intros pos vel q X E; simpl in E; [discriminate|]. inv_ok.
  destruct a as [[[p1 v1] h1] b1]. apply spring_step_shape in Ha. destruct Ha as (L1 & _ & _).
  pose proof (X p1) as X1. destruct (extra p1) as [p2 b2]. simpl in X1.
  destruct (b1 || b2).
  - apply IHfuel in E; auto. congruence.
  - inv_ok. congruence.
Qed.

Lemma predict_err fuel m extra e :
  Inv m -> (forall p, length (fst (extra p)) = length p) ->
  predict fuel m extra = Err e -> e = NoFuel.
Proof.
  intros I X. unfold predict. intros E. apply bind_err in E. destruct E as [E|(q & E & E2)].
  - eapply predict_loop_err; [| |apply base_springs_valid|exact E]; auto. apply (inv_pos _ I).
  - apply predict_loop_length in E; auto. rewrite (inv_pos _ I) in E.
    destruct q; [discriminate|]. simpl in E2. discriminate.
Qed.

Lemma recalc_err fuel m e : Inv m -> recalc_targets fuel m = Err e -> e = NoFuel.
Proof.
  intros I E. unfold recalc_targets in E. apply bind_err in E. destruct E as [E|(q & E & E2)]; [|discriminate].
  eapply predict_err in E; eauto.
Qed.

Lemma predict_err' fuel m m0 extra e :
  Inv m0 -> mpos m = mpos m0 -> (forall p, length (fst (extra p)) = length p) ->
  predict fuel m extra = Err e -> e = NoFuel.
Proof.
  intros I Ep X. unfold predict. intros E. apply bind_err in E. destruct E as [E|(q & E & E2)].
  - eapply predict_loop_err; [| |apply base_springs_valid|exact E]; auto. rewrite Ep. apply (inv_pos _ I).
  - apply predict_loop_length in E; auto. rewrite Ep, (inv_pos _ I) in E.
    destruct q; [discriminate|]. simpl in E2. discriminate.
Qed.

Lemma recalc_err' fuel m m0 e : Inv m0 -> mpos m = mpos m0 -> recalc_targets fuel m = Err e -> e = NoFuel.
Proof.
  intros I Ep E. unfold recalc_targets in E. apply bind_err in E. destruct E as [E|(q & E & E2)]; [|discriminate].
  eapply predict_err' in E; eauto.
Qed.

Lemma activate_err fuel m m0 e : Inv m0 -> mpos m = mpos m0 -> activate fuel m = Err e -> e = NoFuel.
Proof.
  intros I Ep. unfold activate. destruct (_ =? _); [|discriminate]. intros E.
  eapply recalc_err'; [exact I| |exact E]. auto.
Qed.
Lemma deactivate_err fuel m m0 e : Inv m0 -> mpos m = mpos m0 -> deactivate fuel m = Err e -> e = NoFuel.
Proof.
  intros I Ep. unfold deactivate. destruct (_ =? _); [|discriminate]. intros E.
  eapply recalc_err'; [exact I| |exact E]. auto.
Qed.

Lemma target_position_err fuel m e : Inv m -> target_position fuel m = Err e -> e = NoFuel.
Proof.
  intros I. unfold target_position. destruct (active m); intros E.
  - apply bind_err in E. destruct E as [E|(q & E & E2)]; [|discriminate].
    apply of_option_err in E. destruct E as [E _]. apply nth_error_None in E.
    rewrite (inv_tgt _ I) in E. lia.
  - apply bind_err in E. destruct E as [E|(q & E & E2)]; [|discriminate].
    eapply predict_err in E; eauto. apply constrainment_length.
Qed.

Lemma update_inserted_ok f l : forall (h : list (block T)),
  (forall b, In b (map snd l) -> nth_error (heap_live h) b = Some true) ->
  exists h', update_inserted f l h = Ok h'.
Proof.
  induction l as [|[a b] l IH]; intros h X; simpl; eauto.
  destruct (rd_blk_live h b) as (pf & E); [apply X; simpl; auto|]. rewrite E. simpl.
  apply IH. intros b' Hb'. unfold heap_live. rewrite list_set_map. fold (heap_live h).
  rewrite list_set_same; [apply X; simpl; auto|]. apply rd_blk_ok in E.
  unfold heap_live. rewrite (map_nth_error _ _ _ E). auto.
Qed.

Lemma find_one_err mm p i s acc e :
  length (m_pos mm) = 16%nat -> spring_valid (m_heap mm) s ->
  find_one (T:=T) mm p i s acc = Err e -> False.
Proof.
  intros L (A & B & C & D). unfold find_one. destruct acc as [[found prim] sec].
  destruct (rd_pos_valid mm _ L C) as (pa & ->). destruct (rd_pos_valid mm _ L D) as (pb & ->). simpl.
  destruct (nltb (vdist pa p) prim);
    match goal with |- context [if ?c then _ else _] => destruct c end;
    try discriminate; match goal with |- context [if ?c then _ else _] => destruct c end; discriminate.
Qed.

Lemma find_from_err mm p ss : forall i acc e,
  length (m_pos mm) = 16%nat -> Forall (spring_valid (m_heap mm)) ss ->
  find_from (T:=T) mm p i ss acc = Err e -> False.
Proof.
  induction ss as [|s ss IH]; intros i acc e L F E; simpl in E; [discriminate|].
  inversion F; subst. apply bind_err in E. destruct E as [E|(q & _ & E)].
  - eapply find_one_err; eauto.
  - eapply IH; eauto.
Qed.

Lemma find_one_range mm p i s acc acc' :
  find_one (T:=T) mm p i s acc = Ok acc' ->
  fst (fst acc') = fst (fst acc) \/ fst (fst acc') = Some i.
Proof.
  unfold find_one. destruct acc as [[found prim] sec]. intros E. inv_ok.
  destruct (nltb (vdist a p) prim); destruct (neqb _ _); inv_ok; simpl; auto;
    destruct (nltb _ _); inv_ok; simpl; auto.
Qed.

Lemma find_from_range mm p ss : forall i acc acc',
  find_from (T:=T) mm p i ss acc = Ok acc' ->
  fst (fst acc') = fst (fst acc) \/ exists j, fst (fst acc') = Some j /\ (i <= j < i + length ss)%nat.
Proof.
  induction ss as [|s ss IH]; intros i acc acc' E; simpl in E; inv_ok; auto.
  apply find_one_range in Ha. apply IH in E. simpl. destruct E as [E|(j & E & Hj)].
  - rewrite E. destruct Ha as [->|Ha]; auto. right. exists i. split; auto. lia.
  - right. exists j. split; auto. lia.
Qed.

Lemma find_spring_range mm p ss i : find_spring (T:=T) mm p ss = Ok i -> (i < length ss)%nat.
Proof.
  unfold find_spring. intros E. inv_ok. apply find_from_range in Ha. simpl in Ha.
  destruct Ha as [Ha|(j & Ha & Hj)]; [congruence|]. rewrite Ha in E. inversion E; subst. lia.
Qed.

Lemma find_spring_err mm p ss e :
  length (m_pos mm) = 16%nat -> Forall (spring_valid (m_heap mm)) ss ->
  find_spring (T:=T) mm p ss = Err e -> e = AssertFailed.
Proof.
  intros L F E. unfold find_spring in E. apply bind_err in E. destruct E as [E|(q & _ & E)].
  - exfalso. eapply find_from_err; eauto.
  - apply of_option_err in E. tauto.
Qed.

Lemma index_of_position_range pts p : forall i j,
  index_of_position (T:=T) pts p i = Some j -> (i <= j < i + length pts)%nat.
Proof.
  induction pts; intros i j E; simpl in E; [discriminate|]. destruct (vequals p a).
  - inversion E; subst. simpl. lia.
  - apply IHpts in E. simpl. lia.
Qed.

Lemma integrate_n_ok n : forall m b,
  Inv m -> HInv m -> RInv m -> exists r, integrate_n n m b = Ok r.
Proof.
  induction n; intros m b I HH Rv; simpl; eauto.
  assert (F : Forall (spring_valid (mheap m)) (msprings m)).
  { apply Forall_forall. intros s Hs. apply valid_of_refs; auto.
    eapply Forall_forall in Rv; [exact Rv|]. apply in_or_app; auto. }
  unfold integrate_once. pose proof (constrainment_length m (mpos m)) as L.
  destruct (constrainment m (mpos m)) as [pos1 more1] eqn:EC. simpl in L. rewrite (inv_pos _ I) in L.
  destruct (spring_step_valid (st_k (mset m)) (st_friction (mset m)) (t_counts (mtracked m)) (msprings m)
              pos1 (mvel m) (mheap m) L F) as ([[[p2 v2] h2] b2] & E).
  rewrite E. simpl. apply spring_step_shape in E. destruct E as (E1 & E2 & E3).
  apply IHn.
  - destruct I. constructor; simpl; auto; congruence.
  - eapply hinv_ext; eauto. simpl. apply heap_live_pos. auto.
  - exact Rv.
Qed.

(** Errors possible on a model whose springs, as far as the call reads them, are
    in order. *)
Lemma step_op_err_any base fuel m o e c :
  Net base m -> match o with OpInsert _ | OpStep _ => RInv m | _ => True end -> agrees c m -> (c_destroyed c = true -> c_live c = []) -> careful c o ->
  step_op fuel m o = Err e ->
  e = NoFuel \/
  match o with
  | OpGrab p => e = AssertFailed /\ closest_index (mpos m) p = None
  | OpInsert p => e = AssertFailed \/ e = Threw
  | OpResize w h => e = AssertFailed /\ negb (nltb nzero w && nltb nzero h) = true
  | _ => False
  end.
Proof.
  intros N Rv A CD C E.
  assert (Al : needs_model o && negb (malive m) = false).
  { destruct A as (A1 & A2 & A3). destruct (malive m) eqn:EA; [apply andb_false_r|].
    simpl in A3. destruct o; simpl in *; auto; try congruence. destruct C; congruence. }
  pose proof (net_inv _ _ N) as I. pose proof (net_h _ _ N) as HH.
  unfold step_op in E. rewrite Al in E. destruct o.
  - apply bind_err in E. destruct E as [E|(q & _ & E)]; [|discriminate].
    unfold grab_anchor in E. apply bind_err in E. destruct E as [E|(i & Hi & E)].
    { apply of_option_err in E. right. tauto. }
    apply bind_err in E. destruct E as [E|(m1 & E1 & E)].
    { left. eapply activate_err; [exact I| |exact E]. reflexivity. }
    apply bind_err in E. destruct E as [E|(q & _ & E)]; [|discriminate].
    apply activate_shape in E1. destruct E1 as (tg & id & -> & _ & _). simpl in E.
    unfold tracked_lock in E. apply bind_err in E. destruct E as [E|(q & _ & E)]; [|discriminate].
    apply of_option_err in E. destruct E as [E _]. apply nth_error_None in E.
    rewrite (inv_cnt _ I) in E. apply of_option_ok in Hi. apply closest_from_range in Hi.
    destruct Hi as [Hi|Hi]; [discriminate|]. rewrite (inv_pos _ I) in Hi. lia.
  - apply bind_err in E. destruct E as [E|(q & _ & E)]; [|discriminate].
    unfold insert_anchor in E. apply bind_err in E. destruct E as [E|(m1 & E1 & E)].
    { left. eapply activate_err; [exact I| |exact E]. reflexivity. }
    apply bind_err in E. destruct E as [E|(q & _ & E)]; [|discriminate].
    apply activate_shape in E1. destruct E1 as (tg & id & -> & _ & Ltg).
    set (m1 := set_targets _ tg) in *.
    assert (F : Forall (spring_valid (mheap m)) (msprings m)).
    { apply Forall_forall. intros s Hs. apply valid_of_refs; auto.
      eapply Forall_forall in Rv; [exact Rv|]. apply in_or_app; auto. }
    unfold install_anchor in E.
    apply bind_err in E. destruct E as [E|(idx & Hidx & E)].
    { apply find_spring_err in E; auto. apply (inv_pos _ I). }
    apply bind_err in E. destruct E as [E|(found & Hf & E)].
    { apply of_option_err in E. destruct E as [E _]. apply nth_error_None in E.
      apply find_spring_range in Hidx. simpl in *. lia. }
    apply of_option_ok in Hf.
    assert (Vf : spring_valid (mheap m) found).
    { eapply Forall_forall; [exact F|]. eapply nth_error_In; eauto. }
    assert (VA : forall l, loc_valid (mheap m) l -> loc_valid (mheap m ++ [Some (p, vzero)]) l).
    { intros [i|b]; simpl; auto. intros X. rewrite heap_live_app. rewrite nth_error_app1; auto.
      apply nth_error_Some. rewrite X. discriminate. }
    destruct Vf as (V1 & V2 & V3 & V4).
    destruct (rd_pos_valid (mem_of (set_heap m1 (mheap m1 ++ [Some (p, vzero)]))) (s_pa found))
      as (pa & Epa); [apply (inv_pos _ I)|apply VA; auto|].
    destruct (rd_pos_valid (mem_of (set_heap m1 (mheap m1 ++ [Some (p, vzero)]))) (s_pb found))
      as (pb & Epb); [apply (inv_pos _ I)|apply VA; auto|].
    rewrite Epa, Epb in E. simpl in E.
    assert (DP : forall x e', desired_position (set_heap m1 (mheap m1 ++ [Some (p, vzero)])) x = Err e' -> e' = Threw).
    { intros x e' Ex. unfold desired_position in Ex. destruct (active _); [|discriminate].
      apply bind_err in Ex. destruct Ex as [Ex|(j & Hj & Ex)].
      - apply of_option_err in Ex. tauto.
      - apply of_option_err in Ex. destruct Ex as [Ex _]. apply nth_error_None in Ex. simpl in Ex.
        apply of_option_ok in Hj. apply index_of_position_range in Hj. simpl in Hj.
        rewrite (inv_pos _ I) in Hj. simpl in Ltg. rewrite Ltg in Ex by apply (inv_tgt _ I). lia. }
    apply bind_err in E. destruct E as [E|(da & _ & E)]; [right; right; eapply DP; exact E|].
    apply bind_err in E. destruct E as [E|(db & _ & E)]; [right; right; eapply DP; exact E|].
    discriminate.
  - apply bind_err in E. destruct E as [E|(q & _ & E)]; [|discriminate].
    unfold move_anchor in E. simpl in C. destruct A as (A1 & A2 & A3). rewrite A1, map_map in C. simpl in C.
    destruct (lookup_handle (mhandles m) n) as [hd|] eqn:EL.
    2:{ apply lookup_handle_none in EL. tauto. }
    apply lookup_handle_in in EL.
    destruct (malive m) eqn:Em.
    2:{ rewrite A1, A3 in CD. simpl in CD. specialize (CD eq_refl).
        destruct (mhandles m); [destruct EL|discriminate]. }
    destruct hd as [i|st a b k aid].
    + apply bind_err in E. destruct E as [E|(q & _ & E)]; [|discriminate].
      apply of_option_err in E. destruct E as [E _]. apply nth_error_None in E.
      assert (i < 16)%nat by (eapply (inv_grab _ I); eauto).
      pose proof (inv_pos _ I). destruct (active m); simpl in E; lia.
    + apply bind_err in E. destruct E as [E|(q & _ & E)]; [|discriminate].
      destruct (rd_blk_live (mheap m) k) as (pf & Epf).
      { apply (hi_heap _ HH). apply in_map_iff. exists (aid, k). split; auto.
        unfold live_blks. apply in_flat_map. eexists; split; eauto. simpl; auto. }
      destruct (active m); simpl in E; congruence.
  - apply bind_err in E. destruct E as [E|(q & _ & E)]; [|discriminate].
    unfold release_anchor in E. destruct (lookup_handle (mhandles m) n) as [hd|] eqn:EL; [|discriminate].
    destruct A as (A1 & A2 & A3).
    destruct (malive m) eqn:Em.
    2:{ rewrite A1, A3 in CD. simpl in CD. specialize (CD eq_refl). apply lookup_handle_in in EL.
        destruct (mhandles m); [destruct EL|discriminate]. }
    destruct (remove_handle_perm _ _ _ (inv_keys _ I) EL) as (l1 & l2 & El & Er).
    apply bind_err in E. destruct E as [E|(m1 & E1 & E)].
    + exfalso. destruct hd as [i|st a b k aid]; simpl in E.
      * apply bind_err in E. destruct E as [E|(q & _ & E)]; [|discriminate].
        unfold tracked_unlock in E. apply bind_err in E. destruct E as [E|(q & _ & E)]; [|discriminate].
        apply of_option_err in E. destruct E as [E _]. apply nth_error_None in E.
        rewrite (inv_cnt _ I) in E. apply lookup_handle_in in EL. apply (inv_grab _ I) in EL. lia.
      * destruct (sinv_release_ins base m l1 l2 n st a b k aid (net_s _ _ N) El)
          as (x2 & x1 & x0 & X2 & X1 & X0 & _).
        destruct (rd_blk_live (mheap m) k) as (pf & Epf).
        { apply (hi_heap _ HH). apply in_map_iff. exists (aid, k). split; auto.
          unfold live_blks. apply in_flat_map. apply lookup_handle_in in EL. eexists; split; eauto. simpl; auto. }
        apply rd_blk_ok in Epf. unfold free_blk in E. rewrite Epf in E. simpl in E.
        rewrite X2 in E. simpl in E. rewrite X1 in E. simpl in E. rewrite X0 in E. discriminate.
    + left. eapply deactivate_err; [exact I| |exact E].
      destruct hd as [i|st a b k aid].
      * simpl in E1. inv_ok. reflexivity.
      * apply release_strategy_ins_shape in E1.
        destruct E1 as (hp & r2 & r1 & r0 & _ & _ & _ & _ & ->). reflexivity.
  - apply bind_err in E. destruct E as [E|(q & _ & E)]; [|discriminate].
    unfold model_step in E. destruct (integrate_n_ok (step_count time) m false I HH Rv) as ([m1 b1] & E1).
    rewrite E1 in E. discriminate.
  - apply bind_err in E. destruct E as [E|(q & _ & E)]; [|discriminate].
    exfalso. unfold move_model_by in E. apply bind_err in E. destruct E as [E|(q & _ & E)]; [|discriminate].
    simpl in E. destruct (update_inserted_ok (fun p => vadd p d) (minserted m) (mheap m)) as (h' & E').
    { intros b Hb. rewrite (hi_ins _ HH) in Hb. apply (hi_heap _ HH). auto. }
    congruence.
  - apply bind_err in E. destruct E as [E|(q & _ & E)]; [|discriminate].
    unfold move_model_to in E. apply bind_err in E. destruct E as [E|([q m1] & E1 & E)].
    { left. eapply target_position_err; eauto. }
    exfalso. apply target_position_shape in E1. destruct E1 as (id & -> & _). simpl in E.
    unfold move_model_by in E. apply bind_err in E. destruct E as [E|(q' & _ & E)]; [|discriminate].
    simpl in E. destruct (update_inserted_ok (fun x => vadd x (vsub p q)) (minserted m) (mheap m)) as (h' & E').
    { intros b Hb. rewrite (hi_ins _ HH) in Hb. apply (hi_heap _ HH). auto. }
    congruence.
  - apply bind_err in E. destruct E as [E|(q & _ & E)]; [|discriminate].
    unfold resize_model in E. destruct (negb (nltb nzero w && nltb nzero h)) eqn:Ew.
    { right. split; congruence. }
    destruct (vequals _ _); [discriminate|].
    apply bind_err in E. destruct E as [E|([q m1] & E1 & E)].
    { left. eapply target_position_err; eauto. }
    exfalso. apply target_position_shape in E1. destruct E1 as (id & -> & _). simpl in E.
    apply bind_err in E. destruct E as [E|(q' & _ & E)].
    { apply of_option_err in E. destruct E as [E _]. pose proof (inv_tgt _ I) as L.
      destruct (mtargets m); discriminate. }
    apply bind_err in E. destruct E as [E|(q'' & _ & E)]; [|discriminate].
    match type of E with update_inserted ?f _ _ = _ =>
      destruct (update_inserted_ok f (minserted m) (mheap m)) as (h' & E') end.
    { intros b Hb. rewrite (hi_ins _ HH) in Hb. apply (hi_heap _ HH). auto. }
    congruence.
  - discriminate.
  - discriminate.
Qed.

(** Errors possible on a model in order. *)
Lemma step_op_err base fuel m o e c :
  Net base m -> RInv m -> agrees c m -> (c_destroyed c = true -> c_live c = []) -> careful c o ->
  step_op fuel m o = Err e ->
  e = NoFuel \/
  match o with
  | OpGrab p => e = AssertFailed /\ closest_index (mpos m) p = None
  | OpInsert p => e = AssertFailed \/ e = Threw
  | OpResize w h => e = AssertFailed /\ negb (nltb nzero w && nltb nzero h) = true
  | _ => False
  end.
Proof. intros N Rv. apply (step_op_err_any base); auto. destruct o; auto. Qed.

Lemma careful_destroyed (c : client) (o : op T) :
  (c_destroyed c = true -> c_live c = []) -> careful c o ->
  (c_destroyed (client_step c o) = true -> c_live (client_step c o) = []).
Proof.
  intros X C. destruct o; simpl in *; auto; try (intros E; congruence).
  - intros E. rewrite X; auto.
  - tauto.
Qed.

(** A history in order ends in one of the explicit outcomes. *)
Lemma run_err base fuel ops : forall m c e,
  Net base m -> RInv m -> agrees c m -> (c_destroyed c = true -> c_live c = []) ->
  each_call careful c ops -> each_call newest_first c ops ->
  run fuel m ops = Err e -> e = NoFuel \/ e = AssertFailed \/ e = Threw.
Proof.
  induction ops as [|o ops IH]; intros m c e N Rv A CD C L E; simpl in E; [discriminate|].
  destruct C as [C1 C2]. destruct L as [L1 L2].
  apply bind_err in E. destruct E as [E|([m1 u1] & E1 & E)].
  - eapply step_op_err in E; eauto. destruct E as [E|E]; auto. destruct o; tauto.
  - apply bind_err in E. destruct E as [E|(q & _ & E)]; [|discriminate]. simpl in E.
    eapply IH; [| | | |exact C2|exact L2|exact E].
    + eapply net_step; eauto.
    + eapply rinv_step; eauto. intros n ->. eapply newest_of; eauto.
    + eapply agrees_step; eauto.
    + apply careful_destroyed; auto.
Qed.

End Lifo.
