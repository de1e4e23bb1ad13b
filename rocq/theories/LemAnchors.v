(** Anchors: locking, nearest point, nearest spring, movement. *)

From Coq Require Import ZArith Reals Bool List Lia Lra Permutation.
From Verif Require Import Num Geometry Outcome Wobbly Spec LemBasic LemReal LemInv LemSprings LemHistory LemNetwork LemLifo.
Import ListNotations.
Local Open Scope Z_scope.

(** ** TrackedAnchors *)

Lemma held_app l l' i : held (l ++ l') i = held l i + held l' i.
Proof. induction l as [|[j|j] l IH]; simpl; rewrite ?IH; lia. Qed.

Lemma held_le l i : held l i <= Z.of_nat (length l).
Proof. induction l as [|[j|j] l IH]; simpl; [lia| |]; destruct (Nat.eqb j i); lia. Qed.

(** [j] is the first index of the largest element [v]. *)
Definition first_max (l : list Z) (j : nat) (v : Z) : Prop :=
  nth_error l j = Some v /\
  forall k x, nth_error l k = Some x -> x <= v /\ (x = v -> (j <= k)%nat).

Lemma max_element_from_spec l : forall pre best bv,
  first_max pre best bv ->
  let r := max_element_from l (length pre) best bv in first_max (pre ++ l) (fst r) (snd r).
Proof.
  induction l as [|y l IH]; intros pre best bv [F1 F2]; simpl.
  - rewrite app_nil_r. split; auto.
  - replace (pre ++ y :: l) with ((pre ++ [y]) ++ l) by (rewrite <- app_assoc; auto).
    assert (L : length (pre ++ [y]) = S (length pre)) by (rewrite app_length; simpl; lia).
    assert (Lb : (best < length pre)%nat) by (apply nth_error_Some; rewrite F1; discriminate).
    assert (X : forall k x, nth_error (pre ++ [y]) k = Some x ->
                  nth_error pre k = Some x \/ (k = length pre /\ x = y)).
    { intros k x Hk. destruct (Nat.lt_ge_cases k (length pre)).
      - rewrite nth_error_app1 in Hk by auto. auto.
      - rewrite nth_error_app2 in Hk by auto. destruct (k - length pre)%nat as [|q] eqn:Eq.
        + right. simpl in Hk. inversion Hk. split; auto. lia.
        + simpl in Hk. destruct q; discriminate. }
    destruct (Z.ltb_spec bv y); rewrite <- L; apply IH; split.
    + rewrite nth_error_app2 by lia. rewrite Nat.sub_diag. auto.
    + intros k x Hk. apply X in Hk. destruct Hk as [Hk|[-> ->]]; [|lia].
      apply F2 in Hk. lia.
    + rewrite nth_error_app1 by auto. auto.
    + intros k x Hk. apply X in Hk. destruct Hk as [Hk|[-> ->]]; [auto|lia].
Qed.

Lemma max_element_spec l j v : max_element l = Some (j, v) -> first_max l j v.
Proof.
  destruct l as [|x l]; simpl; [discriminate|]. intros E. inversion E.
  pose proof (max_element_from_spec l [x] 0%nat x) as P. simpl in P. rewrite H0 in P. apply P.
  split; auto. intros [|k] y Hk; simpl in Hk; [inversion Hk; lia|destruct k; discriminate].
Qed.

Lemma u32_small z : 0 <= z < two32 -> u32 z = z.
Proof. unfold u32, two32. intros. apply Z.mod_small; auto. Qed.

(** The bookkeeping is exact. *)
Record TInv (n : nat) (h : nat -> Z) (t : tracked) : Prop := {
  ti_len : length (t_counts t) = n;
  ti_cnt : forall i, (i < n)%nat -> nth_error (t_counts t) i = Some (h i);
  ti_first : match t_first t with
             | Some i => (i < n)%nat /\ 0 < h i
             | None => forall i, (i < n)%nat -> h i = 0
             end }.

Lemma tinv_lock n h t i :
  TInv n h t -> (i < n)%nat -> (forall j, (j < n)%nat -> 0 <= h j) -> h i + 1 < two32 ->
  exists t', tracked_lock i t = Ok t' /\
    TInv n (fun j => (if Nat.eqb i j then 1 else 0) + h j) t' /\
    (forall j, t_first t = Some j -> t_first t' = Some j).
Proof.
  intros [L C F] Hi P B. unfold tracked_lock. rewrite (C i Hi). simpl. eexists; split; [reflexivity|].
  assert (CC : forall j, (j < n)%nat ->
    nth_error (list_set i (u32 (h i + 1)) (t_counts t)) j = Some ((if Nat.eqb i j then 1 else 0) + h j)).
  { intros j Hj. rewrite nth_error_list_set, L. destruct (Nat.eqb_spec i j); cbn [andb].
    - subst. rewrite (proj2 (Nat.ltb_lt _ _) Hj). rewrite u32_small; [f_equal; lia|].
      specialize (P j Hj). lia.
    - rewrite C by auto. f_equal; lia. }
  split.
  - constructor; simpl.
    + rewrite list_set_length; auto.
    + auto.
    + destruct (Z.eqb_spec (h i) 0); destruct (t_first t) as [k|].
      * destruct F. split; auto. destruct (Nat.eqb i k); lia.
      * split; auto. rewrite Nat.eqb_refl. specialize (P i Hi). lia.
      * destruct F. split; auto. destruct (Nat.eqb i k); lia.
      * exfalso. apply n0. apply F; auto.
  - intros j Ej. simpl. rewrite Ej. destruct (h i =? 0); auto.
Qed.

Lemma tinv_unlock n h t i :
  TInv n h t -> (i < n)%nat -> (forall j, (j < n)%nat -> 0 <= h j < two32) -> 0 < h i ->
  exists t', tracked_unlock i t = Ok t' /\
    TInv n (fun j => h j - (if Nat.eqb i j then 1 else 0)) t' /\
    (forall k, t_first t = Some k -> 0 < h k - (if Nat.eqb i k then 1 else 0) -> t_first t' = Some k) /\
    (t_first t = Some i -> h i = 1 -> forall j, t_first t' = Some j ->
       forall k, (k < n)%nat -> k <> i -> (h k <= h j) /\ (h k = h j -> (j <= k)%nat)).
Proof.
  intros [L C F] Hi P B. unfold tracked_unlock. rewrite (C i Hi). simpl. eexists; split; [reflexivity|].
  assert (Hu : u32 (h i - 1) = h i - 1) by (apply u32_small; specialize (P i Hi); lia). rewrite Hu.
  set (cs := list_set i (h i - 1) (t_counts t)).
  assert (CC : forall j, (j < n)%nat -> nth_error cs j = Some (h j - (if Nat.eqb i j then 1 else 0))).
  { intros j Hj. unfold cs. rewrite nth_error_list_set, L. destruct (Nat.eqb_spec i j); cbn [andb].
    - subst. rewrite (proj2 (Nat.ltb_lt _ _) Hj). auto.
    - rewrite C; auto. f_equal; lia. }
  assert (LC : length cs = n) by (unfold cs; rewrite list_set_length; auto).
  split; [|split].
  - constructor; simpl; auto.
    destruct (t_first t) as [k|] eqn:EF.
    + destruct F as [F1 F2]. destruct (Z.eqb_spec (h i - 1) 0); simpl.
      * destruct (Nat.eqb_spec k i); simpl.
        -- destruct (max_element cs) as [[j v]|] eqn:EM.
           ++ apply max_element_spec in EM. destruct EM as [M1 M2].
              assert (Hj : (j < n)%nat) by (rewrite <- LC; apply nth_error_Some; rewrite M1; discriminate).
              destruct (Z.ltb_spec 0 v).
              ** split; auto. rewrite (CC j Hj) in M1. inversion M1. lia.
              ** intros k' Hk'. specialize (CC k' Hk'). apply M2 in CC. specialize (P k' Hk').
                 destruct (Nat.eqb_spec i k'); subst; lia.
           ++ destruct cs; [simpl in LC; lia|discriminate].
        -- split; auto. destruct (Nat.eqb_spec i k); subst; try lia.
      * split; auto. destruct (Nat.eqb_spec i k); subst; lia.
    + exfalso. rewrite F in B; auto. lia.
  - intros k EF Hk. simpl. rewrite EF.
    destruct (Z.eqb_spec (h i - 1) 0); simpl; auto. destruct (Nat.eqb_spec k i); auto.
    subst. rewrite Nat.eqb_refl in Hk. lia.
  - intros EF H1 j. simpl. rewrite EF, H1. simpl. rewrite Nat.eqb_refl.
    destruct (max_element cs) as [[j' v]|] eqn:EM; [|discriminate].
    destruct (Z.ltb_spec 0 v); [|discriminate]. intros E. inversion E; subst j'.
    apply max_element_spec in EM. destruct EM as [M1 M2]. intros k Hk Hki.
    assert (Hj : (j < n)%nat) by (rewrite <- LC; apply nth_error_Some; rewrite M1; discriminate).
    pose proof (CC k Hk) as Ck. apply M2 in Ck. rewrite (CC j Hj) in M1. inversion M1.
    destruct (Nat.eqb_spec i k); [congruence|]. destruct (Nat.eqb_spec i j); subst; lia.
Qed.

Lemma tinv_init n : TInv n (fun _ => 0) (tracked_init n).
Proof.
  constructor; simpl; auto.
  - apply repeat_length.
  - intros i Hi. apply nth_error_repeat; auto.
Qed.

Lemma balanced_app n l o : balanced n (l ++ [o]) ->
  balanced n l /\ match o with Lock i => (i < n)%nat | Unlock i => (i < n)%nat /\ 0 < held l i end.
Proof.
  intros B. split.
  - intros before o' after E. apply (B before o' (after ++ [o])). rewrite E, <- app_assoc. auto.
  - apply (B l o []). auto.
Qed.

Lemma lock_run_app t l l' :
  lock_run t (l ++ l') = bind (lock_run t l) (fun t1 => lock_run t1 l').
Proof.
  revert t; induction l; intros t; simpl; auto. destruct (lock_do t a); simpl; auto.
Qed.

Lemma held_nonneg n l : balanced n l -> forall i, 0 <= held l i.
Proof.
  induction l as [|o l IH] using rev_ind; intros B i; [simpl; lia|].
  apply balanced_app in B. destruct B as [B O]. specialize (IH B). rewrite held_app.
  destruct o as [j|j]; simpl; destruct (Nat.eqb_spec j i); subst; specialize (IH i); lia.
Qed.

Lemma tinv_ext n h h' t : (forall i, (i < n)%nat -> h i = h' i) -> TInv n h t -> TInv n h' t.
Proof.
  intros E [L C F]. constructor; auto.
  - intros i Hi. rewrite C, E; auto.
  - destruct (t_first t) as [k|].
    + destruct F. rewrite <- E; auto.
    + intros i Hi. rewrite <- E; auto.
Qed.

Lemma lock_run_spec n l :
  balanced n l -> Z.of_nat (length l) < two32 ->
  exists t, lock_run (tracked_init n) l = Ok t /\ TInv n (held l) t.
Proof.
  induction l as [|o l IH] using rev_ind; intros B Len.
  - exists (tracked_init n). split; auto. apply tinv_init.
  - pose proof (held_nonneg _ _ (proj1 (balanced_app _ _ _ B))) as HN.
    apply balanced_app in B. destruct B as [B O]. rewrite app_length in Len. simpl in Len.
    destruct IH as (t & E & I); auto; [lia|]. rewrite lock_run_app, E. simpl.
    destruct o as [i|i]; simpl.
    + destruct (tinv_lock n (held l) t i) as (t' & E' & I' & _); auto.
      { pose proof (held_le l i). lia. }
      rewrite E'. exists t'. split; auto. eapply tinv_ext; [|exact I'].
      intros j _. rewrite held_app. simpl. lia.
    + destruct O as [O1 O2]. destruct (tinv_unlock n (held l) t i) as (t' & E' & I' & _); auto.
      { intros j _. pose proof (held_le l j). specialize (HN j). lia. }
      rewrite E'. exists t'. split; auto. eapply tinv_ext; [|exact I'].
      intros j _. rewrite held_app. simpl. lia.
Qed.

(** ** Held points *)

Section Held.
Context {T : Type} `{Num T}.
Implicit Types (m : model T).

Lemma handles_le fuel ops : forall m m' us,
  run fuel m ops = Ok (m', us) -> (mnext_handle m' <= mnext_handle m + length ops)%nat.
Proof.
  induction ops; intros m m' us E; simpl in E; inv_ok; [lia|].
  destruct a0 as [m1 u1]. destruct a1 as [m2 us2]. simpl in *. inv_ok. apply IHops in Ha0.
  assert (mnext_handle m1 <= S (mnext_handle m))%nat; [|simpl; lia].
  pose proof (frame_step _ _ _ _ _ Ha) as F.
  unfold step_op in Ha. destruct (needs_model a && negb (malive m)); [discriminate|].
  destruct a; try (destruct F as (f & F & _); rewrite (fr_next _ _ _ F); lia); inv_ok.
  - destruct a as [m3 k]. unfold grab_anchor in *. inv_ok.
    match goal with X : activate _ _ = Ok _ |- _ => apply activate_shape in X; destruct X as (tg & id & -> & _) end.
    simpl; lia.
  - destruct a as [m3 k]. unfold insert_anchor in *. inv_ok.
    match goal with X : install_anchor _ _ = Ok ?r |- _ => destruct r as [m4 hd]; apply install_anchor_shape in X;
      destruct X as (idx & found & da & db & _ & _ & -> & _ & _ & ->) end.
    match goal with X : activate _ _ = Ok _ |- _ => apply activate_shape in X; destruct X as (tg & id & -> & _) end.
    simpl. lia.
  - unfold release_anchor in *. destruct (lookup_handle (mhandles m) n) as [hd|]; [|inv_ok; lia].
    destruct (malive m); [|discriminate]. inv_ok.
    match goal with X : release_strategy _ _ = Ok _ |- _ => apply release_strategy_handles in X; rename X into HR end.
    match goal with X : deactivate _ _ = Ok _ |- _ => apply deactivate_shape in X; destruct X as (tg & id & -> & _) end.
    simpl in *. lia.
Qed.

Lemma handles_bound m : Inv m -> (length (mhandles m) <= mnext_handle m)%nat.
Proof.
  intros I. rewrite <- (map_length fst).
  rewrite <- (seq_length (mnext_handle m) 0). apply NoDup_incl_length; [apply (inv_keys _ I)|].
  intros n Hn. apply in_seq. apply (inv_next _ I) in Hn. lia.
Qed.

Lemma grabs_pos_iff i (l : list (nat * handle T)) :
  NoDup (map fst l) ->
  (0 < grabs i l <-> exists n, lookup_handle l n = Some (HGrab i)).
Proof.
  intros ND. unfold grabs. split.
  - intros P. destruct (filter (is_grab_of i) l) as [|[n h] t] eqn:E; [simpl in P; lia|].
    assert (X : In (n, h) (filter (is_grab_of i) l)) by (rewrite E; left; auto).
    apply filter_In in X. destruct X as [X1 X2]. unfold is_grab_of in X2. simpl in X2.
    destruct h; [|discriminate]. apply Nat.eqb_eq in X2. subst. exists n.
    apply in_lookup_handle; auto.
  - intros (n & E). apply lookup_handle_in in E.
    assert (X : In (n, HGrab i) (filter (is_grab_of i) l)).
    { apply filter_In. split; auto. unfold is_grab_of; simpl. apply Nat.eqb_refl. }
    destruct (filter (is_grab_of i) l); [destruct X|simpl; lia].
Qed.

Lemma grabs_le i (l : list (nat * handle T)) : 0 <= grabs i l <= Z.of_nat (length l).
Proof.
  unfold grabs. split; [lia|]. apply inj_le. induction l; simpl; [lia|]. destruct (is_grab_of i a); simpl; lia.
Qed.

Lemma counts_held m i :
  Inv m -> Z.of_nat (length (mhandles m)) < two32 -> (i < 16)%nat ->
  exists c, nth_error (t_counts (mtracked m)) i = Some c /\ ((0 <? c) = true <-> grabbed m i).
Proof.
  intros I B Hi. eexists. split; [apply (inv_locks _ I i Hi)|].
  rewrite u32_small by (pose proof (grabs_le i (mhandles m)); lia).
  rewrite Z.ltb_lt. apply grabs_pos_iff. apply (inv_keys _ I).
Qed.

Lemma reached_bound p w h st ops m :
  reached p w h st ops m -> Z.of_nat (length ops) < two32 -> Z.of_nat (length (mhandles m)) < two32.
Proof.
  intros R L. pose proof (handles_bound _ (inv_reached _ _ _ _ _ _ R)) as B.
  destruct R as (fuel & next & us & E). apply handles_le in E. simpl in E. lia.
Qed.

Lemma integrate_points_nth fr : forall cs ps vs fs ps' vs' b i c p v f,
  integrate_points (T:=T) fr cs ps vs fs = (ps', vs', b) ->
  nth_error cs i = Some c -> nth_error ps i = Some p -> nth_error vs i = Some v -> nth_error fs i = Some f ->
  if 0 <? c then nth_error ps' i = Some p /\ nth_error vs' i = Some vzero
  else nth_error ps' i = Some (fst (fst (euler fr p v f))) /\
       nth_error vs' i = Some (snd (fst (euler fr p v f))).
Proof.
  induction cs as [|c0 cs IH]; intros [|p0 ps] [|v0 vs] [|f0 fs] ps' vs' b i c p v f E Hc Hp Hv Hf;
    try (destruct i; discriminate).
  cbn [integrate_points] in E. destruct (integrate_points fr cs ps vs fs) as [[ps1 vs1] more] eqn:E1.
  destruct i as [|i]; simpl in Hc, Hp, Hv, Hf.
  - injection Hc as <-. injection Hp as <-. injection Hv as <-. injection Hf as <-.
    destruct (0 <? c0); [|destruct (euler fr p0 v0 f0) as [[p1 v1] b1]]; inversion E; subst; simpl; auto.
  - specialize (IH _ _ _ _ _ _ _ _ _ _ _ E1 Hc Hp Hv Hf).
    destruct (0 <? c0); [|destruct (euler fr p0 v0 f0) as [[p1 v1] b1]]; inversion E; subst; simpl; auto.
Qed.

Lemma nth_error_ex {A} (l : list A) i : (i < length l)%nat -> exists a, nth_error l i = Some a.
Proof. intros L. destruct (nth_error l i) eqn:E; eauto. apply nth_error_None in E. lia. Qed.

(** The forces of one round are those of [calculate_forces]. *)
Lemma integrate_once_point m m' b i :
  Inv m -> Z.of_nat (length (mhandles m)) < two32 -> (i < 16)%nat ->
  integrate_once m = Ok (m', b) ->
  exists p v f mm fe,
    nth_error (fst (constrainment m (mpos m))) i = Some p /\ nth_error (mvel m) i = Some v /\
    calculate_forces (st_k (mset m)) (msprings m) (fst (constrainment m (mpos m))) (mheap m) = Ok (mm, fe) /\
    nth_error (m_force mm) i = Some f /\
    (grabbed m i -> nth_error (mpos m') i = Some p /\ nth_error (mvel m') i = Some vzero) /\
    (~ grabbed m i -> nth_error (mpos m') i = Some (fst (fst (euler (st_friction (mset m)) p v f))) /\
                      nth_error (mvel m') i = Some (snd (fst (euler (st_friction (mset m)) p v f)))).
Proof.
  intros I B Hi E. unfold integrate_once in E.
  pose proof (constrainment_length m (mpos m)) as L.
  destruct (constrainment m (mpos m)) as [pos1 more1]. simpl in *. rewrite (inv_pos _ I) in L. inv_ok.
  destruct a as [[[p2 v2] h2] b2]. unfold spring_step in Ha. inv_ok. destruct a as [mm fe].
  destruct (integrate_points _ _ pos1 (mvel m) (m_force mm)) as [[p3 v3] mv] eqn:EI. inv_ok. simpl.
  assert (Lf : length (m_force mm) = 16%nat).
  { unfold calculate_forces in Ha0. apply apply_all_shape in Ha0. simpl in Ha0. tauto. }
  destruct (nth_error_ex pos1 i) as (p & Hp); [lia|].
  destruct (nth_error_ex (mvel m) i) as (v & Hv); [rewrite (inv_vel _ I); lia|].
  destruct (nth_error_ex (m_force mm) i) as (f & Hf); [lia|].
  destruct (counts_held m i I B Hi) as (c & Hc & Hiff).
  exists p, v, f, mm, fe. do 4 (split; [auto|]).
  pose proof (integrate_points_nth _ _ _ _ _ _ _ _ _ _ _ _ _ EI Hc Hp Hv Hf) as X.
  revert X Hiff. destruct (0 <? c); intros X Hiff; split; intros G; try tauto.
  apply Hiff in G; discriminate.
Qed.

(** ** Two or more anchors *)

Lemma integrate_n_grabbed n : forall m b m' b' i p,
  Inv m -> Z.of_nat (length (mhandles m)) < two32 -> active m = false -> grabbed m i ->
  nth_error (mpos m) i = Some p -> integrate_n n m b = Ok (m', b') ->
  nth_error (mpos m') i = Some p /\ (n <> O -> nth_error (mvel m') i = Some vzero).
Proof.
  induction n; intros m b m' b' i p I B A G Hp E; simpl in E; inv_ok.
  - split; auto. congruence.
  - destruct a as [m1 b1]. simpl in E.
    assert (Hi : (i < 16)%nat).
    { destruct G as (k & G). apply lookup_handle_in in G. eapply (inv_grab _ I); eauto. }
    destruct (integrate_once_point _ _ _ _ I B Hi Ha) as (p1 & v & f & mm & fe & H1 & H2 & H3 & H4 & H5 & _).
    unfold constrainment in H1. rewrite A in H1. simpl in H1. rewrite Hp in H1. inversion H1; subst p1.
    destruct (H5 G) as [H6 H7].
    apply integrate_once_shape in Ha. destruct Ha as (pp & vv & hh & -> & L1 & L2 & L3).
    simpl in H6, H7.
    destruct n as [|n'].
    + simpl in E. inv_ok. simpl. auto.
    + apply IHn with (i := i) (p := p) in E; auto.
      * destruct E as [E1 E2]. split; [auto|]. intros _. apply E2. discriminate.
      * destruct I. constructor; simpl; auto; congruence.
Qed.

End Held.

(** ** Nearest point *)

Local Open Scope R_scope.

Local Arguments vdist : simpl never.

Lemma euclid_vdist a b : vdist a b = euclid a b.
Proof. unfold euclid. rewrite vdist_sqrt. f_equal. ring. Qed.

Lemma closest_from_spec pts p : forall i best d j,
  closest_from pts p i best d = Some j ->
  (best = Some j /\ forall k r, nth_error pts k = Some r -> d <= vdist p r) \/
  ((i <= j)%nat /\ exists q, nth_error pts (j - i) = Some q /\ vdist p q < d /\
     forall k r, nth_error pts k = Some r ->
       vdist p q < vdist p r \/ (vdist p q = vdist p r /\ (j <= i + k)%nat)).
Proof.
  induction pts as [|a pts IH]; intros i best d j E; simpl in E.
  - left. split; auto. intros [|k] r; discriminate.
  - rnum. destruct (Rltb_spec (vdist p a) d) as [L|L].
    + apply IH in E. right. destruct E as [[E1 E2]|(E1 & q & E2 & E3 & E4)].
      * inversion E1; subst. split; auto. exists a. rewrite Nat.sub_diag. split; auto. split; auto.
        intros [|k] r X; simpl in X.
        -- inversion X; subst. right. split; auto. lia.
        -- apply E2 in X. destruct (Rle_lt_or_eq_dec _ _ X); [left; auto|right; split; auto; lia].
      * split; [lia|]. exists q. replace (j - i)%nat with (S (j - S i)) by lia. split; auto.
        split; [lra|]. intros [|k] r X; simpl in X.
        -- inversion X; subst. left; lra.
        -- destruct (E4 _ _ X) as [?|[? ?]]; [left; auto|right; split; auto; lia].
    + apply IH in E. apply Rnot_lt_le in L. destruct E as [[E1 E2]|(E1 & q & E2 & E3 & E4)].
      * left. split; auto. intros [|k] r X; simpl in X; [inversion X; subst; auto|eauto].
      * right. split; [lia|]. exists q. replace (j - i)%nat with (S (j - S i)) by lia. split; auto.
        split; auto. intros [|k] r X; simpl in X.
        -- inversion X; subst. left; lra.
        -- destruct (E4 _ _ X) as [?|[? ?]]; [left; auto|right; split; auto; lia].
Qed.

Lemma closest_index_nearest pts p i : closest_index pts p = Some i -> nearest pts p i.
Proof.
  unfold closest_index. intros E. apply closest_from_spec in E.
  destruct E as [[E _]|(_ & q & E2 & _ & E4)]; [discriminate|].
  rewrite Nat.sub_0_r in E2. exists q. split; auto. intros j r X. apply E4 in X.
  rewrite !euclid_vdist in X. auto.
Qed.

Lemma closest_from_none pts p : forall i d,
  closest_from pts p i None d = None -> forall k r, nth_error pts k = Some r -> d <= vdist p r.
Proof.
  assert (S : forall pts i d j, closest_from pts p i (Some j) d <> None).
  { induction pts0; intros; simpl; [discriminate|].
    match goal with |- context [if ?b then _ else _] => destruct b end; auto. }
  induction pts as [|a pts IH]; intros i d E [|k] r X; simpl in *; try discriminate.
  - inversion X; subst. rnum. destruct (Rltb_spec (vdist p r) d); [exfalso; eapply S; eauto|lra].
  - rnum. destruct (Rltb_spec (vdist p a) d); [exfalso; eapply S; eauto|eauto].
Qed.

Lemma closest_index_none pts p :
  closest_index pts p = None -> forall k r, nth_error pts k = Some r -> Rmaxv <= euclid p r.
Proof. intros E k r X. rewrite <- euclid_vdist. eapply closest_from_none in E; eauto. Qed.

Lemma grab_anchor_handle {T} `{Num T} fuel p (m m' : model T) n :
  Inv m -> grab_anchor fuel p m = Ok (m', n) ->
  exists i, lookup_handle (mhandles m') n = Some (HGrab i) /\ closest_index (mpos m) p = Some i /\
            mpos m' = mpos m /\ mvel m' = mvel m /\ msprings m' = msprings m.
Proof.
  unfold grab_anchor. intros I E. inv_ok. exists a. split; [|split; auto].
  - apply activate_shape in Ha0. destruct Ha0 as (tg & id & -> & _). simpl.
    apply in_lookup_handle; [|apply in_or_app; right; left; auto].
    rewrite map_app. simpl. apply NoDup_snoc; [apply (inv_keys _ I)|].
    intros X. apply (inv_next _ I) in X. lia.
  - apply activate_shape in Ha0. destruct Ha0 as (tg & id & -> & _). simpl. auto.
Qed.
