(** Lemmas for the law of motion. *)

From Coq Require Import ZArith Reals Bool List Lia Lra.
From Verif Require Import Num Geometry Outcome Wobbly Spec SpecMotion SpecLaw LemBasic LemReal LemInv LemSprings LemHistory LemAnchors LemMoves LemForce LemRest LemSettle LemAnchorFacts LemPin LemShape.
Import ListNotations.
Local Open Scope R_scope.
Local Arguments vdist : simpl never.

Lemma nth_error_seq_map {A} (f : nat -> A) n i : (i < n)%nat -> nth_error (map f (seq 0 n)) i = Some (f i).
Proof.
  intros Hi. rewrite nth_error_map. replace (nth_error (seq 0 n) i) with (Some i); auto. symmetry.
  rewrite (nth_error_nth' _ O) by (rewrite seq_length; auto). rewrite seq_nth by auto. reflexivity.
Qed.

Lemma constrain_points_true r : forall ts ps,
  snd (constrain_points (T:=R) r ts ps) = true <->
  exists i t p, nth_error ts i = Some t /\ nth_error ps i = Some p /\ r <= euclid t p.
Proof.
  induction ts as [|t ts IH]; intros [|p ps]; cbn [constrain_points].
  1-3: split; [discriminate|intros (i & t1 & p1 & A & B & _); destruct i; discriminate].
  destruct (constrain_point r t p) as [p' b] eqn:E1. specialize (IH ps). destruct (constrain_points r ts ps) as [ps' more].
  cbn [snd] in *. assert (X : b = true <-> r <= euclid t p).
  { unfold constrain_point in E1. rnum. rewrite <- euclid_vdist. destruct (Rltb_spec (vdist t p) r); injection E1 as _ <-; split; intros; try discriminate; auto; lra. }
  rewrite orb_true_iff, X, IH. split.
  - intros [A|(i & t1 & p1 & A)]; [exists 0%nat, t, p; auto|exists (S i), t1, p1; auto].
  - intros ([|i] & t1 & p1 & A & B & C); [left|right; exists i, t1, p1; auto]. injection A as <-. injection B as <-. auto.
Qed.

Lemma count_grabbed (m : model R) i :
  Inv m -> (Z.of_nat (length (mhandles m)) < two32)%Z -> (i < 16)%nat ->
  ((0 <? nth i (t_counts (mtracked m)) 0)%Z = true <-> grabbed m i).
Proof.
  intros I B Hi. pose proof (inv_locks _ I i Hi) as L. apply nth_error_nth with (d := 0%Z) in L. rewrite L.
  pose proof (grabs_pos_iff i (mhandles m) (inv_keys _ I)) as G. unfold grabbed. rewrite <- G, Z.ltb_lt.
  assert (X : (0 <= grabs i (mhandles m) < two32)%Z).
  { pose proof (grabs_le i (mhandles m)). lia. }
  rewrite u32_small by exact X. tauto.
Qed.

Lemma net_force_ext k f g l ss : (forall x, f x = g x) -> net_force k f l ss = net_force k g l ss.
Proof. intros E. induction ss as [|s ss IH]; cbn [net_force]; auto. rewrite IH. unfold share, pull_at. rewrite !E. reflexivity. Qed.

Lemma law_once (m m' : model R) b :
  Inv m -> (Z.of_nat (length (mhandles m)) < two32)%Z -> (active m = true -> 0 < st_range (mset m)) ->
  integrate_once m = Ok (m', b) ->
  one_round m (active m = true) (mpos m) (mvel m) (mpos m') (mvel m') b.
Proof.
  intros I B Rr E. pose proof (integrate_once_ok_valid _ _ _ I E) as V.
  destruct (integrate_once_R m I V) as (h & E' & Hh). cbv zeta in E'. rewrite E in E'. clear E.
  match type of E' with context [rstep ?a ?b ?c ?d ?e ?f ?g] => remember (rstep a b c d e f g) as r eqn:Er in E' end.
  injection E' as -> ->. subst r.
  pose proof (constrainment_length m (mpos m)) as L. rewrite (inv_pos _ I) in L.
  unfold one_round. cbn [set_sim mpos mvel]. set (Q := fst (constrainment m (mpos m))) in *.
  unfold rstep. cbv zeta. cbn [fst snd]. split; [rewrite map_length; reflexivity|]. split; [rewrite map_length; reflexivity|].
  exists Q. split; [exact L|]. split; [|split].
  - intros i t p q Ht Hp Hq. unfold Q, constrainment in Hq. destruct (active m) eqn:A.
    + split; [intros _|congruence]. rewrite constrain_points_map in Hq by (rewrite (inv_pos _ I), (inv_tgt _ I); auto).
      rewrite nth_error_map, (nth_error_combine_some (mtargets m) (mpos m) i t p) in Hq by auto.
      cbn [option_map fst snd] in Hq. injection Hq as <-. apply constrain_confined. auto.
    + split; [discriminate|intros _]. cbn [fst] in Hq. congruence.
  - intros i q v q' v' Hq Hv Hq' Hv'.
    assert (Hi : (i < 16)%nat) by (rewrite <- L; apply nth_error_Some; congruence).
    rewrite nth_error_seq_map in Hq', Hv' by auto. injection Hq' as <-. injection Hv' as <-.
    apply nth_error_nth with (d := vzero) in Hq. apply nth_error_nth with (d := vzero) in Hv. rewrite Hq, Hv.
    pose proof (count_grabbed m i I B Hi) as G. unfold step_point.
    destruct (0 <? nth i (t_counts (mtracked m)) 0)%Z.
    + split; [intros _; split; reflexivity|]. intros N. exfalso. apply N, G. reflexivity.
    + split; [intros X; apply G in X; discriminate|]. intros _. apply euler_moves.
  - rewrite !orb_true_iff. assert (A1 : snd (constrainment m (mpos m)) = true <-> active m = true /\ exists i t p, nth_error (mtargets m) i = Some t /\ nth_error (mpos m) i = Some p /\ st_range (mset m) <= euclid t p).
    { unfold constrainment. destruct (active m); [rewrite constrain_points_true; tauto|]. split; [discriminate|intros [X _]; discriminate]. }
    rewrite A1. match goal with |- _ \/ ?x \/ ?y <-> _ \/ ?z \/ ?w => cut ((x <-> z) /\ (y <-> w)); [tauto|split] end.
    + rewrite existsb_exists. split; intros (s & Hs & X); exists s; split; auto.
      * intros S. apply stretched_slack in S. unfold stretched_at in X. congruence.
      * unfold stretched_at. destruct (stretched _ _ _) eqn:Y; auto. exfalso. apply X. apply stretched_slack. auto.
    + rewrite existsb_exists. split.
      * intros (i & Hi & X). exists (snd (step_point (st_friction (mset m)) (nth i (t_counts (mtracked m)) 0%Z) (nth i Q vzero) (nth i (mvel m) vzero)
                (net_force (st_k (mset m)) (place_of Q (mheap m)) (LMesh i) (msprings m)))).
        split; [apply (in_map (fun i => snd (step_point (st_friction (mset m)) (nth i (t_counts (mtracked m)) 0%Z) (nth i Q vzero) (nth i (mvel m) vzero)
                (net_force (st_k (mset m)) (place_of Q (mheap m)) (LMesh i) (msprings m))))); auto|].
        unfold step_moving in X. unfold step_point. destruct (0 <? _)%Z; [discriminate|].
        intros Z. change (mkV 0 0) with (@vzero R _) in Z. apply euler_moving in Z. congruence.
      * intros (v' & Hv & X). apply in_map_iff in Hv. destruct Hv as (i & <- & Hi). exists i. split; auto.
        unfold step_point in X. unfold step_moving. destruct (0 <? _)%Z; [exfalso; apply X; reflexivity|].
        destruct (snd (euler _ _ _ _)) eqn:Y; auto. exfalso. apply X. apply euler_moving in Y. exact Y.
Qed.

(** The round depends on the model only through what [Step] keeps. *)
Lemma law_same (m1 m2 : model R) alone P V P' V' b :
  mtargets m1 = mtargets m2 -> mset m1 = mset m2 -> mhandles m1 = mhandles m2 -> msprings m1 = msprings m2 ->
  heap_pos (mheap m1) = heap_pos (mheap m2) ->
  one_round m1 alone P V P' V' b -> one_round m2 alone P V P' V' b.
Proof.
  intros E1 E2 E3 E4 E5 (L1 & L2 & Q & LQ & A & B & C). split; [exact L1|]. split; [exact L2|]. exists Q. split; [exact LQ|].
  rewrite <- E1, <- E2, <- E4. unfold grabbed in *. rewrite <- E3. assert (PH : forall x, place_of Q (mheap m1) x = place_of Q (mheap m2) x) by (intros x; apply place_heap; exact E5).
  split; [exact A|]. split.
  - intros i q v q' v' H1 H2 H3 H4. destruct (B i q v q' v' H1 H2 H3 H4) as [B1 B2]. split; [exact B1|].
    intros N. rewrite <- (net_force_ext _ (place_of Q (mheap m1))); [apply B2; exact N|]. exact PH.
  - rewrite C. match goal with |- _ \/ ?x \/ ?y <-> _ \/ ?z \/ ?y => cut (x <-> z); [tauto|] end.
    split; intros (s & Hs & X); exists s; split; auto; intros S; apply X; [rewrite !PH|rewrite <- !PH]; exact S.
Qed.

Lemma rounds_same (m1 m2 : model R) alone n P V P' V' b :
  mtargets m1 = mtargets m2 -> mset m1 = mset m2 -> mhandles m1 = mhandles m2 -> msprings m1 = msprings m2 ->
  heap_pos (mheap m1) = heap_pos (mheap m2) ->
  rounds m1 alone n P V P' V' b -> rounds m2 alone n P V P' V' b.
Proof. intros E1 E2 E3 E4 E5 H. induction H; econstructor; eauto using law_same. Qed.

Lemma law_n n : forall (m m' : model R) b0 b,
  Inv m -> (Z.of_nat (length (mhandles m)) < two32)%Z -> (active m = true -> 0 < st_range (mset m)) ->
  integrate_n n m b0 = Ok (m', b) ->
  exists b1 p v h, b = (b0 || b1)%bool /\ m' = set_sim m p v h /\ heap_pos h = heap_pos (mheap m) /\
    rounds m (active m = true) n (mpos m) (mvel m) p v b1.
Proof.
  induction n as [|n IH]; intros m m' b0 b I B Rr E; cbn [integrate_n] in E; inv_ok.
  - exists false, (mpos m'), (mvel m'), (mheap m'). rewrite orb_false_r. split; [reflexivity|]. split; [destruct m'; reflexivity|]. split; [reflexivity|]. constructor.
  - match goal with X : integrate_once m = Ok ?a |- _ => destruct a as [m1 b1]; rename X into E1 end. cbn [fst snd] in E.
    pose proof (law_once _ _ _ I B Rr E1) as O. destruct (integrate_once_shape _ _ _ E1) as (p & v & h & -> & L1 & L2 & Hh).
    apply IH in E; [|apply inv_sim; [exact I|rewrite L1; apply I|rewrite L2; apply I]|exact B|exact Rr].
    destruct E as (b2 & p2 & v2 & h2 & -> & -> & H2 & R). exists (b1 || b2)%bool, p2, v2, h2.
    split; [apply eq_sym, orb_assoc|]. split; [destruct m; reflexivity|]. split; [rewrite H2; exact Hh|].
    econstructor; [exact O|]. eapply rounds_same; [..|exact R]; reflexivity || exact Hh.
Qed.

Lemma rounds_iff m (a1 a2 : Prop) n P V P' V' b : (a1 <-> a2) -> rounds m a1 n P V P' V' b -> rounds m a2 n P V P' V' b.
Proof.
  intros E H. induction H as [|n P V P1 V1 P2 V2 b1 b2 O H IH]; econstructor; [|exact IH].
  destruct O as (L1 & L2 & Q & LQ & A & B & C). split; [exact L1|]. split; [exact L2|]. exists Q. split; [exact LQ|].
  split; [|split; [exact B|]].
  - intros i t p q H1 H2 H3. destruct (A i t p q H1 H2 H3) as [A1 A2]. split; intros X; [apply A1|apply A2]; tauto.
  - rewrite C. tauto.
Qed.

Lemma law_step p w h st ops (m m' : model R) b t fuel :
  reached p w h st ops m -> (Z.of_nat (length ops) < two32)%Z ->
  (length (live_anchors ops) = 1%nat -> 0 < st_range (mset m)) -> (0 <= t)%Z ->
  step_op fuel m (OpStep t) = Ok (m', OMore b) ->
  exists n P V b0,
    (16 * (Z.of_nat n - 1) < t <= 16 * Z.of_nat n)%Z /\
    rounds m (length (live_anchors ops) = 1%nat) n (mpos m) (mvel m) P V b0 /\
    ((0 < t)%Z -> b = b0) /\
    mvel m' = V /\ mpos m' = (if (negb b && Nat.eqb (length (live_anchors ops)) 1)%bool then mtargets m else P) /\
    mtargets m' = mtargets m /\ msprings m' = msprings m /\ mset m' = mset m /\ mhandles m' = mhandles m /\
    mw m' = mw m /\ mh m' = mh m /\ (forall n, anchor_point m' n = match lookup_handle (mhandles m) n with Some (HGrab i) => nth_error (mpos m') i | _ => anchor_point m n end).
Proof.
  intros Hr Hb Rr Ht E. pose proof (inv_reached _ _ _ _ _ _ Hr) as I. pose proof (reached_active _ _ _ _ _ _ Hr) as A.
  unfold step_op in E. destruct (needs_model _ && negb (malive m))%bool; [discriminate|]. inv_ok.
  match goal with X : model_step t m = Ok ?a |- _ => destruct a as [m1 b1]; rename X into E1 end. cbn [fst snd] in *.
  unfold model_step in E1. inv_ok. match goal with X : integrate_n _ _ _ = Ok ?a |- _ => destruct a as [m2 b2]; rename X into E2 end.
  apply law_n in E2; [|exact I|eapply reached_bound; eauto|intros X; apply Rr, A; exact X].
  destruct E2 as (b0 & P & V & hp & -> & -> & Hh & HR). cbn [orb] in *. inv_ok.
  exists (step_count t), P, V, b0. split; [apply step_count_bounds; exact Ht|].
  split; [eapply rounds_iff; [exact A|exact HR]|]. split; [intros X; replace (t =? 0)%Z with false by (symmetry; apply Z.eqb_neq; lia); reflexivity|].
  change (active (set_unequal (set_sim m P V hp) _)) with (active m).
  replace (Nat.eqb (length (live_anchors ops)) 1) with (active m).
  2:{ apply eq_true_iff_eq. rewrite A. rewrite Nat.eqb_eq. reflexivity. }
  assert (AP : forall mm : model R, mhandles mm = mhandles m -> heap_pos (mheap mm) = heap_pos (mheap m) ->
    forall n, anchor_point mm n = match lookup_handle (mhandles m) n with Some (HGrab i) => nth_error (mpos mm) i | _ => anchor_point m n end).
  { intros mm X1 X2 n. unfold anchor_point. rewrite X1. destruct (lookup_handle (mhandles m) n) as [[i|s f g k aid]|]; auto.
    apply (f_equal (fun l => nth_error l k)) in X2. unfold heap_pos in X2. rewrite !nth_error_map in X2. revert X2.
    unfold block in *. destruct (@nth_error (option (vec R * vec R)) (mheap mm) k) as [[[? ?]|]|], (@nth_error (option (vec R * vec R)) (mheap m) k) as [[[? ?]|]|]; cbn [option_map fst]; intros X2; try discriminate; auto. congruence. }
  destruct (negb _ && active m)%bool; cbn; repeat (split; [reflexivity|]); apply AP; auto.
Qed.

(** ** The law determines the outcome *)

Lemma confined_unique r t p q1 q2 : 0 < r -> confined r t p q1 -> confined r t p q2 -> q1 = q2.
Proof.
  intros Rr [A1 B1] [A2 B2]. destruct (Rlt_le_dec (euclid t p) r) as [L|L]; [rewrite (A1 L), (A2 L); reflexivity|].
  destruct (B1 L) as (D1 & s1 & S1 & E1). destruct (B2 L) as (D2 & s2 & S2 & E2).
  assert (X : forall s q, 0 < s -> q = mkV (vx t + s * (vx p - vx t)) (vy t + s * (vy p - vy t)) -> euclid t q = s * euclid t p).
  { intros s q Hs ->. unfold euclid. cbn [vx vy]. rewrite <- (sqrt_pow2 s) at 3 by lra. rewrite <- sqrt_mult_alt by apply pow2_ge_0. f_equal. ring. }
  rewrite (X s1 q1) in D1 by tauto. rewrite (X s2 q2) in D2 by tauto.
  assert (s1 = s2) as -> by (apply (Rmult_eq_reg_r (euclid t p)); lra). congruence.
Qed.

Lemma list_ext16 {A} (l1 l2 : list A) :
  length l1 = 16%nat -> length l2 = 16%nat ->
  (forall i a b, nth_error l1 i = Some a -> nth_error l2 i = Some b -> a = b) -> l1 = l2.
Proof.
  intros L1 L2 X. apply nth_error_ext. intros i.
  destruct (nth_error l1 i) eqn:E1, (nth_error l2 i) eqn:E2; auto.
  - f_equal. eapply X; eauto.
  - apply nth_error_None in E2. assert (i < length l1)%nat by (apply nth_error_Some; congruence). lia.
  - apply nth_error_None in E1. assert (i < length l2)%nat by (apply nth_error_Some; congruence). lia.
Qed.

Lemma some_at {A} (l : list A) i : (i < length l)%nat -> exists a, nth_error l i = Some a.
Proof. intros Hi. destruct (nth_error l i) eqn:E; eauto. apply nth_error_None in E. lia. Qed.

Lemma round_unique (m : model R) (alone : Prop) P V P1 V1 b1 P2 V2 b2 :
  (alone \/ ~ alone) -> (forall i, grabbed m i \/ ~ grabbed m i) -> (alone -> 0 < st_range (mset m)) ->
  length P = 16%nat -> length V = 16%nat -> length (mtargets m) = 16%nat ->
  one_round m alone P V P1 V1 b1 -> one_round m alone P V P2 V2 b2 -> P1 = P2 /\ V1 = V2 /\ b1 = b2.
Proof.
  intros Da Dg Rr LP LV LT (L1 & L2 & Q & LQ & A & B & C) (L1' & L2' & Q' & LQ' & A' & B' & C').
  assert (Q = Q').
  { apply list_ext16; auto. intros i q q' Hq Hq'. assert (Hi : (i < 16)%nat) by (rewrite <- LQ; apply nth_error_Some; congruence).
    destruct (some_at (mtargets m) i ltac:(lia)) as (t & Ht). destruct (some_at P i ltac:(lia)) as (p & Hp).
    destruct (A i t p q Ht Hp Hq) as [X1 X2]. destruct (A' i t p q' Ht Hp Hq') as [Y1 Y2].
    destruct Da as [Da|Da]; [eapply confined_unique; [apply Rr; exact Da|apply X1; exact Da|apply Y1; exact Da]|rewrite X2, Y2; auto]. }
  subst Q'.
  assert (X : forall i q1 v1 q2 v2, nth_error P1 i = Some q1 -> nth_error V1 i = Some v1 -> nth_error P2 i = Some q2 -> nth_error V2 i = Some v2 -> q1 = q2 /\ v1 = v2).
  { intros i q1 v1 q2 v2 E1 E2 E3 E4. assert (Hi : (i < 16)%nat) by (rewrite <- L1; apply nth_error_Some; congruence).
    destruct (some_at Q i ltac:(lia)) as (q & Hq). destruct (some_at V i ltac:(lia)) as (v & Hv).
    destruct (B i q v q1 v1 Hq Hv E1 E2) as [X1 X2]. destruct (B' i q v q2 v2 Hq Hv E3 E4) as [Y1 Y2].
    destruct (Dg i) as [G|G].
    - destruct (X1 G) as [-> ->]. destruct (Y1 G) as [-> ->]. auto.
    - destruct (X2 G) as [U1 U2]. destruct (Y2 G) as [W1 W2]. assert (v1 = v2) by congruence. subst v2. split; congruence. }
  assert (P1 = P2).
  { apply list_ext16; auto. intros i q1 q2 E1 E2. assert (Hi : (i < 16)%nat) by (rewrite <- L1; apply nth_error_Some; congruence).
    destruct (some_at V1 i ltac:(lia)) as (v1 & E3). destruct (some_at V2 i ltac:(lia)) as (v2 & E4). exact (proj1 (X i q1 v1 q2 v2 E1 E3 E2 E4)). }
  assert (V1 = V2).
  { apply list_ext16; auto. intros i v1 v2 E3 E4. assert (Hi : (i < 16)%nat) by (rewrite <- L2; apply nth_error_Some; congruence).
    destruct (some_at P1 i ltac:(lia)) as (q1 & E1). destruct (some_at P2 i ltac:(lia)) as (q2 & E2). exact (proj2 (X i q1 v1 q2 v2 E1 E3 E2 E4)). }
  subst. repeat split; auto. apply eq_true_iff_eq. rewrite C, C'. reflexivity.
Qed.

Lemma rounds_unique (m : model R) (alone : Prop) n P V P1 V1 b1 :
  (alone \/ ~ alone) -> (forall i, grabbed m i \/ ~ grabbed m i) -> (alone -> 0 < st_range (mset m)) ->
  length P = 16%nat -> length V = 16%nat -> length (mtargets m) = 16%nat ->
  rounds m alone n P V P1 V1 b1 -> forall P2 V2 b2, rounds m alone n P V P2 V2 b2 -> P1 = P2 /\ V1 = V2 /\ b1 = b2.
Proof.
  intros Da Dg Rr LP LV LT H. induction H as [P V|n P V Pa Va Pb Vb ba bb O H IH]; intros P2 V2 b2 H2; inversion H2; subst; auto.
  match goal with O2 : one_round m alone P V ?x ?y ?z |- _ =>
    pose proof (round_unique _ _ _ _ _ _ _ _ _ _ Da Dg Rr LP LV LT O O2) as (<- & <- & <-) end.
  destruct O as (L1 & L2 & _). match goal with R2 : rounds m alone n Pa Va _ _ _ |- _ => destruct (IH L1 L2 _ _ _ R2) as (<- & <- & <-) end. auto.
Qed.

Lemma grabbed_dec (m : model R) i : Inv m -> grabbed m i \/ ~ grabbed m i.
Proof.
  intros I. destruct (Z_lt_dec 0 (grabs i (mhandles m))) as [G|G]; [left|right; intros X; apply G];
    apply (grabs_pos_iff i (mhandles m) (inv_keys _ I)); exact G || exact X.
Qed.
