(** Resting states over the real numbers. *)

From Coq Require Import ZArith Reals Bool List Lia Lra Permutation.
From Verif Require Import Num Geometry Outcome Wobbly Spec LemBasic LemReal LemInv LemSprings LemHistory LemNetwork LemLifo LemAnchors LemMoves LemForce.
Import ListNotations.
Local Open Scope R_scope.

(** ** The spring step at rest *)

Definition quiet (at_ : loc -> vec R) (ss : list (spring R)) : Prop := existsb (stretched_at at_) ss = false.

Lemma quiet_forall at_ ss :
  quiet at_ ss <-> Forall (fun s => slack (at_ (s_pa s)) (at_ (s_pb s)) (s_len s)) ss.
Proof.
  unfold quiet. induction ss; simpl.
  - split; auto.
  - rewrite orb_false_iff, IHss. unfold stretched_at at 1. rewrite stretched_slack. split.
    + intros [A B]. constructor; auto.
    + intros F. inversion F; auto.
Qed.

Lemma vneg_zero : vneg vzero = vzero.
Proof. unfold vneg. veq; ring. Qed.

Lemma quiet_net k at_ l ss : quiet at_ ss -> net_force k at_ l ss = vzero.
Proof.
  rewrite quiet_forall. induction 1 as [|s ss S F IH]; simpl; auto. rewrite IH.
  unfold share, pull_at. rewrite slack_pull by auto. rewrite vneg_zero.
  destruct (loc_eqb (s_fa s) l), (loc_eqb (s_fb s) l); rewrite !vadd_zero_r; auto.
Qed.

Definition still : list (vec R) := repeat vzero 16.

Lemma nth_still i : nth i still (vzero : vec R) = vzero.
Proof. unfold still. do 16 (destruct i; [reflexivity|]). destruct i; reflexivity. Qed.

Lemma euler_rest (fr : R) (p : vec R) : euler fr p vzero vzero = (p, vzero, false).
Proof.
  unfold euler. rewrite reset_zero. cbv zeta.
  assert (E : forall x y : R, (if Rltb (Rabs x) y then 0 else x) = clip y x) by (intros; apply clip_ltb).
  rewrite !E. cbn [vx vy vadd vsub vscale vzero]. rnum.
  replace (0 + (0 - (0 + 0) * fr) * (1 / mass) * 1) with 0 by ring.
  rewrite clip_small by (rewrite Rabs_R0; lra). rewrite Rabs_R0.
  destruct (Rltb_spec 0 0); [lra|]. f_equal. f_equal. veq; lra.
Qed.

Lemma rstep_rest k fr cs ss heap pos :
  length pos = 16%nat -> quiet (place_of pos heap) ss ->
  rstep k fr cs ss heap pos still = (pos, still, false).
Proof.
  intros L Q. unfold rstep. cbv zeta.
  assert (X : forall i, step_point fr (nth i cs 0%Z) (nth i pos vzero) (nth i still vzero)
                (net_force k (place_of pos heap) (LMesh i) ss) = (nth i pos vzero, vzero)).
  { intros i. rewrite quiet_net, nth_still by auto. unfold step_point. rewrite euler_rest.
    destruct (0 <? nth i cs 0)%Z; auto. }
  f_equal; [f_equal|].
  - etransitivity; [|symmetry; apply (list16 vzero pos L)]. apply map_ext. intros i. rewrite X. auto.
  - transitivity (map (fun _ : nat => (vzero : vec R)) (seq 0 16)); [|reflexivity]. apply map_ext. intros i. rewrite X. auto.
  - rewrite Q, orb_false_l. destruct (existsb _ (seq 0 16)) eqn:E; auto. exfalso.
    apply existsb_exists in E. destruct E as (i & _ & E). rewrite quiet_net, nth_still in E by auto.
    unfold step_moving in E. rewrite euler_rest in E. destruct (0 <? nth i cs 0)%Z; discriminate.
Qed.

Lemma rstep_false k fr cs ss heap pos vel :
  length pos = 16%nat -> snd (rstep k fr cs ss heap pos vel) = false ->
  rstep k fr cs ss heap pos vel = (pos, still, false) /\ quiet (place_of pos heap) ss.
Proof.
  intros L E. unfold rstep in E. cbn [snd] in E. apply orb_false_iff in E. destruct E as [Q M].
  split; [|exact Q]. unfold rstep. cbv zeta.
  assert (X : forall i, In i (seq 0 16) -> step_point fr (nth i cs 0%Z) (nth i pos vzero) (nth i vel vzero)
                (net_force k (place_of pos heap) (LMesh i) ss) = (nth i pos vzero, vzero)).
  { intros i Hi. unfold step_point.
    assert (M1 : step_moving fr (nth i cs 0%Z) (nth i pos vzero) (nth i vel vzero) (net_force k (place_of pos heap) (LMesh i) ss) = false).
    { destruct (step_moving _ _ _ _ _) eqn:E; auto. rewrite <- M. symmetry. apply existsb_exists. exists i. auto. }
    unfold step_moving in M1. destruct (0 <? nth i cs 0)%Z; auto.
    apply euler_moving in M1.
    pose proof (euler_moves fr (nth i pos vzero) (nth i vel vzero) (net_force k (place_of pos heap) (LMesh i) ss)) as [_ Mp].
    destruct (fst (euler _ _ _ _)) as [p' v']. simpl in *. subst. f_equal.
    apply vec_eq; unfold vzero; cbn [vx vy]; rnum; lra. }
  f_equal; [f_equal|].
  - etransitivity; [|symmetry; apply (list16 vzero pos L)]. apply map_ext_in. intros i Hi. rewrite X; auto.
  - transitivity (map (fun _ : nat => (vzero : vec R)) (seq 0 16)); [|reflexivity]. apply map_ext_in. intros i Hi. rewrite X; auto.
  - apply orb_false_iff. auto.
Qed.

(** ** The regular grid *)

Lemma specs_eq (tile : vec R) :
  base_spring_specs tile =
  let h := mkV (vx tile) 0 in let v := mkV 0 (vy tile) in
  [(0,4,v);(0,1,h);(1,5,v);(1,2,h);(2,6,v);(2,3,h);(3,7,v);
   (4,8,v);(4,5,h);(5,9,v);(5,6,h);(6,10,v);(6,7,h);(7,11,v);
   (8,12,v);(8,9,h);(9,13,v);(9,10,h);(10,14,v);(10,11,h);(11,15,v);
   (12,13,h);(13,14,h);(14,15,h)]%nat.
Proof. reflexivity. Qed.

Lemma grid_extension (q tile : vec R) a b len :
  In (a, b, len) (base_spring_specs tile) ->
  extension (nth a (position_array q tile) vzero) (nth b (position_array q tile) vzero) len = mkV 0 0.
Proof.
  rewrite specs_eq. cbv zeta. simpl In. unfold extension.
  intros Hin. repeat (destruct Hin as [Hin|Hin]; [injection Hin as <- <- <-; apply vec_eq; cbn; rnum; lra|]).
  destruct Hin.
Qed.

Lemma number_springs_in (l : list (nat * nat * vec R)) : forall next s,
  In s (number_springs l next) ->
  exists a b, In (a, b, s_len s) l /\ s_fa s = LMesh a /\ s_fb s = LMesh b /\ s_pa s = LMesh a /\ s_pb s = LMesh b.
Proof.
  induction l as [|[[a b] len] l IH]; intros next s Hin; simpl in Hin; [tauto|].
  destruct Hin as [<-|Hin].
  - exists a, b. simpl. auto 6.
  - apply IH in Hin. destruct Hin as (a' & b' & H1 & H2). exists a', b'. split; [right|]; auto.
Qed.

Lemma grid_quiet q tile next heap :
  quiet (place_of (position_array q tile) heap) (base_springs tile next).
Proof.
  apply quiet_forall. apply Forall_forall. intros s Hs. apply number_springs_in in Hs.
  destruct Hs as (a & b & Hin & _ & _ & -> & ->). cbn [place_of].
  unfold slack. rewrite grid_extension by auto. cbn [vx vy]. rewrite Rabs_R0. lra.
Qed.

(** ** Networks that differ in identifiers and order only *)

Definition body (s : spring R) : loc * loc * loc * loc * vec R := (s_fa s, s_fb s, s_pa s, s_pb s, s_len s).
Definition same_net (ss ss' : list (spring R)) : Prop := Permutation (map body ss) (map body ss').

Definition mesh_only (s : spring R) : Prop :=
  exists a b, (a < 16)%nat /\ (b < 16)%nat /\ s_fa s = LMesh a /\ s_fb s = LMesh b /\ s_pa s = LMesh a /\ s_pb s = LMesh b.

Lemma same_net_ind (P : list (spring R) -> list (spring R) -> Prop) :
  (forall l l', map body l = map body l' -> P l l') ->
  (forall l l', Permutation l l' -> P l l') ->
  (forall l l' l'', P l l' -> P l' l'' -> P l l'') ->
  forall l l', same_net l l' -> P l l'.
Proof.
  intros A B C l l' N. unfold same_net in N. apply Permutation_map_inv in N.
  destruct N as (l3 & E & N). apply (C _ l3); auto. apply B. symmetry; auto.
Qed.

Lemma net_force_body k at_ l ss ss' : map body ss = map body ss' -> net_force k at_ l ss = net_force k at_ l ss'.
Proof.
  revert ss'; induction ss; intros [|b ss'] E; simpl in *; try discriminate; auto.
  injection E as E1 E2 E3 E4 E5 E6. rewrite (IHss ss') by auto. f_equal. unfold share, pull_at.
  rewrite E1, E2, E3, E4, E5. auto.
Qed.

Lemma existsb_body at_ ss ss' : map body ss = map body ss' -> existsb (stretched_at at_) ss = existsb (stretched_at at_) ss'.
Proof.
  revert ss'; induction ss; intros [|b ss'] E; simpl in *; try discriminate; auto.
  injection E as E1 E2 E3 E4 E5 E6. rewrite (IHss ss') by auto. f_equal. unfold stretched_at.
  rewrite E3, E4, E5. auto.
Qed.

Lemma same_net_force k at_ l ss ss' : same_net ss ss' -> net_force k at_ l ss = net_force k at_ l ss'.
Proof.
  revert ss ss'. apply same_net_ind.
  - intros; apply net_force_body; auto.
  - intros; apply net_force_perm; auto.
  - intros; congruence.
Qed.
Lemma same_net_stretched at_ ss ss' : same_net ss ss' -> existsb (stretched_at at_) ss = existsb (stretched_at at_) ss'.
Proof.
  revert ss ss'. apply same_net_ind.
  - intros; apply existsb_body; auto.
  - intros; apply existsb_perm; auto.
  - intros; congruence.
Qed.

Lemma rstep_net k fr cs ss ss' heap pos vel :
  same_net ss ss' -> rstep k fr cs ss heap pos vel = rstep k fr cs ss' heap pos vel.
Proof.
  intros N. unfold rstep. cbv zeta. rewrite (same_net_stretched _ _ _ N).
  f_equal; [f_equal|f_equal].
  - apply map_ext. intros i. rewrite (same_net_force _ _ _ _ _ N). auto.
  - apply map_ext. intros i. rewrite (same_net_force _ _ _ _ _ N). auto.
  - apply existsb_ext. intros i _. rewrite (same_net_force _ _ _ _ _ N). auto.
Qed.

(** Springs between mesh points do not see the anchors' storage. *)
Lemma pull_at_mesh k pos heap heap' s : mesh_only s -> pull_at k (place_of pos heap) s = pull_at k (place_of pos heap') s.
Proof. intros (a & b & _ & _ & _ & _ & E1 & E2). unfold pull_at. rewrite E1, E2. reflexivity. Qed.
Lemma stretched_at_mesh pos heap heap' s : mesh_only s -> stretched_at (place_of pos heap) s = stretched_at (place_of pos heap') s.
Proof. intros (a & b & _ & _ & _ & _ & E1 & E2). unfold stretched_at. rewrite E1, E2. reflexivity. Qed.
Lemma net_force_mesh k pos heap heap' l ss :
  Forall mesh_only ss -> net_force k (place_of pos heap) l ss = net_force k (place_of pos heap') l ss.
Proof.
  induction 1; simpl; auto. rewrite IHForall. f_equal. unfold share. rewrite (pull_at_mesh _ _ heap heap'); auto.
Qed.
Lemma rstep_mesh k fr cs ss heap heap' pos vel :
  Forall mesh_only ss -> rstep k fr cs ss heap pos vel = rstep k fr cs ss heap' pos vel.
Proof.
  intros F. unfold rstep. cbv zeta.
  assert (X : existsb (stretched_at (place_of pos heap)) ss = existsb (stretched_at (place_of pos heap')) ss).
  { apply existsb_ext. intros s Hs. apply stretched_at_mesh. eapply Forall_forall in F; eauto. }
  rewrite X. f_equal; [f_equal|f_equal].
  - apply map_ext. intros i. rewrite (net_force_mesh _ _ heap heap'); auto.
  - apply map_ext. intros i. rewrite (net_force_mesh _ _ heap heap'); auto.
  - apply existsb_ext. intros i _. rewrite (net_force_mesh _ _ heap heap'); auto.
Qed.

Lemma base_mesh_only tile next : Forall mesh_only (base_springs tile next).
Proof.
  apply Forall_forall. intros s Hs. apply number_springs_in in Hs.
  destruct Hs as (a & b & Hin & E1 & E2 & E3 & E4). exists a, b.
  assert (X : (a < 16 /\ b < 16)%nat); [|tauto].
  rewrite specs_eq in Hin. cbv zeta in Hin. simpl in Hin.
  repeat (destruct Hin as [Hin|Hin]; [injection Hin as <- <- _; lia|]). destruct Hin.
Qed.

Lemma mesh_only_body s s' : body s = body s' -> mesh_only s -> mesh_only s'.
Proof. unfold body, mesh_only. intros E (a & b & X). exists a, b. inversion E. intuition congruence. Qed.

Lemma same_net_mesh ss ss' : same_net ss ss' -> Forall mesh_only ss -> Forall mesh_only ss'.
Proof.
  intros N F. apply Forall_forall. intros s Hs.
  assert (Hb : In (body s) (map body ss)) by (eapply Permutation_in; [symmetry; exact N|]; apply in_map; auto).
  apply in_map_iff in Hb. destruct Hb as (s' & E & Hs'). eapply mesh_only_body; eauto.
  eapply Forall_forall in F; eauto.
Qed.

Lemma mesh_only_valid heap s : mesh_only s -> spring_valid heap s.
Proof.
  intros (a & b & A & B & E1 & E2 & E3 & E4). unfold spring_valid. rewrite E1, E2, E3, E4. simpl. auto.
Qed.

Lemma same_net_sym a b : same_net a b -> same_net b a.
Proof. unfold same_net. intros; symmetry; auto. Qed.
Lemma same_net_trans a b c : same_net a b -> same_net b c -> same_net a c.
Proof. unfold same_net. intros; etransitivity; eauto. Qed.
Lemma base_net tile next next' : same_net (base_springs tile next) (base_springs tile next').
Proof.
  unfold same_net. assert (E : map body (base_springs tile next) = map body (base_springs tile next')).
  { unfold base_springs. generalize (base_spring_specs tile). intros l. revert next next'.
    induction l as [|[[a b] len] l IH]; intros next next'; simpl; auto. f_equal. apply IH. }
  rewrite E. auto.
Qed.

(** ** One integration of the model *)

Lemma integrate_once_R m :
  Inv m -> Forall (spring_valid (mheap m)) (msprings m) ->
  exists heap',
    let c := constrainment m (mpos m) in
    let r := rstep (st_k (mset m)) (st_friction (mset m)) (t_counts (mtracked m)) (msprings m) (mheap m) (fst c) (mvel m) in
    integrate_once m = Ok (set_sim m (fst (fst r)) (snd (fst r)) heap', (snd c || snd r)%bool) /\
    heap_pos heap' = heap_pos (mheap m).
Proof.
  intros I V. pose proof (constrainment_length m (mpos m)) as L. rewrite (inv_pos _ I) in L.
  destruct (spring_step_R (st_k (mset m)) (st_friction (mset m)) (t_counts (mtracked m)) (msprings m)
              (fst (constrainment m (mpos m))) (mvel m) (mheap m)) as (heap' & E & Hh); auto.
  { apply (inv_cnt _ I). } { apply (inv_vel _ I). }
  exists heap'. split; auto. unfold integrate_once.
  destruct (constrainment m (mpos m)) as [pos1 more1]. cbn [fst snd] in *. rewrite E. reflexivity.
Qed.

(** ** Prediction *)

Lemma predict_loop_R k fr cs ss extra : forall fuel pos vel,
  length cs = 16%nat -> length pos = 16%nat -> length vel = 16%nat -> Forall (spring_valid []) ss ->
  predict_loop (S fuel) k fr cs ss extra pos vel =
  let r := rstep k fr cs ss [] pos vel in
  let e := extra (fst (fst r)) in
  if (snd r || snd e)%bool then predict_loop fuel k fr cs ss extra (fst e) (snd (fst r)) else Ok (fst e).
Proof.
  intros fuel pos vel L1 L2 L3 V. cbn [predict_loop].
  destruct (spring_step_R k fr cs ss pos vel [] L1 L2 L3 V) as (h' & -> & _). cbn [bind].
  cbv zeta. destruct (extra (fst (fst (rstep k fr cs ss [] pos vel)))) as [p2 b2]. reflexivity.
Qed.

Lemma rstep_length k fr cs ss heap pos vel :
  length (fst (fst (rstep k fr cs ss heap pos vel))) = 16%nat /\
  length (snd (fst (rstep k fr cs ss heap pos vel))) = 16%nat.
Proof. unfold rstep. cbn [fst snd]. rewrite !map_length, !seq_length. auto. Qed.
