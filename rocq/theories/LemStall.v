(** Meshes that stop before they are at rest, and when they cannot. *)

From Coq Require Import ZArith Reals Bool List Lia Lra Permutation.
From Verif Require Import Num Geometry Outcome Wobbly Spec SpecStall LemBasic LemReal LemInv LemSprings LemHistory LemNetwork LemLifo
  LemAnchors LemMoves LemForce LemRest LemSettle LemStill LemWhole LemHold64.
Import ListNotations.
Local Open Scope R_scope.

(** ** The pulls of the base network *)

Lemma pull_turn k pa pb len len' :
  vx len' = - vx len -> vy len' = - vy len -> vneg (pull k pa pb len) = pull k pb pa len'.
Proof.
  intros E1 E2. unfold vneg, pull, extension. cbn [vx vy]. rewrite E1, E2.
  apply vec_eq; cbn [vx vy]; rewrite Ropp_mult_distr_r, <- clip_opp; f_equal; f_equal; lra.
Qed.

Lemma body_force k at_ l (x : nat * nat * vec R) t next :
  net_force k at_ l (number_springs (x :: t) next) =
  vadd (vadd (if loc_eqb (LMesh (fst (fst x))) l then pull k (at_ (LMesh (fst (fst x)))) (at_ (LMesh (snd (fst x)))) (snd x) else vzero)
             (if loc_eqb (LMesh (snd (fst x))) l then vneg (pull k (at_ (LMesh (fst (fst x)))) (at_ (LMesh (snd (fst x)))) (snd x)) else vzero))
       (net_force k at_ l (number_springs t (next + 1))).
Proof. destruct x as [[a b] len]. reflexivity. Qed.

Lemma vadd_0l (a : vec R) : vadd vzero a = a.
Proof. rewrite vadd_comm. apply vadd_zero_r. Qed.

Lemma net_grid k w h pos heap next i :
  (i < 16)%nat ->
  net_force k (place_of pos heap) (LMesh i) (base_springs (tile_size w h) next) = grid_pull k w h pos i.
Proof.
  intros Hi. unfold base_springs. rewrite specs_eq. cbv zeta. unfold grid_pull, neighbours.
  unfold tile_size. cbn [vx vy]. rnum.
  do 16 (destruct i as [|i];
    [ solve [ repeat rewrite body_force; cbn [fst snd loc_eqb Nat.eqb place_of];
      cbn [Nat.ltb Nat.leb Nat.div Nat.modulo Nat.divmod Nat.sub Nat.add fst snd app fold_right];
      cbn [number_springs net_force]; rewrite ?vadd_zero_r, ?vadd_0l;
      repeat (erewrite (pull_turn k _ _ (mkV (w / _) 0) (mkV (- (w / 3)) 0)) by (cbn [vx vy]; lra));
      repeat (erewrite (pull_turn k _ _ (mkV 0 (h / _)) (mkV 0 (- (h / 3)))) by (cbn [vx vy]; lra));
      apply vec_eq; unfold vadd; cbn [vx vy]; rnum; ring ] |]).
  lia.
Qed.

Lemma slack_turn pa pb len len' : vx len' = - vx len -> vy len' = - vy len -> slack pa pb len -> slack pb pa len'.
Proof.
  intros E1 E2 [A B]. unfold slack, extension in *. cbn [vx vy] in *. rewrite E1, E2.
  replace (vx pa - vx pb - - vx len) with (- (vx pb - vx pa - vx len)) by lra.
  replace (vy pa - vy pb - - vy len) with (- (vy pb - vy pa - vy len)) by lra. rewrite !Rabs_Ropp. auto.
Qed.

Lemma neighbour_spec w h i n :
  (i < 16)%nat -> In n (neighbours w h i) ->
  In (i, fst n, snd n) (base_spring_specs (tile_size w h)) \/
  In (fst n, i, vneg (snd n)) (base_spring_specs (tile_size w h)).
Proof.
  intros Hi Hn. rewrite specs_eq. cbv zeta. unfold neighbours in Hn. unfold tile_size. cbn [vx vy]. rnum.
  assert (N1 : vneg (mkV (- (w / 3)) 0) = mkV (w / 3) 0) by (unfold vneg; cbn [vx vy]; f_equal; lra).
  assert (N2 : vneg (mkV 0 (- (h / 3))) = mkV 0 (h / 3)) by (unfold vneg; cbn [vx vy]; f_equal; lra).
  do 16 (destruct i as [|i];
    [ cbn [Nat.ltb Nat.leb Nat.div Nat.modulo Nat.divmod Nat.sub Nat.add fst snd app In] in Hn;
      repeat (destruct Hn as [Hn|Hn]; [subst n; cbn [fst snd]; rewrite ?N1, ?N2; cbn [In]; tauto|]); destruct Hn |]).
  lia.
Qed.

Lemma spec_neighbour w h a b len :
  In (a, b, len) (base_spring_specs (tile_size w h)) -> (a < 16)%nat /\ In (b, len) (neighbours w h a).
Proof.
  rewrite specs_eq. cbv zeta. unfold tile_size. cbn [vx vy]. rnum. cbn [In]. intros Hin.
  repeat (destruct Hin as [Hin|Hin]; [injection Hin as <- <- <-; split; [lia|]; unfold neighbours;
    cbn [Nat.ltb Nat.leb Nat.div Nat.modulo Nat.divmod Nat.sub Nat.add fst snd app In]; tauto|]).
  destruct Hin.
Qed.

Lemma taut_stretched w h pos heap next :
  taut w h pos <-> existsb (stretched_at (place_of pos heap)) (base_springs (tile_size w h) next) = true.
Proof.
  rewrite existsb_exists. split.
  - intros (i & n & Hi & Hn & NS).
    assert (X : exists a b len, In (a, b, len) (base_spring_specs (tile_size w h)) /\ ~ slack (nth a pos vzero) (nth b pos vzero) len).
    { destruct (neighbour_spec _ _ _ _ Hi Hn) as [S1|S1].
      - eauto 6.
      - do 3 eexists. split; [exact S1|]. intros S2. apply NS. eapply slack_turn; [| |exact S2]; unfold vneg; cbn [vx vy]; lra. }
    destruct X as (a & b & len & Hin & NS'). destruct (base_spring_in _ next _ _ _ Hin) as (s & Hs & E1 & E2 & E3).
    exists s. split; auto. unfold stretched_at. rewrite E1, E2, E3. cbn [place_of].
    destruct (stretched _ _ _) eqn:E; auto. exfalso. apply NS'. apply stretched_slack. exact E.
  - intros (s & Hs & E). apply number_springs_in in Hs. destruct Hs as (a & b & Hin & _ & _ & E1 & E2).
    destruct (spec_neighbour _ _ _ _ _ Hin) as (Ha & Hn). exists a, (b, s_len s). split; [auto|]. split; [auto|].
    cbn [fst snd]. intros S1. apply stretched_slack in S1. unfold stretched_at in E. rewrite E1, E2 in E. cbn [place_of] in E. congruence.
Qed.

(** ** A free mesh *)

(** What holds of a model reached by a calm history that holds no anchor. *)
Definition free_mesh (m : model R) : Prop :=
  Inv m /\ mcount m = 0%Z /\ forall next, same_net (msprings m) (base_springs (tile_size (mw m) (mh m)) next).

Lemma free_reached p w h st ops (m : model R) :
  0 < w -> 0 < h -> reached p w h st ops m -> calm_history ops -> live_anchors ops = [] -> free_mesh m.
Proof.
  intros W Hh Hr Ca L. split; [eapply inv_reached; eauto|]. split; [eapply no_live_count; eauto|].
  destruct (regular_reached _ _ _ _ _ _ W Hh Hr Ca) as (next & N & Rg). intros next'.
  apply (regular_net next m N Rg). eapply no_inserted_of; eauto. unfold live_inserted. rewrite L. reflexivity.
Qed.

Lemma free_inactive m : free_mesh m -> active m = false.
Proof. intros (_ & C & _). unfold active. rewrite C. reflexivity. Qed.

Lemma free_mesh_only m : free_mesh m -> Forall mesh_only (msprings m).
Proof. intros (_ & _ & N). eapply same_net_mesh; [apply same_net_sym; apply (N 0%Z)|]. apply base_mesh_only. Qed.

Lemma free_rstep m heap vel cs :
  free_mesh m ->
  rstep (st_k (mset m)) (st_friction (mset m)) cs (msprings m) heap (mpos m) vel =
  rstep (st_k (mset m)) (st_friction (mset m)) cs (base_springs (tile_size (mw m) (mh m)) (mnext_id m)) [] (mpos m) vel.
Proof. intros (_ & _ & N). rewrite (rstep_net _ _ _ _ _ _ _ _ (N (mnext_id m))). apply rstep_mesh. apply base_mesh_only. Qed.

Lemma free_sim m p v h b : free_mesh m -> length p = 16%nat -> length v = 16%nat -> free_mesh (set_unequal (set_sim m p v h) b).
Proof. intros (I & C & N) L1 L2. split; [|split; [exact C|exact N]]. pose proof (inv_sim m p v h I L1 L2) as []. constructor; auto. Qed.

(** ** Stalling *)

Lemma euler_stall fr (p f : vec R) :
  Rabs (vx f) / 15 < 1 / 10 -> Rabs (vy f) / 15 < 1 / 10 -> euler fr p vzero f = (p, vzero, false).
Proof.
  intros A B. pose proof (euler_moves fr p vzero f) as [Ev Ep].
  assert (Z : snd (fst (euler fr p vzero f)) = vzero).
  { rewrite Ev. unfold clip2, vzero. cbn [vx vy]. rnum. apply vec_eq; cbn [vx vy].
    - apply clip_small. replace (0 + (vx f - fr * 0) / 15) with (vx f * / 15) by lra. rewrite Rabs_mult, (Rabs_right (/ 15)) by lra. lra.
    - apply clip_small. replace (0 + (vy f - fr * 0) / 15) with (vy f * / 15) by lra. rewrite Rabs_mult, (Rabs_right (/ 15)) by lra. lra. }
  pose proof (proj2 (euler_moving fr p vzero f) Z) as M. rewrite Z in Ep.
  assert (P : fst (fst (euler fr p vzero f)) = p).
  { rewrite Ep. unfold vzero. cbn [vx vy]. rnum. apply vec_eq; cbn [vx vy]; lra. }
  destruct (euler fr p vzero f) as [[p' v'] b]. cbn [fst snd] in *. congruence.
Qed.

Lemma rstep_stall k fr cs w h next pos :
  length pos = 16%nat -> too_weak k w h pos -> taut w h pos ->
  rstep k fr cs (base_springs (tile_size w h) next) [] pos still = (pos, still, true).
Proof.
  intros L Wk Ta. unfold rstep. cbv zeta.
  assert (X : forall i, In i (seq 0 16) -> step_point fr (nth i cs 0%Z) (nth i pos vzero) (nth i still vzero)
                (net_force k (place_of pos []) (LMesh i) (base_springs (tile_size w h) next)) = (nth i pos vzero, vzero)).
  { intros i Hi. apply in_seq in Hi. rewrite nth_still, net_grid by lia. unfold step_point.
    destruct (Wk i) as (A & B); [lia|]. rewrite euler_stall by auto. destruct (0 <? nth i cs 0)%Z; auto. }
  f_equal; [f_equal|].
  - etransitivity; [|symmetry; apply (list16 vzero pos L)]. apply map_ext_in. intros i Hi. rewrite X; auto.
  - transitivity (map (fun _ : nat => (vzero : vec R)) (seq 0 16)); [|reflexivity]. apply map_ext_in. intros i Hi. rewrite X; auto.
  - apply orb_true_iff. left. apply taut_stretched. exact Ta.
Qed.

(** The state of a stalled mesh. *)
Definition stalled (m : model R) : Prop :=
  free_mesh m /\ mvel m = still /\ too_weak (st_k (mset m)) (mw m) (mh m) (mpos m) /\ taut (mw m) (mh m) (mpos m).

Lemma stalled_sim m h b : stalled m -> stalled (set_unequal (set_sim m (mpos m) still h) b).
Proof.
  intros (F & V & W & T). split; [|split; [reflexivity|split; auto]]. apply free_sim; auto. destruct F as (I & _). apply (inv_pos _ I).
Qed.

Lemma stalled_once m : stalled m -> exists h, integrate_once m = Ok (set_sim m (mpos m) still h, true).
Proof.
  intros S. pose proof S as (F & V & W & T). pose proof F as (I & _).
  destruct (integrate_once_R m I) as (h & E & _).
  { eapply Forall_impl; [|exact (free_mesh_only m F)]. intros; apply mesh_only_valid; auto. }
  assert (C : constrainment m (mpos m) = (mpos m, false)) by (unfold constrainment; rewrite free_inactive; auto).
  cbv zeta in E. rewrite C in E. cbn [fst snd orb] in E. rewrite free_rstep, V, rstep_stall in E; auto.
  - cbn [fst snd] in E. eauto.
  - apply (inv_pos _ I).
Qed.

Lemma stalled_n n : forall m b, stalled m -> exists h, integrate_n (S n) m b = Ok (set_sim m (mpos m) still h, true).
Proof.
  induction n as [|n IH]; intros m b S; cbn [integrate_n].
  - destruct (stalled_once m S) as (h & ->). cbn [bind fst snd]. rewrite orb_true_r. eauto.
  - destruct (stalled_once m S) as (h & ->). cbn [bind fst snd].
    destruct (IH (set_sim m (mpos m) still h) (b || true)%bool) as (h' & E').
    + destruct S as (F & V & W & T). split; [|split; [reflexivity|split; auto]].
      destruct F as (I & C & N). split; [|split; auto]. apply inv_sim; auto. apply (inv_pos _ I).
    + cbn [integrate_n] in E'. rewrite E'. exists h'. reflexivity.
Qed.

Lemma step_count_pos t : (0 < t)%Z -> exists n, step_count t = S n.
Proof.
  intros Ht. unfold step_count. assert (X : (1 <= (t + 15) / 16)%Z) by (apply Z.div_le_lower_bound; lia).
  exists (Z.to_nat ((t + 15) / 16) - 1)%nat. lia.
Qed.

Lemma stalled_step t m : stalled m -> (0 < t)%Z ->
  exists h, model_step t m = Ok (set_unequal (set_sim m (mpos m) still h) true, true).
Proof.
  intros S Ht. unfold model_step. destruct (step_count_pos t Ht) as (n & ->). destruct (stalled_n n m false S) as (h & ->).
  cbn [bind]. rewrite orb_true_r. cbn [negb andb]. eauto.
Qed.

Lemma stalled_run fuel ts : forall m, stalled m -> malive m = true -> (forall t, In t ts -> (0 < t)%Z) ->
  exists m', run fuel m (map (fun t => OpStep t) ts) = Ok (m', map (fun _ => OMore true) ts) /\
             mpos m' = mpos m /\ mvel m' = mvel m /\ malive m' = true /\ stalled m'.
Proof.
  induction ts as [|t ts IH]; intros m S Al P; cbn [map run].
  - exists m. auto.
  - unfold step_op. cbn [needs_model]. rewrite Al. cbn [negb andb].
    destruct (stalled_step t m S) as (h & ->); [apply P; left; auto|]. cbn [bind fst snd].
    pose proof (stalled_sim m h true S) as S1. destruct (IH _ S1) as (m' & E & A & B & C & D); auto.
    { intros t' Ht. apply P. right. auto. }
    exists m'. rewrite E. cbn [bind fst snd]. split; [reflexivity|]. split; [rewrite A; reflexivity|].
    split; [rewrite B; destruct S as (_ & -> & _); reflexivity|]. auto.
Qed.

Lemma stalled_predict fuel m extra : stalled m -> (forall p, extra p = (p, false)) -> predict fuel m extra = Err NoFuel.
Proof.
  intros ((I & C & N) & V & W & T) X. unfold predict.
  assert (P : predict_loop fuel (st_k (mset m)) (st_friction (mset m)) (t_counts (mtracked m))
                (base_springs (tile_size (mw m) (mh m)) (mnext_id m)) extra (mpos m) (mvel m) = Err NoFuel).
  { rewrite V. induction fuel as [|fuel IH]; [reflexivity|]. rewrite predict_loop_R.
    - cbv zeta. rewrite rstep_stall; auto. 2: apply (inv_pos _ I). cbn [fst snd orb]. rewrite X. cbn [fst]. exact IH.
    - apply (inv_cnt _ I).
    - apply (inv_pos _ I).
    - reflexivity.
    - apply base_springs_valid. }
  rewrite P. reflexivity.
Qed.

Lemma stalled_target fuel m : stalled m -> target_position fuel m = Err NoFuel.
Proof.
  intros S. pose proof (free_inactive m (proj1 S)) as A. unfold target_position. rewrite A.
  rewrite stalled_predict; auto. intros p. unfold constrainment. rewrite A. reflexivity.
Qed.

Lemma stalled_activate fuel m : stalled m -> activate fuel (set_unequal m true) = Err NoFuel.
Proof.
  intros S. unfold activate. cbn [set_count mcount set_unequal]. pose proof S as ((_ & C & _) & _). rewrite C. cbn [Z.add Z.eqb Pos.eqb].
  unfold recalc_targets.
  assert (P : predict fuel (set_count (set_unequal m true) 1) (fun pos => (pos, false)) = predict fuel m (fun pos => (pos, false))) by reflexivity.
  rewrite P, stalled_predict by auto. reflexivity.
Qed.

Lemma stalled_hangs fuel m : stalled m -> malive m = true ->
  (forall q, step_op fuel m (OpMoveTo q) = Err NoFuel) /\
  (forall w' h', 0 < w' -> 0 < h' -> w' / mw m <> 1 \/ h' / mh m <> 1 -> step_op fuel m (OpResize w' h') = Err NoFuel) /\
  (forall q r, step_op fuel m (OpGrab q) <> Ok r) /\
  (forall q, step_op fuel m (OpInsert q) = Err NoFuel).
Proof.
  intros S Al. pose proof (stalled_target fuel m S) as Tp. split; [|split; [|split]].
  - intros q. unfold step_op. cbn [needs_model]. rewrite Al. cbn [negb andb]. unfold move_model_to. rewrite Tp. reflexivity.
  - intros w' h' W' H' NE. unfold step_op. cbn [needs_model]. rewrite Al. cbn [negb andb]. unfold resize_model.
    assert (Y : (nltb nzero w' && nltb nzero h')%bool = true) by (rnum; rewrite (proj2 (Rltb_iff 0 w')), (proj2 (Rltb_iff 0 h')) by auto; auto).
    rewrite Y. cbn [negb]. cbv zeta. destruct (vequals _ _) eqn:Ev.
    + exfalso. apply vequals_R in Ev. rnum. injection Ev as E1 E2. lra.
    + rewrite Tp. reflexivity.
  - intros q r E. unfold step_op in E. cbn [needs_model] in E. rewrite Al in E. cbn [negb andb] in E. unfold grab_anchor in E.
    destruct (closest_index (mpos m) q); cbn [of_option bind] in E; [|discriminate].
    rewrite stalled_activate in E by auto. discriminate.
  - intros q. unfold step_op. cbn [needs_model]. rewrite Al. cbn [negb andb]. unfold insert_anchor.
    rewrite stalled_activate by auto. reflexivity.
Qed.

(** ** Strong springs do not stall *)

(** Distance of a point from its place in a grid whose first point is at the
    origin, along the first axis and along the second. *)
Definition off_x (w : R) (pos : list (vec R)) (i : nat) : R := vx (nth i pos vzero) - INR (i mod 4) * (w / 3).
Definition off_y (h : R) (pos : list (vec R)) (i : nat) : R := vy (nth i pos vzero) - INR (i / 4) * (h / 3).

Lemma neighbour_cases w h i n (P : nat -> nat * vec R -> Prop) :
  (forall i, (i < 16)%nat -> (i mod 4 < 3)%nat -> P i ((i + 1)%nat, mkV (w / 3) 0)) ->
  (forall i, (i < 16)%nat -> (0 < i mod 4)%nat -> P i ((i - 1)%nat, mkV (- (w / 3)) 0)) ->
  (forall i, (i < 16)%nat -> (i / 4 < 3)%nat -> P i ((i + 4)%nat, mkV 0 (h / 3))) ->
  (forall i, (i < 16)%nat -> (0 < i / 4)%nat -> P i ((i - 4)%nat, mkV 0 (- (h / 3)))) ->
  (i < 16)%nat -> In n (neighbours w h i) -> P i n.
Proof.
  intros A B C D Hi Hn. unfold neighbours in Hn. rewrite !in_app_iff in Hn.
  destruct Hn as [Hn|[Hn|[Hn|Hn]]];
    match type of Hn with In _ (if ?b then _ else _) => destruct b eqn:E end; cbn [In] in Hn; try tauto;
    destruct Hn as [<-|[]]; apply Nat.ltb_lt in E; auto.
Qed.

Ltac neighbour_tac Hi Hn := 
  let i := fresh "i" in
  match type of Hn with In ?n (neighbours ?w ?h ?j) => pattern j, n; apply (neighbour_cases w h j n); [| | | |exact Hi|exact Hn] end;
  clear; intros i Hi Hn;
  let H := fresh in assert (H : In i (seq 0 16)) by (apply in_seq; lia);
  cbn [seq In] in H; repeat (destruct H as [<-|H]); try destruct H;
  try (exfalso; cbn in Hn; lia).

Lemma neighbour_off_x w h pos i n :
  (i < 16)%nat -> In n (neighbours w h i) ->
  vx (extension (nth i pos vzero) (nth (fst n) pos vzero) (snd n)) = off_x w pos (fst n) - off_x w pos i.
Proof.
  intros Hi Hn. neighbour_tac Hi Hn.
  all: unfold off_x, extension; cbn [fst snd vx vy Nat.add Nat.sub Nat.div Nat.modulo Nat.divmod]; cbn [INR]; lra.
Qed.

Lemma neighbour_off_y w h pos i n :
  (i < 16)%nat -> In n (neighbours w h i) ->
  vy (extension (nth i pos vzero) (nth (fst n) pos vzero) (snd n)) = off_y h pos (fst n) - off_y h pos i.
Proof.
  intros Hi Hn. neighbour_tac Hi Hn.
  all: unfold off_y, extension; cbn [fst snd vx vy Nat.add Nat.sub Nat.div Nat.modulo Nat.divmod]; cbn [INR]; lra.
Qed.

Lemma neighbour_back w h i n :
  (i < 16)%nat -> In n (neighbours w h i) -> (fst n < 16)%nat /\ exists l, In (i, l) (neighbours w h (fst n)).
Proof.
  intros Hi Hn. neighbour_tac Hi Hn.
  all: split; [cbn; lia|]; unfold neighbours; cbn [fst snd Nat.ltb Nat.leb Nat.div Nat.modulo Nat.divmod Nat.sub Nat.add app In]; eauto 8.
Qed.

(** The largest value of a function on a decidable non-empty set of indices. *)
Lemma argmax (P : nat -> Prop) (f : nat -> R) N :
  (forall i, {P i} + {~ P i}) -> (exists i, (i < N)%nat /\ P i) ->
  exists i, (i < N)%nat /\ P i /\ forall j, (j < N)%nat -> P j -> f j <= f i.
Proof.
  intros D. induction N as [|N IH]; intros (i & Hi & Pi); [lia|].
  destruct (D N) as [PN|PN].
  - assert (X : (exists i, (i < N)%nat /\ P i) \/ ~ (exists i, (i < N)%nat /\ P i)).
    { clear - D. induction N as [|N [IH|IH]].
      - right. intros (i & Hi & _). lia.
      - left. destruct IH as (i & Hi & Pi). exists i. split; [lia|auto].
      - destruct (D N) as [PN|PN]; [left; exists N; split; [lia|auto]|]. right. intros (i & Hi & Pi).
        destruct (Nat.eq_dec i N); [subst; auto|]. apply IH. exists i. split; [lia|auto]. }
    destruct X as [X|X].
    + destruct (IH X) as (j & Hj & Pj & Mj). destruct (Rle_dec (f N) (f j)) as [L|L].
      * exists j. split; [lia|]. split; [auto|]. intros a Ha Pa. destruct (Nat.eq_dec a N); [subst; auto|]. apply Mj; [lia|auto].
      * exists N. split; [lia|]. split; [auto|]. intros a Ha Pa. destruct (Nat.eq_dec a N); [subst; lra|].
        assert (f a <= f j) by (apply Mj; [lia|auto]). lra.
    + exists N. split; [lia|]. split; [auto|]. intros a Ha Pa. destruct (Nat.eq_dec a N); [subst; lra|].
      exfalso. apply X. exists a. split; [lia|auto].
  - destruct IH as (j & Hj & Pj & Mj).
    + exists i. split; auto. destruct (Nat.eq_dec i N); [subst; tauto|lia].
    + exists j. split; [lia|]. split; [auto|]. intros a Ha Pa. destruct (Nat.eq_dec a N); [subst; tauto|]. apply Mj; [lia|auto].
Qed.

(** A sum of terms none of which is positive and one of which is at most [-c]. *)
Lemma sum_below {A} (f : A -> R) (c : R) l :
  (forall x, In x l -> f x <= 0) -> (exists x, In x l /\ f x <= - c) -> fold_right (fun x s => f x + s) 0 l <= - c.
Proof.
  assert (Z : forall l, (forall x, In x l -> f x <= 0) -> fold_right (fun x s => f x + s) 0 l <= 0).
  { clear. induction l as [|a l IH]; intros N; cbn [fold_right]; [lra|]. pose proof (N a (or_introl eq_refl)).
    assert (fold_right (fun x s => f x + s) 0 l <= 0) by (apply IH; intros x Hx; apply N; right; auto). lra. }
  induction l as [|a l IH]; intros N (x & Hx & E); [destruct Hx|]. cbn [fold_right]. destruct Hx as [->|Hx].
  - pose proof (Z l (fun y Hy => N y (or_intror Hy))). lra.
  - pose proof (N a (or_introl eq_refl)).
    assert (fold_right (fun x s => f x + s) 0 l <= - c) by (apply IH; [intros y Hy; apply N; right; auto|eauto]). lra.
Qed.

Lemma grid_pull_x k w h pos i :
  vx (grid_pull k w h pos i) =
  fold_right (fun n s => k * clip (1 / 2) (vx (extension (nth i pos vzero) (nth (fst n) pos vzero) (snd n)) / 2) + s) 0 (neighbours w h i).
Proof. unfold grid_pull. induction (neighbours w h i) as [|n l IH]; [reflexivity|]. cbn [fold_right]. rewrite <- IH. reflexivity. Qed.

Lemma grid_pull_y k w h pos i :
  vy (grid_pull k w h pos i) =
  fold_right (fun n s => k * clip (1 / 2) (vy (extension (nth i pos vzero) (nth (fst n) pos vzero) (snd n)) / 2) + s) 0 (neighbours w h i).
Proof. unfold grid_pull. induction (neighbours w h i) as [|n l IH]; [reflexivity|]. cbn [fold_right]. rewrite <- IH. reflexivity. Qed.

Lemma clip_down x : (1 <= Rabs x -> x <= 0) -> clip (1 / 2) (x / 2) <= 0.
Proof.
  intros X. unfold clip. destruct (Rlt_dec (Rabs (x / 2)) (1 / 2)) as [L|L]; [lra|].
  assert (1 <= Rabs x) by (rewrite half_abs in L; lra). specialize (X H). lra.
Qed.

Lemma clip_down_far x : 1 <= Rabs x -> x <= 0 -> clip (1 / 2) (x / 2) <= - (1 / 2).
Proof.
  intros X N. rewrite clip_big; [rewrite Rabs_left1 in X by auto; lra|].
  destruct (Rlt_dec (Rabs (x / 2)) (1 / 2)) as [L|L]; [|lra]. rewrite half_abs in L. lra.
Qed.

Section Extreme.
Context (k w h : R) (off : nat -> R) (ext : nat -> nat * vec R -> R).
Context (Hoff : forall i n, (i < 16)%nat -> In n (neighbours w h i) -> ext i n = off (fst n) - off i).

(** The furthest point among those out of place with respect to a neighbour is
    pulled back by all the neighbours that pull. *)
Lemma extreme :
  0 <= k -> (exists i n, (i < 16)%nat /\ In n (neighbours w h i) /\ 1 <= Rabs (ext i n)) ->
  exists i, (i < 16)%nat /\
    fold_right (fun n s => k * clip (1 / 2) (ext i n / 2) + s) 0 (neighbours w h i) <= - (k / 2).
Proof.
  intros K (i0 & n0 & Hi0 & Hn0 & E0).
  destruct (argmax (fun i => (i < 16)%nat /\ Exists (fun n => 1 <= Rabs (ext i n)) (neighbours w h i)) off 16) as (i & Hi & (_ & Xi) & Mi).
  - intros i. destruct (lt_dec i 16) as [L|L]; [|right; tauto].
    destruct (Exists_dec (fun n => 1 <= Rabs (ext i n)) (neighbours w h i)) as [X|X]; [intros n; apply Rle_dec|left; auto|right; tauto].
  - exists i0. split; [auto|]. split; [auto|]. apply Exists_exists. eauto.
  - exists i. split; [auto|].
    assert (Dn : forall n, In n (neighbours w h i) -> 1 <= Rabs (ext i n) -> ext i n <= 0).
    { intros n Hn En. destruct (neighbour_back _ _ _ _ Hi Hn) as (Hj & l & Hl).
      assert (off (fst n) <= off i).
      { apply Mi; [auto|]. split; [auto|]. apply Exists_exists. exists (i, l). split; auto.
        rewrite (Hoff _ _ Hj Hl). cbn [fst]. rewrite (Hoff _ _ Hi Hn) in En.
        replace (off i - off (fst n)) with (- (off (fst n) - off i)) by lra. rewrite Rabs_Ropp. auto. }
      rewrite (Hoff _ _ Hi Hn). lra. }
    apply Exists_exists in Xi. destruct Xi as (n & Hn & En).
    apply (sum_below (fun n => k * clip (1 / 2) (ext i n / 2))).
    + intros x Hx. pose proof (clip_down (ext i x) (Dn x Hx)) as C.
      assert (0 <= k * - clip (1 / 2) (ext i x / 2)) by (apply Rmult_le_pos; lra). lra.
    + exists n. split; auto. pose proof (clip_down_far (ext i n) En (Dn n Hn En)) as C.
      assert (0 <= k * (- (1 / 2) - clip (1 / 2) (ext i n / 2))) by (apply Rmult_le_pos; lra). lra.
Qed.
End Extreme.

Lemma taut_pulls k w h pos :
  0 <= k -> taut w h pos ->
  exists i, (i < 16)%nat /\ (vx (grid_pull k w h pos i) <= - (k / 2) \/ vy (grid_pull k w h pos i) <= - (k / 2)).
Proof.
  intros K (i & n & Hi & Hn & NS).
  assert (X : 1 <= Rabs (vx (extension (nth i pos vzero) (nth (fst n) pos vzero) (snd n))) \/
              1 <= Rabs (vy (extension (nth i pos vzero) (nth (fst n) pos vzero) (snd n)))).
  { unfold slack in NS. destruct (Rlt_dec (Rabs (vx (extension (nth i pos vzero) (nth (fst n) pos vzero) (snd n)))) 1); [|left; lra].
    destruct (Rlt_dec (Rabs (vy (extension (nth i pos vzero) (nth (fst n) pos vzero) (snd n)))) 1); [|right; lra]. tauto. }
  destruct X as [X|X].
  - destruct (extreme k w h (off_x w pos) (fun i n => vx (extension (nth i pos vzero) (nth (fst n) pos vzero) (snd n)))) as (j & Hj & E); auto.
    + intros; apply (neighbour_off_x w h); auto.
    + eauto 6.
    + exists j. split; auto. left. rewrite grid_pull_x. exact E.
  - destruct (extreme k w h (off_y h pos) (fun i n => vy (extension (nth i pos vzero) (nth (fst n) pos vzero) (snd n)))) as (j & Hj & E); auto.
    + intros; apply (neighbour_off_y w h); auto.
    + eauto 6.
    + exists j. split; auto. right. rewrite grid_pull_y. exact E.
Qed.

(** ** Strong springs move *)

Lemma no_lock p w h st ops (m : model R) i :
  reached p w h st ops m -> live_anchors ops = [] -> (Z.of_nat (length ops) < two32)%Z -> (i < 16)%nat ->
  (0 <? nth i (t_counts (mtracked m)) 0)%Z = false.
Proof.
  intros Hr L Bd Hi. destruct (counts_held m i (inv_reached _ _ _ _ _ _ Hr) (reached_bound _ _ _ _ _ _ Hr Bd) Hi) as (c & Ec & Hc).
  rewrite (nth_error_nth _ _ _ Ec). destruct (0 <? c)%Z; auto. exfalso.
  destruct (proj1 Hc eq_refl) as (n & Hn). pose proof (reached_live _ _ _ _ _ _ Hr) as E. rewrite L in E.
  destruct (mhandles m); [discriminate Hn|discriminate E].
Qed.

Lemma rstep_pos_nth k fr cs ss heap pos vel i : (i < 16)%nat ->
  nth i (fst (fst (rstep k fr cs ss heap pos vel))) vzero =
  fst (step_point fr (nth i cs 0%Z) (nth i pos vzero) (nth i vel vzero) (net_force k (place_of pos heap) (LMesh i) ss)).
Proof.
  intros Hi. unfold rstep. cbv zeta. cbn [fst snd]. set (f := fun j => _).
  rewrite (nth_indep _ vzero (f 0%nat)) by (rewrite map_length, seq_length; auto). rewrite map_nth, seq_nth by auto. reflexivity.
Qed.

Lemma rstep_vel_nth k fr cs ss heap pos vel i : (i < 16)%nat ->
  nth i (snd (fst (rstep k fr cs ss heap pos vel))) vzero =
  snd (step_point fr (nth i cs 0%Z) (nth i pos vzero) (nth i vel vzero) (net_force k (place_of pos heap) (LMesh i) ss)).
Proof.
  intros Hi. unfold rstep. cbv zeta. cbn [fst snd]. set (f := fun j => snd _).
  rewrite (nth_indep _ vzero (f 0%nat)) by (rewrite map_length, seq_length; auto). rewrite map_nth, seq_nth by auto. reflexivity.
Qed.

Lemma euler_pushed fr (p f : vec R) c :
  c / 15 >= 1 / 10 -> vx f <= - c \/ vy f <= - c -> fst (fst (euler fr p vzero f)) <> p.
Proof.
  intros C F E. pose proof (euler_moves fr p vzero f) as [Ev Ep]. rewrite E, Ev in Ep. unfold clip2, vzero in Ep. cbn [vx vy] in Ep. rnum.
  destruct p as [px py]. cbn [vx vy] in Ep. injection Ep as Ex Ey.
  destruct F as [F|F].
  - rewrite clip_big in Ex; [lra|]. replace (0 + (vx f - fr * 0) / 15) with (vx f / 15) by lra. rewrite Rabs_left; lra.
  - rewrite clip_big in Ey; [lra|]. replace (0 + (vy f - fr * 0) / 15) with (vy f / 15) by lra. rewrite Rabs_left; lra.
Qed.

Lemma free_step t m : free_mesh m -> (0 < t <= 16)%Z ->
  exists h, let r := rstep (st_k (mset m)) (st_friction (mset m)) (t_counts (mtracked m))
                       (base_springs (tile_size (mw m) (mh m)) (mnext_id m)) [] (mpos m) (mvel m) in
    model_step t m = Ok (set_unequal (set_sim m (fst (fst r)) (snd (fst r)) h) (snd r), snd r).
Proof.
  intros F Ht. destruct (step_inactive t m (free_inactive m F) (proj1 F) (free_mesh_only m F) Ht) as (h & E).
  cbv zeta in E. rewrite free_rstep in E by auto. eauto.
Qed.

Lemma step_op_step fuel (m : model R) t : malive m = true ->
  step_op fuel m (OpStep t) = bind (model_step t m) (fun r => Ok (fst r, OMore (snd r))).
Proof. intros Al. unfold step_op. cbn [needs_model]. rewrite Al. cbn [negb andb]. destruct (model_step t m) as [[? ?]|]; reflexivity. Qed.

Lemma strong_moves p w h st ops (m : model R) fuel t :
  0 < w -> 0 < h -> reached p w h st ops m -> calm_history ops -> live_anchors ops = [] ->
  (Z.of_nat (length ops) < two32)%Z -> malive m = true -> motionless m -> 3 <= st_k (mset m) ->
  taut (mw m) (mh m) (mpos m) -> (0 < t <= 16)%Z ->
  exists m', step_op fuel m (OpStep t) = Ok (m', OMore true) /\ mpos m' <> mpos m.
Proof.
  intros W Hh Hr Ca L Bd Al V K Ta Ht. pose proof (free_reached _ _ _ _ _ _ W Hh Hr Ca L) as F.
  destruct (free_step t m F Ht) as (hp & E). cbv zeta in E. rewrite step_op_step, E by auto. cbn [bind fst snd].
  set (r := rstep _ _ _ _ _ _ _) in *.
  assert (St : snd r = true).
  { unfold r, rstep. cbv zeta. cbn [snd]. apply orb_true_iff. left. apply taut_stretched. exact Ta. }
  rewrite St. eexists. split; [reflexivity|]. cbn [set_unequal set_sim mpos].
  destruct (taut_pulls (st_k (mset m)) (mw m) (mh m) (mpos m)) as (i & Hi & Hp); [lra|auto|].
  intros Ee. apply (f_equal (fun l => nth i l vzero)) in Ee. unfold r in Ee. rewrite rstep_pos_nth, net_grid in Ee by auto.
  unfold step_point in Ee. rewrite (no_lock _ _ _ _ _ _ i Hr L Bd Hi) in Ee. unfold motionless in V. rewrite V in Ee.
  change (repeat vzero 16) with still in Ee. rewrite nth_still in Ee.
  revert Ee. apply (euler_pushed _ _ _ (st_k (mset m) / 2)); [lra|auto].
Qed.

(** A step that moves no point leaves no velocity. *)
Lemma unmoved_still p w h st ops (m m1 : model R) fuel t b :
  0 < w -> 0 < h -> reached p w h st ops m -> calm_history ops -> live_anchors ops = [] ->
  (0 < t <= 16)%Z -> step_op fuel m (OpStep t) = Ok (m1, OMore b) -> mpos m1 = mpos m -> motionless m1.
Proof.
  intros W Hh Hr Ca L Ht Es Ep. pose proof (free_reached _ _ _ _ _ _ W Hh Hr Ca L) as F.
  assert (Al : malive m = true).
  { unfold step_op in Es. cbn [needs_model] in Es. destruct (malive m); auto. discriminate Es. }
  destruct (free_step t m F Ht) as (hp & E). cbv zeta in E. rewrite step_op_step, E in Es by auto. cbn [bind fst snd] in Es.
  match type of Es with context [rstep ?a1 ?a2 ?a3 ?a4 ?a5 ?a6 ?a7] => remember (rstep a1 a2 a3 a4 a5 a6 a7) as r eqn:Er end.
  injection Es as <- <-. cbn [set_unequal set_sim mpos mvel] in *. unfold motionless. cbn [set_unequal set_sim mvel].
  change (repeat vzero 16) with (map (fun _ : nat => vzero (T:=R)) (seq 0 16)).
  etransitivity; [apply (list16 vzero); rewrite Er; apply rstep_length|]. apply map_ext_in. intros i Hi. apply in_seq in Hi.
  apply (f_equal (fun l => nth i l vzero)) in Ep. rewrite Er in Ep |- *. rewrite rstep_pos_nth in Ep by lia. rewrite rstep_vel_nth by lia.
  unfold step_point in *. destruct (0 <? nth i (t_counts (mtracked m)) 0)%Z; [reflexivity|].
  match type of Ep with fst (fst (euler ?fr ?p ?v ?f)) = _ => pose proof (euler_moves fr p v f) as [_ Mp]; destruct (euler fr p v f) as [[p' v'] bb] end.
  cbn [fst snd] in *. rewrite Mp in Ep. destruct (nth i (mpos m) vzero) as [px py]. cbn [vx vy] in Ep. injection Ep as Ex Ey.
  apply vec_eq; unfold vzero; cbn [vx vy]; rnum; lra.
Qed.

Lemma not_taut_ends p w h st ops (m : model R) fuel t :
  0 < w -> 0 < h -> reached p w h st ops m -> calm_history ops -> live_anchors ops = [] ->
  malive m = true -> motionless m -> ~ taut (mw m) (mh m) (mpos m) -> (0 < t <= 16)%Z ->
  exists m', step_op fuel m (OpStep t) = Ok (m', OMore false) /\ mpos m' = mpos m.
Proof.
  intros W Hh Hr Ca L Al V NT Ht. pose proof (free_reached _ _ _ _ _ _ W Hh Hr Ca L) as F.
  destruct (free_step t m F Ht) as (hp & E). cbv zeta in E. rewrite step_op_step, E by auto. cbn [bind fst snd].
  unfold motionless in V. rewrite V. change (repeat vzero 16) with still. rewrite rstep_rest.
  - cbn [fst snd]. eexists. split; [reflexivity|reflexivity].
  - apply (inv_pos _ (proj1 F)).
  - unfold quiet. destruct (existsb _ _) eqn:X; auto. exfalso. apply NT. eapply taut_stretched. exact X.
Qed.

(** ** Tugging one corner *)

Definition tug_by (d : R) : list (op R) := [OpGrab (mkV 0 0); OpMoveAnchor 0 (mkV d 0); OpRelease 0].
Definition tug : list (op R) := tug_by (-1).

Lemma tug_reached_by d st :
  exists m : model R, reached (mkV 0 0) 90 60 st (tug_by d) m /\
    mpos m = list_set 0 (mkV d 0) (position_array (mkV 0 0) (tile_size 90 60)) /\
    motionless m /\ malive m = true /\ mw m = 90 /\ mh m = 60 /\ mset m = st.
Proof.
  set (m0 := model_init (mkV 0 0) 90 60 st 0). assert (G0 : mpos m0 = position_array (mkV 0 0) (tile_size 90 60)) by reflexivity.
  destruct (grab_exact 0 m0 0 (mkV 0 0)) as (m1 & E1 & Hd1 & N1 & P1 & V1 & W1 & H1 & S1 & Hp1 & St1 & C1 & A1 & _ & _ & I1 & Pr1).
  { apply inv_init. } { apply predicts_fresh. } { reflexivity. } { rewrite G0. apply grid_nth0. } { intros; lia. }
  change (mhandles m0) with (@nil (nat * handle R)) in Hd1. change (mnext_handle m0) with 0%nat in *. cbn [app] in Hd1.
  change (mcount m0) with 0%Z in C1. cbn [Z.add] in C1.
  assert (E2 : exists m2, step_op 1 m1 (OpMoveAnchor 0 (mkV d 0)) = Ok (m2, ONone) /\
     mpos m2 = list_set 0 (mkV d 0) (mpos m1) /\ mvel m2 = mvel m1 /\ mhandles m2 = mhandles m1 /\ mtracked m2 = mtracked m1 /\
     mcount m2 = mcount m1 /\ malive m2 = malive m1 /\ mw m2 = mw m1 /\ mh m2 = mh m1 /\ mset m2 = mset m1).
  { unfold step_op. cbn [needs_model andb]. unfold move_anchor. rewrite Hd1. cbn [lookup_handle Nat.eqb]. rewrite A1.
    unfold active. rewrite C1. cbn [Z.eqb Pos.eqb]. cbn [set_targets mpos]. rewrite P1, G0, grid_nth0. cbn [of_option bind fst snd].
    eexists. split; [reflexivity|].
    cbn [set_pos set_targets mpos mvel mhandles mtracked mcount malive mw mh mset].
    rewrite ?P1, ?G0. split; [|repeat split; congruence].
    apply (f_equal (fun v => list_set 0 v _)). apply vec_eq; cbn [vadd vx vy]; rnum; lra. }
  destruct E2 as (m2 & E2 & P2 & V2 & Hd2 & T2 & C2 & A2 & W2 & H2 & St2).
  assert (Lk : exists c, nth_error (t_counts (mtracked m2)) 0 = Some c).
  { rewrite T2. destruct (nth_error (t_counts (mtracked m1)) 0) eqn:X; [eauto|]. apply nth_error_None in X. rewrite (inv_cnt _ I1) in X. lia. }
  destruct Lk as (c & Lk).
  assert (E3 : exists m3, step_op 1 m2 (OpRelease 0) = Ok (m3, ONone) /\
     mpos m3 = mpos m2 /\ mvel m3 = mvel m2 /\ malive m3 = malive m2 /\ mw m3 = mw m2 /\ mh m3 = mh m2 /\ mset m3 = mset m2).
  { unfold step_op. cbn [needs_model andb]. unfold release_anchor. rewrite Hd2, Hd1. cbn [lookup_handle Nat.eqb]. rewrite A2, A1.
    cbn [release_strategy set_handles mtracked]. unfold tracked_unlock. rewrite Lk. cbn [of_option bind].
    unfold deactivate. cbn [set_count mcount set_tracked set_handles]. rewrite C2, C1. cbn [Z.sub Z.add Z.opp Z.pos_sub Z.eqb Pos.eqb bind].
    eexists. split; [reflexivity|]. cbn [set_count set_tracked set_handles mpos mvel malive mw mh mset]. repeat split; congruence. }
  destruct E3 as (m3 & E3 & P3 & V3 & A3 & W3 & H3 & St3).
  exists m3. split; [|split; [|split; [|split; [|split; [|split]]]]].
  - exists 1%nat, 0%Z, [OHandle 0; ONone; ONone]. fold m0. unfold tug_by. cbn [run]. rewrite E1. cbn [bind fst snd].
    rewrite E2. cbn [bind fst snd]. rewrite E3. reflexivity.
  - rewrite P3, P2, P1, G0. reflexivity.
  - unfold motionless. rewrite V3, V2, V1. reflexivity.
  - rewrite A3, A2, A1. reflexivity.
  - rewrite W3, W2, W1. reflexivity.
  - rewrite H3, H2, H1. reflexivity.
  - rewrite St3, St2, St1. reflexivity.
Qed.

Lemma tug_reached st :
  exists m : model R, reached (mkV 0 0) 90 60 st tug m /\
    mpos m = list_set 0 (mkV (-1) 0) (position_array (mkV 0 0) (tile_size 90 60)) /\
    motionless m /\ malive m = true /\ mw m = 90 /\ mh m = 60 /\ mset m = st.
Proof. apply tug_reached_by. Qed.

Lemma clip_half_0 : clip (1 / 2) 0 = 0.
Proof. apply clip_small. rewrite Rabs_R0. lra. Qed.
Lemma clip_half_up : clip (1 / 2) (1 / 2) = 1 / 2.
Proof. apply clip_big. rewrite Rabs_right; lra. Qed.
Lemma clip_half_down : clip (1 / 2) (- (1 / 2)) = - (1 / 2).
Proof. apply clip_big. rewrite Rabs_left; lra. Qed.

Lemma tug_taut : taut 90 60 (list_set 0 (mkV (-1) 0) (position_array (T:=R) (mkV 0 0) (tile_size 90 60))).
Proof.
  rewrite grid_9060. exists 0%nat, (1%nat, mkV (90 / 3) 0). split; [lia|]. split; [left; reflexivity|].
  cbn [list_set nth fst snd]. intros [A _]. unfold extension in A. cbn [vx vy] in A.
  replace (30 - -1 - 90 / 3) with 1 in A by lra. rewrite Rabs_R1 in A. lra.
Qed.

Lemma tug_weak k : 0 < k < 3 / 2 -> too_weak k 90 60 (list_set 0 (mkV (-1) 0) (position_array (T:=R) (mkV 0 0) (tile_size 90 60))).
Proof.
  intros K. rewrite grid_9060. cbn [list_set].
  assert (X : forall i, In i (seq 0 16) -> exists c d, (Rabs c <= 1 /\ Rabs d <= 1) /\
    grid_pull k 90 60 [mkV (-1) 0; mkV 30 0; mkV 60 0; mkV 90 0; mkV 0 20; mkV 30 20; mkV 60 20; mkV 90 20; mkV 0 40; mkV 30 40;
      mkV 60 40; mkV 90 40; mkV 0 60; mkV 30 60; mkV 60 60; mkV 90 60] i = mkV (k * c) (k * d)).
  { intros i Hi. cbn [seq In] in Hi.
    repeat (destruct Hi as [<-|Hi]); try destruct Hi;
    unfold grid_pull, neighbours; cbn [Nat.ltb Nat.leb Nat.div Nat.modulo Nat.divmod Nat.sub Nat.add fst snd app fold_right nth];
    unfold pull, extension, vadd, vzero; cbn [vx vy]; rnum.
    all: repeat match goal with |- context [clip (1 / 2) ?x] =>
       first [ replace x with 0 by lra; rewrite clip_half_0 | replace x with (1 / 2) by lra; rewrite clip_half_up
             | replace x with (- (1 / 2)) by lra; rewrite clip_half_down ] end.
    1: exists 1, 0. 2: exists (- (1 / 2)), 0. 5: exists (- (1 / 2)), 0. 3-4: exists 0, 0. 6-16: exists 0, 0.
    all: split; [split; unfold Rabs; destruct (Rcase_abs _); lra|f_equal; lra]. }
  intros i Hi. destruct (X i) as (c & d & (Hc & Hd) & ->); [apply in_seq; lia|]. cbn [vx vy].
  rewrite !Rabs_mult, (Rabs_right k) by lra. pose proof (Rabs_pos c). pose proof (Rabs_pos d).
  assert (k * Rabs c <= k * 1) by (apply Rmult_le_compat_l; lra).
  assert (k * Rabs d <= k * 1) by (apply Rmult_le_compat_l; lra). lra.
Qed.

Lemma clip_unmoved x t a : 0 < t -> a + clip t x / 2 = a -> Rabs x < t.
Proof. intros T E. apply clip_zero; [auto|lra]. Qed.

Lemma euler_unmoved fr (p f : vec R) :
  fst (fst (euler fr p vzero f)) = p -> Rabs (vx f) / 15 < 1 / 10 /\ Rabs (vy f) / 15 < 1 / 10.
Proof.
  intros E. pose proof (euler_moves fr p vzero f) as [Ev Ep]. rewrite E, Ev in Ep. unfold clip2, vzero in Ep. cbn [vx vy] in Ep. rnum.
  destruct p as [px py]. cbn [vx vy] in Ep. injection Ep as Ex Ey.
  symmetry in Ex, Ey. apply clip_unmoved in Ex; [|lra]. apply clip_unmoved in Ey; [|lra].
  replace (0 + (vx f - fr * 0) / 15) with (vx f * / 15) in Ex by lra.
  replace (0 + (vy f - fr * 0) / 15) with (vy f * / 15) in Ey by lra.
  rewrite Rabs_mult, (Rabs_right (/ 15)) in Ex, Ey by lra. lra.
Qed.

Lemma stall_exact p w h st ops (m : model R) fuel t :
  0 < w -> 0 < h -> reached p w h st ops m -> calm_history ops -> live_anchors ops = [] ->
  (Z.of_nat (length ops) < two32)%Z -> malive m = true -> motionless m -> (0 < t <= 16)%Z ->
  (exists m', step_op fuel m (OpStep t) = Ok (m', OMore true) /\ mpos m' = mpos m) <->
  too_weak (st_k (mset m)) (mw m) (mh m) (mpos m) /\ taut (mw m) (mh m) (mpos m).
Proof.
  intros W Hh Hr Ca L Bd Al V Ht. pose proof (free_reached _ _ _ _ _ _ W Hh Hr Ca L) as F. split.
  - intros (m' & E & Ep). split.
    + intros i Hi. destruct (free_step t m F Ht) as (hp & E'). cbv zeta in E'. rewrite step_op_step, E' in E by auto. cbn [bind fst snd] in E.
      match type of E with context [rstep ?a1 ?a2 ?a3 ?a4 ?a5 ?a6 ?a7] => remember (rstep a1 a2 a3 a4 a5 a6 a7) as r eqn:Er end.
      injection E as <- _. cbn [set_unequal set_sim mpos] in Ep. apply (f_equal (fun l => nth i l vzero)) in Ep.
      rewrite Er, rstep_pos_nth, net_grid in Ep by auto. unfold step_point in Ep. rewrite (no_lock _ _ _ _ _ _ i Hr L Bd Hi) in Ep.
      unfold motionless in V. rewrite V in Ep. change (repeat vzero 16) with still in Ep. rewrite nth_still in Ep.
      apply euler_unmoved in Ep. exact Ep.
    + apply (taut_stretched _ _ _ [] 0%Z). destruct (existsb _ _) eqn:X; auto. exfalso.
      destruct (not_taut_ends p w h st ops m fuel t) as (m2 & E2 & _); auto.
      { intros T. apply (taut_stretched _ _ _ [] 0%Z) in T. congruence. }
      rewrite E in E2. injection E2 as _ X2. discriminate X2.
  - intros (Wk & Ta). assert (S1 : stalled m) by (split; [auto|split; [exact V|auto]]).
    destruct (stalled_step t m S1) as (hp & E); [lia|]. rewrite step_op_step, E by auto. cbn [bind fst snd]. eexists. split; reflexivity.
Qed.
